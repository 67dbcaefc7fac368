(** Proofs: the objectives of the hyper-parameter searches and the trained models, in terms of likelihoods. *)
From Coq Require Import Reals Lra Arith.
From Verif Require Import Fl.
From mathcomp Require Import all_ssreflect all_algebra.
From Verif Require Import RStruct LinAlg LinSpec LinAlgFacts Kernel KernelFacts Krig KrigFacts GP GPSpec GPFacts GPMain MF MFMain CoKrig CoKrigMain MFUnits LikSpec LikFacts.
Set Implicit Arguments.
Unset Strict Implicit.
Unset Printing Implicit Defensive.
Import GRing.Theory.
Local Open Scope ring_scope.
Local Arguments chol : simpl never.

Definition lik_const n : R := Rmult (Rdiv (INR n) 2) (Rplus 1 (ln (Rmult 2 PI))).
Definition unit_const n : R := Rmult (Rdiv (INR n) 2) (ln (Rmult 2 PI)).

Lemma corr_kernel d n (k : rbf d) (X : 'M[R]_(n, d)) theta r :
  kernel_call k X X theta + (Rmult r r)%:M = corr_mx theta X (Rplus jitter (Rmult r r)).
Proof.
rewrite kernel_callE -/(noise_matrix X (set_params k theta) r) noise_matrixE; last exact: set_params_pos. by [].
Qed.
Lemma corr_noise d n (k : rbf d) (X : 'M[R]_(n, d)) theta r :
  noise_matrix X (set_params k theta) r = corr_mx theta X (Rplus jitter (Rmult r r)).
Proof. by rewrite -(corr_kernel k). Qed.
Lemma corr_pos d n (X : 'M[R]_(n, d)) theta r : posdef (corr_mx theta X (Rplus jitter (Rmult r r))).
Proof. rewrite -(corr_noise (RBF 0)); apply: kernel_noise_pos; exact: set_params_pos. Qed.
Lemma no_span_n n p (F : 'M[R]_(n, p)) Y : ~ in_span F Y -> (0 < n)%N.
Proof. by case: n F Y => // F Y H; case: H; exists 0; rewrite [Y]flatmx0 mulmx0. Qed.

(** ** any of the three objectives with a least-squares fit *)
Section Objective.
Variables (n p : nat) (K : 'M[R]_n) (F : 'M[R]_(n, p)) (Y : 'cV[R]_n).
Definition objective_of (k : krig n p) (concentrated : bool) : R :=
  Ropp (Rminus (Rmult (Rmult (Ropp (Rdiv 1 2)) (INR n)) (if concentrated then ln (kr_sigma2 k) else kr_sigma2 k)) (sum_log_diag (kr_L k))).
Lemma concentrated_lik k : fit_spec K F Y k -> ~ in_span F Y ->
  (exists s2 b, (0 < s2)%Re /\ gauss_nll (s2 *: K) (F *m b) Y = Rplus (objective_of k true) (lik_const n)) /\
  (forall s2 b, (0 < s2)%Re -> (objective_of k true + lik_const n <= gauss_nll (s2 *: K) (F *m b) Y)%Re).
Proof.
move=> H NS; have n0 := no_span_n NS; have s0 := span_sigma2 n0 H NS.
have E := mle_value n0 H s0; have V : profile k = objective_of k true by rewrite /profile /objective_of; lra.
rewrite V -/(lik_const n) in E; split; first by exists (kr_sigma2 k), (kr_beta k).
by move=> s2 b Hs; rewrite -E; exact: (proj1 (mle_minimal n0 H b s0 Hs)).
Qed.
Lemma unit_lik k : fit_spec K F Y k -> (0 < n)%N ->
  (exists b, gauss_nll K (F *m b) Y = Rplus (objective_of k false) (unit_const n)) /\
  (forall b, (objective_of k false + unit_const n <= gauss_nll K (F *m b) Y)%Re).
Proof.
move=> H n0; have E := unit_fit n0 H; have V : unit_value k = objective_of k false by rewrite /unit_value /objective_of; lra.
rewrite V -/(unit_const n) in E; split; first by exists (kr_beta k).
by move=> b; rewrite -E; exact: (proj1 (unit_minimal H b)).
Qed.
End Objective.

(** ** Gaussian process *)
Section GPLik.
Variables (d p : nat) (phi : 'rV[R]_d -> 'rV[R]_p).
Lemma loglik_inv n noise (X : 'M[R]_(n, d)) (Y : 'cV[R]_n) ys k h v : loglik phi noise X Y ys k h = Ok v ->
  let r := if noise is Some s then Rdiv s ys else h_sigma h in
  exists m, fit_spec (corr_mx (h_theta h) X (Rplus jitter (Rmult r r))) (regr_matrix phi X) Y m /\
    v = objective_of m (if noise is Some s then Req_EM_T s 0 : bool else false).
Proof.
move=> E r; move: E; rewrite /loglik corr_kernel -/r. case E: (krig_fit _ _ _) => [m|//] /= [<-].
exists m; split=> //. exact: krig_fit_spec (proj1 (corr_pos _ _ _)) E.
Qed.
Lemma loglik_concentrated n (X : 'M[R]_(n, d)) (Y : 'cV[R]_n) ys k h v : loglik phi (Some R0) X Y ys k h = Ok v ->
  let K := corr_mx (h_theta h) X (Rinv (pow 10 10)) in let F := regr_matrix phi X in
  ~ in_span F Y ->
  (exists s2 b, (0 < s2)%Re /\ gauss_nll (s2 *: K) (F *m b) Y = Rplus v (lik_const n)) /\
  (forall s2 b, (0 < s2)%Re -> (v + lik_const n <= gauss_nll (s2 *: K) (F *m b) Y)%Re).
Proof.
case/loglik_inv => m []. rewrite /Rdiv Rmult_0_l Rmult_0_l Rplus_0_r -/jitter => Hf; case: (Req_EM_T _ _) => [e|N] -> NS; last by case: N.
exact: (concentrated_lik Hf NS).
Qed.
Lemma loglik_unit n noise (X : 'M[R]_(n, d)) (Y : 'cV[R]_n) ys k h v : (0 < n)%N -> noise <> Some R0 -> loglik phi noise X Y ys k h = Ok v ->
  let r := if noise is Some s then Rdiv s ys else h_sigma h in
  let K := corr_mx (h_theta h) X (Rplus (Rinv (pow 10 10)) (Rmult r r)) in let F := regr_matrix phi X in
  (exists b, gauss_nll K (F *m b) Y = Rplus v (unit_const n)) /\
  (forall b, (v + unit_const n <= gauss_nll K (F *m b) Y)%Re).
Proof.
move=> n0 N /loglik_inv [m [Hf E]] r K F; have -> : v = objective_of m false; last exact: (unit_lik Hf n0).
by rewrite E; case: (noise) N => [s|//] N; case: (Req_EM_T _ _) => [Z|//]; case: N; rewrite Z.
Qed.

(** the trained coefficients and variance are the maximum likelihood estimates *)
Variables (lo hi : 'rV[R]_d).
Lemma gp_mle n (o o' : gp d p) (X : 'M[R]_(n, d)) (Y : 'cV[R]_n) s t :
  gp_train phi lo hi o X Y s = Ok o' -> gp_model o' = Some t ->
  let F := regr_matrix phi (tr_X t) in
  let nll s2 b := gauss_nll (s2 *: tr_K t) (F *m b) (tr_Y t) in
  let s2 := kr_sigma2 (tr_krig t) in let b := kr_beta (tr_krig t) in
  ~ in_span F (tr_Y t) ->
  (0 < s2)%Re /\ forall s2' b', (0 < s2')%Re -> (nll s2 b <= nll s2' b')%Re /\ (nll s2' b' = nll s2 b -> s2' = s2 /\ b' = b).
Proof.
case/train_inv => HY [h [k [_ [Hf ->]]]] [<-] /= NS; have n0 := no_span_n NS; have s0 := span_sigma2 n0 Hf NS.
split=> // s2' b' H0; exact: (mle_minimal n0 Hf b' s0 H0).
Qed.
(** ... and with noise 0 the value of the search objective at the parameters it kept is their likelihood *)
Lemma gp_mle_value n (o o' : gp d p) (X : 'M[R]_(n, d)) (Y : 'cV[R]_n) s t :
  gp_train phi lo hi o X Y s = Ok o' -> gp_model o' = Some t -> gp_noise o = Some R0 -> (0 < kr_sigma2 (tr_krig t))%Re ->
  exists h v, hyper_search (gp_restart o) (loglik phi (gp_noise o) (normalize_input lo hi X) (normalize_output Y) (stdev Y) (gp_kernel o)) s = Ok h /\
    loglik phi (gp_noise o) (normalize_input lo hi X) (normalize_output Y) (stdev Y) (gp_kernel o) h = Ok v /\
    gauss_nll (kr_sigma2 (tr_krig t) *: tr_K t) (regr_matrix phi (tr_X t) *m kr_beta (tr_krig t)) (tr_Y t) = Rplus v (lik_const n).
Proof.
move=> Ht Et Hn; have [h [Eh [_ /(_ Hn) Ev]]] := gp_logp Ht Et; move: Ev.
case/train_inv: Ht => HY [h' [k [Eh' [Hf Eo]]]]; move: Et; rewrite Eo => -[<-] /= Ev s0; exists h; eexists; split=> //; split; first exact: Ev.
have n0 := stdev_nz HY. rewrite (mle_value n0 Hf s0) /profile /lik_const. lra.
Qed.
End GPLik.

(** ** the low-fidelity process inside Co-Kriging, and hierarchical Kriging *)
Lemma lgp_loglikE d n noise (X : 'M[R]_(n, d)) (Y : 'cV[R]_n) k h :
  lgp_loglik noise X Y k h = loglik (@Ordinary d) noise X Y 1 k h.
Proof. by rewrite /lgp_loglik /loglik; case: noise => [s|//]; rewrite /Rdiv Rinv_1 Rmult_1_r. Qed.
Lemma hk_loglik_inv d n noise (X : 'M[R]_(n, d)) (Y : 'cV[R]_n) F ys k h v : hk_loglik noise X Y F ys k h = Ok v ->
  let r := if noise is Some s then Rdiv s ys else h_sigma h in
  exists m, fit_spec (corr_mx (h_theta h) X (Rplus jitter (Rmult r r))) F Y m /\
    v = objective_of m (if noise is Some s then Req_EM_T s 0 : bool else false).
Proof.
move=> E r; move: E; rewrite /hk_loglik corr_kernel -/r. case E: (krig_fit _ _ _) => [m|//] /= [<-].
exists m; split=> //. exact: krig_fit_spec (proj1 (corr_pos _ _ _)) E.
Qed.
Lemma hk_concentrated d n (X : 'M[R]_(n, d)) (Y : 'cV[R]_n) F ys k h v : hk_loglik (Some R0) X Y F ys k h = Ok v ->
  let K := corr_mx (h_theta h) X (Rinv (pow 10 10)) in
  ~ in_span F Y ->
  (exists s2 b, (0 < s2)%Re /\ gauss_nll (s2 *: K) (F *m b) Y = Rplus v (lik_const n)) /\
  (forall s2 b, (0 < s2)%Re -> (v + lik_const n <= gauss_nll (s2 *: K) (F *m b) Y)%Re).
Proof.
case/hk_loglik_inv => m []. rewrite /Rdiv Rmult_0_l Rmult_0_l Rplus_0_r -/jitter => Hf; case: (Req_EM_T _ _) => [e|N] -> NS; last by case: N.
exact: (concentrated_lik Hf NS).
Qed.
Lemma hk_unit d n noise (X : 'M[R]_(n, d)) (Y : 'cV[R]_n) F ys k h v : (0 < n)%N -> noise <> Some R0 -> hk_loglik noise X Y F ys k h = Ok v ->
  let r := if noise is Some s then Rdiv s ys else h_sigma h in
  let K := corr_mx (h_theta h) X (Rplus (Rinv (pow 10 10)) (Rmult r r)) in
  (exists b, gauss_nll K (F *m b) Y = Rplus v (unit_const n)) /\
  (forall b, (v + unit_const n <= gauss_nll K (F *m b) Y)%Re).
Proof.
move=> n0 N /hk_loglik_inv [m [Hf E]] r K; have -> : v = objective_of m false; last exact: (unit_lik Hf n0).
by rewrite E; case: (noise) N => [s|//] N; case: (Req_EM_T _ _) => [Z|//]; case: N; rewrite Z.
Qed.
Lemma hk_mle d (lo hi : 'rV[R]_d) nh nl (o o' : hk d) (Xh : 'M[R]_(nh, d)) (Yh : 'cV[R]_nh) (Xl : 'M[R]_(nl, d)) (Yl : 'cV[R]_nl) sl sh t :
  hk_train lo hi o Xh Yh Xl Yl sl sh = Ok o' -> hk_model o' = Some t ->
  let nll s2 b := gauss_nll (s2 *: hk_K t) (hk_F t *m b) (hk_Y t) in
  let s2 := kr_sigma2 (hk_krig t) in let b := kr_beta (hk_krig t) in
  ~ in_span (hk_F t) (hk_Y t) ->
  (0 < s2)%Re /\ forall s2' b', (0 < s2')%Re -> (nll s2 b <= nll s2' b')%Re /\ (nll s2' b' = nll s2 b -> s2' = s2 /\ b' = b).
Proof.
case/hk_train_inv => lf [F0 [h [k [El [HY [EF [_ [Hf ->]]]]]]]] [<-] /= NS; have n0 := no_span_n NS; have s0 := span_sigma2 n0 Hf NS.
split=> // s2' b' H0; exact: (mle_minimal n0 Hf b' s0 H0).
Qed.

(** ** Co-Kriging *)
Lemma ones_full n : (0 < n)%N -> full_rank (const_mx 1 : 'M[R]_(n, 1)).
Proof.
case: n => // n _ x /matrixP /(_ 0 0); rewrite !mxE big_ord_recl big_ord0 addr0 !mxE mul1r => E.
by apply/matrixP => i j; rewrite !ord1 mxE.
Qed.
Lemma ones_mul n (b : 'cV[R]_1) : (const_mx 1 : 'M[R]_(n, 1)) *m b = const_mx (b 0 0).
Proof. by apply/matrixP => i j; rewrite !mxE big_ord_recl big_ord0 addr0 !mxE mul1r [j]ord1. Qed.
Lemma ck_fit_krig n (K : 'M[R]_n) (D : 'cV[R]_n) : (0 < n)%N -> posdef K ->
  exists k : krig n 1, fit_spec K (const_mx 1) D k /\ ck_fit K D = Ok (kr_L k, gls_mean K D, kr_sigma2 k) /\ kr_beta k = const_mx (gls_mean K D) /\
  kr_sigma2 k = ck_disc K D.
Proof.
move=> n0 PK; have [k Ek] := krig_fit_ok D PK (ones_full n0); have Hf := krig_fit_spec PK.1 Ek.
have [L [EL EF]] := ck_fit_ok D PK.
have Eb : kr_beta k = const_mx (gls_mean K D).
  have PN := pos_unit (fs_N Hf); apply: (can_inj (mulKmx PN)). rewrite (fs_beta Hf) mulKVmx //.
  apply: mx11_eq; rewrite [in RHS]mxE big_ord_recl big_ord0 addr0 [const_mx _ _ _]mxE /gls_mean.
  have EN : normal_mx K (const_mx 1 : 'M[R]_(n, 1)) 0 0 = qf (invmx K) (const_mx 1) by rewrite /normal_mx /qf mulmxA.
  have Q : (0 < qf (invmx K) (const_mx 1))%Re by exact: ones_pos (pos_inv PK).
  have A (a q : R) : q <> R0 -> a = q * Rdiv a q by move=> q0; toR; field.
  by rewrite EN; apply: A => Z; rewrite Z in Q; exact: (Rlt_irrefl _ Q).
have Es : kr_sigma2 k = Rdiv (qf (invmx K) (D - const_mx (gls_mean K D))) (INR n).
  by rewrite (fs_sigma2 Hf) /gls Eb ones_mul mxE.
exists k; split=> //; split; last by split. rewrite EF -Es; congr (Ok (_, _, _)). by have := fs_L Hf; rewrite EL => -[].
Qed.
Lemma ck_loglik_inv d n noise (X : 'M[R]_(n, d)) (Y pred : 'cV[R]_n) ys k h v : (0 < n)%N -> ck_loglik noise X Y pred ys k h = Ok v ->
  let r := if noise is Some s then Rdiv s ys else ch_sigma h in
  exists m, fit_spec (corr_mx (ch_theta h) X (Rplus jitter (Rmult r r))) (const_mx 1 : 'M[R]_(n, 1)) (Y - ch_rho h *: pred) m /\
    v = objective_of m (if noise is Some s then Req_EM_T s 0 : bool else false).
Proof.
move=> n0 E r; move: E; rewrite /ck_loglik corr_kernel -/r.
have [m [Hf [-> _]]] := ck_fit_krig (Y - ch_rho h *: pred) n0 (corr_pos X (ch_theta h) r). by move=> [<-]; exists m.
Qed.
Lemma nll_shift n (V : 'M[R]_n) (Y a b : 'cV[R]_n) : gauss_nll V (a + b) Y = gauss_nll V b (Y - a).
Proof. by rewrite /gauss_nll opprD addrA. Qed.
Lemma span_const n (D : 'cV[R]_n) : in_span (const_mx 1 : 'M[R]_(n, 1)) D -> constant D.
Proof. by case=> b ->; move=> i j; rewrite ones_mul !mxE. Qed.
Lemma nonconstant_n n (D : 'cV[R]_n) : ~ constant D -> (0 < n)%N.
Proof. by case: n D => // D H; case: H => -[]. Qed.
Lemma ck_concentrated d n (X : 'M[R]_(n, d)) (Y pred : 'cV[R]_n) ys k h v : ck_loglik (Some R0) X Y pred ys k h = Ok v ->
  let K := corr_mx (ch_theta h) X (Rinv (pow 10 10)) in
  let trend b := ch_rho h *: pred + const_mx b in
  ~ constant (Y - ch_rho h *: pred) ->
  (exists s2 b, (0 < s2)%Re /\ gauss_nll (s2 *: K) (trend b) Y = Rplus v (lik_const n)) /\
  (forall s2 b, (0 < s2)%Re -> (v + lik_const n <= gauss_nll (s2 *: K) (trend b) Y)%Re).
Proof.
move=> E K trend NC; case/(ck_loglik_inv (nonconstant_n NC)): E => m [].
rewrite /Rdiv Rmult_0_l Rmult_0_l Rplus_0_r -/jitter => Hf; case: (Req_EM_T _ _) => [e|N] ->; last by case: N.
have [|[s2 [b [Hs E]]] M] := concentrated_lik Hf; first by move/span_const.
split; first by exists s2, (b 0 0); split=> //; rewrite -E nll_shift ones_mul.
by move=> s2' b' H0; have := M s2' (const_mx b') H0; rewrite nll_shift ones_mul mxE.
Qed.
Lemma ck_unit d n noise (X : 'M[R]_(n, d)) (Y pred : 'cV[R]_n) ys k h v : (0 < n)%N -> noise <> Some R0 -> ck_loglik noise X Y pred ys k h = Ok v ->
  let r := if noise is Some s then Rdiv s ys else ch_sigma h in
  let K := corr_mx (ch_theta h) X (Rplus (Rinv (pow 10 10)) (Rmult r r)) in
  let trend b := ch_rho h *: pred + const_mx b in
  (exists b, gauss_nll K (trend b) Y = Rplus v (unit_const n)) /\
  (forall b, (v + unit_const n <= gauss_nll K (trend b) Y)%Re).
Proof.
move=> n0 N /(ck_loglik_inv n0) [m [Hf E]] r K trend; have [[b Eb] M] := unit_lik Hf n0.
have -> : v = objective_of m false.
  by rewrite E; case: (noise) N => [s|//] N; case: (Req_EM_T _ _) => [Z|//]; case: N; rewrite Z.
split; first by exists (b 0 0); rewrite -Eb nll_shift ones_mul.
by move=> b'; have := M (const_mx b'); rewrite nll_shift ones_mul mxE.
Qed.
(** the discrepancy variance, and the common mean of all responses *)
Lemma ck_mle d (lo hi : 'rV[R]_d) nh nl (o o' : ck d) (Xh : 'M[R]_(nh, d)) (Yh : 'cV[R]_nh) (Xl : 'M[R]_(nl, d)) (Yl : 'cV[R]_nl) sl sh t :
  ck_train lo hi o Xh Yh Xl Yl sl sh = Ok o' -> ck_model o' = Some t ->
  let D := dsubmx (ct_y t) - ct_rho t *: lgp_predict (ck_lf o') (ct_lf t) (ct_Xh t) in
  let nll s2 b := gauss_nll (s2 *: ct_K t) (const_mx b) D in
  ~ constant D ->
  (0 < ct_sigma2 t)%Re /\ exists b, forall s2' b', (0 < s2')%Re ->
    (nll (ct_sigma2 t) b <= nll s2' b')%Re /\ (nll s2' b' = nll (ct_sigma2 t) b -> s2' = ct_sigma2 t /\ b' = b).
Proof.
move/ck_train_inv => [HY [lf [t' [h [L [LC [El [Eh [-> [EK [E1 E2]]]]]]]]]]] [<-] /=; rewrite col_mxKd.
set D := _ - _ => NC; set K := noise_matrix _ _ _.
have n0 := nonconstant_n NC.
have PK : posdef K by apply: kernel_noise_pos; exact: set_params_pos.
have [m [Hf [_ [Eb Es]]]] := ck_fit_krig D n0 PK.
have s0 : (0 < kr_sigma2 m)%Re by apply: (span_sigma2 n0 Hf) => /span_const.
rewrite -Es; split=> //; exists (gls_mean K D) => s2' b' H0.
have := mle_minimal n0 Hf (const_mx b') s0 H0; rewrite Eb !ones_mul !mxE => -[M U]; split=> // E.
have [-> /matrixP /(_ 0 0)] := U E. by rewrite !mxE.
Qed.
Lemma ck_mean_mle d (lo hi : 'rV[R]_d) nh nl (o o' : ck d) (Xh : 'M[R]_(nh, d)) (Yh : 'cV[R]_nh) (Xl : 'M[R]_(nl, d)) (Yl : 'cV[R]_nl) sl sh t :
  ck_train lo hi o Xh Yh Xl Yl sl sh = Ok o' -> ck_model o' = Some t ->
  let nll b := gauss_nll (ct_C t + (Rinv (pow 10 10))%:M) (const_mx b) (ct_y t) in
  forall b, (nll (ct_mu t) <= nll b)%Re /\ (nll b = nll (ct_mu t) -> b = ct_mu t).
Proof.
move/ck_train_inv => [HY [lf [t' [h [L [LC [El [Eh [-> [EK [E1 E2]]]]]]]]]]] [<-] /=.
have n0 : (0 < nl + nh)%N by rewrite addn_gt0 (stdev_nz HY) orbT.
rewrite -/jitter; set C := _ + jitter%:M; set y := col_mx _ _ => b.
have PC : posdef C by exact: E2.
have [m [Hf [_ [Eb _]]]] := ck_fit_krig y n0 PC.
have := unit_minimal Hf (const_mx b); rewrite Eb !ones_mul !mxE => -[M U]; split=> // E.
by have /matrixP /(_ 0 0) := U E; rewrite !mxE.
Qed.

(** ** with the Ordinary basis the responses are never in the span *)
Lemma normalized_constant n (Y : 'cV[R]_n) : stdev Y <> R0 -> constant (normalize_output Y) -> constant Y.
Proof.
move=> HY C i j; have := C i j; rewrite !mxE => E.
have Q (y : R) : y = Rplus (Rmult (Rdiv (Rminus y (mean Y)) (stdev Y)) (stdev Y)) (mean Y) by field.
by rewrite (Q (Y i 0)) E -Q.
Qed.
Lemma ordinary_span d n (X : 'M[R]_(n, d)) (Y : 'cV[R]_n) : ~ constant Y -> ~ in_span (regr_matrix (@Ordinary d) X) (normalize_output Y).
Proof.
move=> NC [b E]; have HY : stdev Y <> R0 by exact: nonconstant. apply: NC; apply: (normalized_constant HY) => i j.
by rewrite E !mxE; apply: eq_bigr => l _; rewrite !mxE.
Qed.
Lemma constant_stdev n (Y : 'cV[R]_n) : constant Y -> stdev Y = R0.
Proof.
case: n Y => [|n] Y C; first by rewrite /stdev big_ord0 /Rdiv Rmult_0_l sqrt_0.
have M : mean Y = Y 0 0.
  rewrite /mean (eq_bigr (fun _ => Y 0 0)) => [|i _]; last exact: C. rewrite sum_const.
  have P := lt_0_INR n.+1 (Nat.lt_0_succ n). field. lra.
rewrite /stdev big1 => [|i _]; first by rewrite /Rdiv Rmult_0_l sqrt_0.
rewrite M (C i 0); toR; ring.
Qed.
Lemma trained_varied d p (phi : 'rV[R]_d -> 'rV[R]_p) (lo hi : 'rV[R]_d) n (o o' : gp d p) (X : 'M[R]_(n, d)) (Y : 'cV[R]_n) s :
  gp_train phi lo hi o X Y s = Ok o' -> ~ constant Y.
Proof. case/train_inv => HY _ C; apply: HY; exact: constant_stdev. Qed.
Lemma gp_mle_ordinary d (lo hi : 'rV[R]_d) n (o o' : gp d 1) (X : 'M[R]_(n, d)) (Y : 'cV[R]_n) s t :
  gp_train (@Ordinary d) lo hi o X Y s = Ok o' -> gp_model o' = Some t ->
  let F := regr_matrix (@Ordinary d) (tr_X t) in
  let nll s2 b := gauss_nll (s2 *: tr_K t) (F *m b) (tr_Y t) in
  let s2 := kr_sigma2 (tr_krig t) in let b := kr_beta (tr_krig t) in
  (0 < s2)%Re /\ forall s2' b', (0 < s2')%Re -> (nll s2 b <= nll s2' b')%Re /\ (nll s2' b' = nll s2 b -> s2' = s2 /\ b' = b).
Proof.
move=> Ht Et; apply: (gp_mle Ht Et). have NC := trained_varied Ht.
move: Et; case/train_inv: Ht => HY [h [k [_ [_ ->]]]] [<-] /=. exact: ordinary_span.
Qed.
