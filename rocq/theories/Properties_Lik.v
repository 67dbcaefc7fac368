(** Theorems about likelihoods (C117, C118) and about the order of the samples (C119).  [loglik], [hk_loglik],
    [ck_loglik] and [lgp_loglik] are the objectives the searches for hyper-parameters minimise, in exact
    arithmetic (GP.v, MF.v, CoKrig.v).  [gauss_nll V m Y] is minus the logarithm of the normal density with mean
    m and covariance V at Y, [corr_mx theta X c] the Gaussian correlation matrix with c added on its diagonal
    (LikSpec.v). *)
From Coq Require Import Reals Lra List.
From Verif Require Import Fl Spec.
From mathcomp Require Import all_ssreflect fingroup perm all_algebra.
From Verif Require Import RStruct LinAlg LinSpec LinAlgFacts Kernel KernelFacts Krig KrigFacts GP GPSpec GPFacts GPMain MF CoKrig MFSpec MFMain CoKrigMain MFUnits LikSpec LikFacts LikMain LikEx OrderFacts Properties_GP Properties_MF.
Set Implicit Arguments.
Unset Strict Implicit.
Unset Printing Implicit Defensive.
Import GRing.Theory.
Local Open Scope ring_scope.

(** ** C117 Gaussian process: what the search minimises *)
(** noise 0: minus the log likelihood, maximised over the variance and the coefficients, up to a constant *)
Theorem C117_concentrated : forall d p (phi : 'rV[R]_d -> 'rV[R]_p) n (X : 'M[R]_(n, d)) (Y : 'cV[R]_n) ys k h v,
  loglik phi (Some R0) X Y ys k h = Ok v ->
  let K := corr_mx (h_theta h) X (Rinv (pow 10 10)) in let F := regr_matrix phi X in
  let c := Rmult (Rdiv (INR n) 2) (Rplus 1 (ln (Rmult 2 PI))) in
  ~ in_span F Y ->
  (exists s2 b, (0 < s2)%Re /\ gauss_nll (s2 *: K) (F *m b) Y = Rplus v c) /\
  (forall s2 b, (0 < s2)%Re -> (v + c <= gauss_nll (s2 *: K) (F *m b) Y)%Re).
Proof. exact loglik_concentrated. Qed.
Print Assumptions C117_concentrated.
(** any other noise, given or learned: the same with the variance fixed at 1 *)
Theorem C117_unit_variance : forall d p (phi : 'rV[R]_d -> 'rV[R]_p) n noise (X : 'M[R]_(n, d)) (Y : 'cV[R]_n) ys k h v,
  (0 < n)%N -> noise <> Some R0 -> loglik phi noise X Y ys k h = Ok v ->
  let r := if noise is Some s then Rdiv s ys else h_sigma h in
  let K := corr_mx (h_theta h) X (Rplus (Rinv (pow 10 10)) (Rmult r r)) in let F := regr_matrix phi X in
  let c := Rmult (Rdiv (INR n) 2) (ln (Rmult 2 PI)) in
  (exists b, gauss_nll K (F *m b) Y = Rplus v c) /\
  (forall b, (v + c <= gauss_nll K (F *m b) Y)%Re).
Proof. exact loglik_unit. Qed.
Print Assumptions C117_unit_variance.
Example C117_objective_ok noise : (exists v, loglik (@Ordinary 1) noise ex_X (normalize_output ex_Y) (stdev ex_Y) (rbf_new 0) (Hyper 0 1) = Ok v) /\
  ~ in_span (regr_matrix (@Ordinary 1) ex_X) (normalize_output ex_Y).
Proof.
split; first by apply: loglik_ok; exact: ordinary_full. exact: (ordinary_span (X := ex_X) ex_varied).
Qed.
(** with any noise the trained coefficients and variance are the unique maximum of the likelihood, given the
    trained correlations *)
Theorem C117_maximum : forall d p (phi : 'rV[R]_d -> 'rV[R]_p) (lo hi : 'rV[R]_d) n (o o' : gp d p) (X : 'M[R]_(n, d)) (Y : 'cV[R]_n) s t,
  gp_train phi lo hi o X Y s = Ok o' -> gp_model o' = Some t ->
  let F := regr_matrix phi (tr_X t) in
  let nll s2 b := gauss_nll (s2 *: tr_K t) (F *m b) (tr_Y t) in
  let s2 := kr_sigma2 (tr_krig t) in let b := kr_beta (tr_krig t) in
  ~ in_span F (tr_Y t) ->
  (0 < s2)%Re /\ forall s2' b', (0 < s2')%Re -> (nll s2 b <= nll s2' b')%Re /\ (nll s2' b' = nll s2 b -> s2' = s2 /\ b' = b).
Proof. exact gp_mle. Qed.
Print Assumptions C117_maximum.
Theorem C117_maximum_ordinary : forall d (lo hi : 'rV[R]_d) n (o o' : gp d 1) (X : 'M[R]_(n, d)) (Y : 'cV[R]_n) s t,
  gp_train (@Ordinary d) lo hi o X Y s = Ok o' -> gp_model o' = Some t ->
  let F := regr_matrix (@Ordinary d) (tr_X t) in
  let nll s2 b := gauss_nll (s2 *: tr_K t) (F *m b) (tr_Y t) in
  let s2 := kr_sigma2 (tr_krig t) in let b := kr_beta (tr_krig t) in
  (0 < s2)%Re /\ forall s2' b', (0 < s2')%Re -> (nll s2 b <= nll s2' b')%Re /\ (nll s2' b' = nll s2 b -> s2' = s2 /\ b' = b).
Proof. exact gp_mle_ordinary. Qed.
Print Assumptions C117_maximum_ordinary.
(** with noise 0 the value of the objective at the parameters kept is that maximum *)
Theorem C117_value : forall d p (phi : 'rV[R]_d -> 'rV[R]_p) (lo hi : 'rV[R]_d) n (o o' : gp d p) (X : 'M[R]_(n, d)) (Y : 'cV[R]_n) s t,
  gp_train phi lo hi o X Y s = Ok o' -> gp_model o' = Some t -> gp_noise o = Some R0 -> (0 < kr_sigma2 (tr_krig t))%Re ->
  let objective := loglik phi (gp_noise o) (normalize_input lo hi X) (normalize_output Y) (stdev Y) (gp_kernel o) in
  exists h v, hyper_search (gp_restart o) objective s = Ok h /\ objective h = Ok v /\
    gauss_nll (kr_sigma2 (tr_krig t) *: tr_K t) (regr_matrix phi (tr_X t) *m kr_beta (tr_krig t)) (tr_Y t)
      = Rplus v (Rmult (Rdiv (INR n) 2) (Rplus 1 (ln (Rmult 2 PI)))).
Proof. exact gp_mle_value. Qed.
Print Assumptions C117_value.
Example C117_trained_ok noise : exists o' t, gp_train (@Ordinary 1) ex_lo ex_hi (gp_new 1 1 noise 0) ex_X ex_Y ex_search = Ok o' /\
  gp_model o' = Some t /\ (0 < kr_sigma2 (tr_krig t))%Re.
Proof.
have [o' E] := ex_trained noise; have [t [_ [Et _]]] := gp_data E; exists o', t; split=> //; split=> //. exact: (ordinary_sigma2 E Et).
Qed.
(** with a learned noise a smaller objective does not mean a more likely model: at [h2] some variance and
    coefficient are more likely than every variance and coefficient at [h1] *)
Theorem C117_ranking_refuted : exists (X : 'M[R]_(2, 1)) (Y : 'cV[R]_2) h1 h2 v1 v2,
  normalize_output Y = Y /\ stdev Y = 1%Re /\
  loglik (@Ordinary 1) None X Y 1 (rbf_new 0) h1 = Ok v1 /\ loglik (@Ordinary 1) None X Y 1 (rbf_new 0) h2 = Ok v2 /\ (v1 < v2)%Re /\
  let K h := corr_mx (h_theta h) X (Rplus (Rinv (pow 10 10)) (Rmult (h_sigma h) (h_sigma h))) in
  let F := regr_matrix (@Ordinary 1) X in
  exists s2 b, (0 < s2)%Re /\ forall s2' b', (0 < s2')%Re -> (gauss_nll (s2 *: K h2) (F *m b) Y < gauss_nll (s2' *: K h1) (F *m b') Y)%Re.
Proof. exact ranking_refuted. Qed.
Print Assumptions C117_ranking_refuted.

(** ** C118 the multi-fidelity models *)
(** hierarchical Kriging; F is the column of scaled low-fidelity predictions *)
Theorem C118_hierarchical_concentrated : forall d n (X : 'M[R]_(n, d)) (Y : 'cV[R]_n) F ys k h v,
  hk_loglik (Some R0) X Y F ys k h = Ok v ->
  let K := corr_mx (h_theta h) X (Rinv (pow 10 10)) in
  let c := Rmult (Rdiv (INR n) 2) (Rplus 1 (ln (Rmult 2 PI))) in
  ~ in_span F Y ->
  (exists s2 b, (0 < s2)%Re /\ gauss_nll (s2 *: K) (F *m b) Y = Rplus v c) /\
  (forall s2 b, (0 < s2)%Re -> (v + c <= gauss_nll (s2 *: K) (F *m b) Y)%Re).
Proof. exact hk_concentrated. Qed.
Print Assumptions C118_hierarchical_concentrated.
Theorem C118_hierarchical_unit_variance : forall d n noise (X : 'M[R]_(n, d)) (Y : 'cV[R]_n) F ys k h v,
  (0 < n)%N -> noise <> Some R0 -> hk_loglik noise X Y F ys k h = Ok v ->
  let r := if noise is Some s then Rdiv s ys else h_sigma h in
  let K := corr_mx (h_theta h) X (Rplus (Rinv (pow 10 10)) (Rmult r r)) in
  let c := Rmult (Rdiv (INR n) 2) (ln (Rmult 2 PI)) in
  (exists b, gauss_nll K (F *m b) Y = Rplus v c) /\
  (forall b, (v + c <= gauss_nll K (F *m b) Y)%Re).
Proof. exact hk_unit. Qed.
Print Assumptions C118_hierarchical_unit_variance.
Theorem C118_hierarchical_maximum : forall d (lo hi : 'rV[R]_d) nh nl (o o' : hk d) (Xh : 'M[R]_(nh, d)) (Yh : 'cV[R]_nh) (Xl : 'M[R]_(nl, d)) (Yl : 'cV[R]_nl) sl sh t,
  hk_train lo hi o Xh Yh Xl Yl sl sh = Ok o' -> hk_model o' = Some t ->
  let nll s2 b := gauss_nll (s2 *: hk_K t) (hk_F t *m b) (hk_Y t) in
  let s2 := kr_sigma2 (hk_krig t) in let b := kr_beta (hk_krig t) in
  ~ in_span (hk_F t) (hk_Y t) ->
  (0 < s2)%Re /\ forall s2' b', (0 < s2')%Re -> (nll s2 b <= nll s2' b')%Re /\ (nll s2' b' = nll s2 b -> s2' = s2 /\ b' = b).
Proof. exact hk_mle. Qed.
Print Assumptions C118_hierarchical_maximum.
(** Co-Kriging: the low-fidelity process, and the discrepancy, whose trend is rho times the low-fidelity
    prediction plus a constant *)
Theorem C118_low_fidelity : forall d n noise (X : 'M[R]_(n, d)) (Y : 'cV[R]_n) k h,
  lgp_loglik noise X Y k h = loglik (@Ordinary d) noise X Y 1 k h.
Proof. exact lgp_loglikE. Qed.
Print Assumptions C118_low_fidelity.
Theorem C118_cokriging_concentrated : forall d n (X : 'M[R]_(n, d)) (Y pred : 'cV[R]_n) ys k h v,
  ck_loglik (Some R0) X Y pred ys k h = Ok v ->
  let K := corr_mx (ch_theta h) X (Rinv (pow 10 10)) in
  let trend b := ch_rho h *: pred + const_mx b in
  let c := Rmult (Rdiv (INR n) 2) (Rplus 1 (ln (Rmult 2 PI))) in
  ~ constant (Y - ch_rho h *: pred) ->
  (exists s2 b, (0 < s2)%Re /\ gauss_nll (s2 *: K) (trend b) Y = Rplus v c) /\
  (forall s2 b, (0 < s2)%Re -> (v + c <= gauss_nll (s2 *: K) (trend b) Y)%Re).
Proof. exact ck_concentrated. Qed.
Print Assumptions C118_cokriging_concentrated.
Theorem C118_cokriging_unit_variance : forall d n noise (X : 'M[R]_(n, d)) (Y pred : 'cV[R]_n) ys k h v,
  (0 < n)%N -> noise <> Some R0 -> ck_loglik noise X Y pred ys k h = Ok v ->
  let r := if noise is Some s then Rdiv s ys else ch_sigma h in
  let K := corr_mx (ch_theta h) X (Rplus (Rinv (pow 10 10)) (Rmult r r)) in
  let trend b := ch_rho h *: pred + const_mx b in
  let c := Rmult (Rdiv (INR n) 2) (ln (Rmult 2 PI)) in
  (exists b, gauss_nll K (trend b) Y = Rplus v c) /\
  (forall b, (v + c <= gauss_nll K (trend b) Y)%Re).
Proof. exact ck_unit. Qed.
Print Assumptions C118_cokriging_unit_variance.
Theorem C118_cokriging_maximum : forall d (lo hi : 'rV[R]_d) nh nl (o o' : ck d) (Xh : 'M[R]_(nh, d)) (Yh : 'cV[R]_nh) (Xl : 'M[R]_(nl, d)) (Yl : 'cV[R]_nl) sl sh t,
  ck_train lo hi o Xh Yh Xl Yl sl sh = Ok o' -> ck_model o' = Some t ->
  let D := dsubmx (ct_y t) - ct_rho t *: lgp_predict (ck_lf o') (ct_lf t) (ct_Xh t) in
  let nll s2 b := gauss_nll (s2 *: ct_K t) (const_mx b) D in
  ~ constant D ->
  (0 < ct_sigma2 t)%Re /\ exists b, forall s2' b', (0 < s2')%Re ->
    (nll (ct_sigma2 t) b <= nll s2' b')%Re /\ (nll s2' b' = nll (ct_sigma2 t) b -> s2' = ct_sigma2 t /\ b' = b).
Proof. exact ck_mle. Qed.
Print Assumptions C118_cokriging_maximum.
(** the common mean of all responses, given their covariance *)
Theorem C118_cokriging_mean : forall d (lo hi : 'rV[R]_d) nh nl (o o' : ck d) (Xh : 'M[R]_(nh, d)) (Yh : 'cV[R]_nh) (Xl : 'M[R]_(nl, d)) (Yl : 'cV[R]_nl) sl sh t,
  ck_train lo hi o Xh Yh Xl Yl sl sh = Ok o' -> ck_model o' = Some t ->
  let nll b := gauss_nll (ct_C t + (Rinv (pow 10 10))%:M) (const_mx b) (ct_y t) in
  forall b, (nll (ct_mu t) <= nll b)%Re /\ (nll b = nll (ct_mu t) -> b = ct_mu t).
Proof. exact ck_mean_mle. Qed.
Print Assumptions C118_cokriging_mean.
(** *** concrete cases *)
Example C118_objective_ok noise : (exists v, hk_loglik noise ex_X (normalize_output ex_Y) (const_mx 1) (stdev ex_Y) (rbf_new 0) (Hyper 0 1) = Ok v) /\
  (exists v, ck_loglik noise ex_X (normalize_output ex_Y) 0 (stdev ex_Y) (rbf_new 0) (CKHyper 1 1 0) = Ok v) /\
  ~ in_span (const_mx 1 : 'M[R]_(2, 1)) (normalize_output ex_Y) /\ ~ constant (normalize_output ex_Y - 1 *: 0).
Proof.
have HY : stdev ex_Y <> R0 by exact: nonconstant ex_varied.
have NC : ~ constant (normalize_output ex_Y) by move=> C; apply: ex_varied; exact: (normalized_constant HY C).
split; [|split; [|split]].
- rewrite /hk_loglik corr_kernel. set r := if noise is Some s then _ else _.
  have [k ->] := krig_fit_ok (normalize_output ex_Y) (corr_pos ex_X 0 r) (@ones_full 2 isT). by eexists.
- rewrite /ck_loglik corr_kernel. set r := if noise is Some s then _ else _.
  have [L [_ ->]] := ck_fit_ok (normalize_output ex_Y - 1 *: 0) (corr_pos ex_X 0 r). by eexists.
- by move/span_const.
- by rewrite scale1r subr0.
Qed.
(** hierarchical Kriging with low-fidelity responses 1 and 3 at the samples whose high-fidelity responses are 0 and 1 *)
Definition ex_low : 'cV[R]_2 := \col_i (if i == 0 then 1%Re else 3%Re).
Lemma ex_mean : mean ex_Y = Rdiv 1 2.
Proof. rewrite /mean !big_ord_recl big_ord0 !mxE /=; toR; lra. Qed.
Example C118_hierarchical_ok : exists o' t, hk_train ex_lo ex_hi (hk_new 1 (Some R0) 0) ex_X ex_Y ex_X ex_low ex_search ex_search = Ok o' /\
  hk_model o' = Some t /\ ~ in_span (hk_F t) (hk_Y t).
Proof.
have NL : ~ constant ex_low by move=> /(_ 0 1); rewrite !mxE /=; lra.
have [lf [F0 [El [EF H]]]] := hk_train_iff ex_lo ex_hi (o := hk_new 1 (Some R0) 0) ex_X ex_X NL ex_varied ex_usable ex_usable.
have [I _] := gp_interpolates (o := hk_lf (hk_new 1 (Some R0) 0)) (erefl _) El.
move: EF; rewrite I => -[E]; have [o' Eo] : exists o', hk_train ex_lo ex_hi (hk_new 1 (Some R0) 0) ex_X ex_Y ex_X ex_low ex_search ex_search = Ok o'.
  by apply/H; rewrite -E; exists 0; rewrite ex_mean mxE /=; lra.
exists o'; case/hk_train_inv: (Eo) => lf' [F1 [h [k [El' [HY [EF' [_ [_ Em]]]]]]]]; rewrite Em; eexists; split; first by rewrite -Em. split; first reflexivity.
move: El'; rewrite El => -[Elf]; move: EF'; rewrite -Elf I => -[<-] /= [b /matrixP Eb].
have := Eb 0 0; have := Eb 1 0; rewrite !mxE !big_ord_recl !big_ord0 !addr0 !mxE ex_mean /=; set st := stdev ex_Y in HY *; set x := b _ _.
rewrite -!RmultE /Rdiv => E1 E0.
have Q (u v : R) : Rmult u (Rinv st) = Rmult (Rmult v (Rinv st)) x -> u = Rmult v x.
  by move=> EE; apply: (Rmult_eq_reg_r (Rinv st)); [rewrite EE; ring | exact: Rinv_neq_0_compat].
have := Q _ _ E1; have := Q _ _ E0; lra.
Qed.
(** Co-Kriging with rho = 2 and the same responses at both fidelities *)
Definition ex_ck_search2 : search (ckhyper 1) := Lbfgs (fun _ => Trial [::] (CKHyper 2%Re 1 0) f1).
Example C118_cokriging_ok : exists o' t, ck_train ex_lo ex_hi (ck_new 1 (Some R0) 0) ex_X ex_Y ex_X ex_Y ex_search ex_ck_search2 = Ok o' /\
  ck_model o' = Some t /\ ~ constant (dsubmx (ct_y t) - ct_rho t *: lgp_predict (ck_lf o') (ct_lf t) (ct_Xh t)).
Proof.
have U : usable (ck_restart (ck_new 1 (Some R0) 0)) ex_ck_search2 by exists 0%N.
have [o' E] := ck_train_ok ex_lo ex_hi ex_X ex_X ex_Y (erefl _) ex_varied (ex_usable : usable (lg_restart (ck_lf (ck_new 1 (Some R0) 0))) _) U.
exists o'; case/ck_train_inv: (E) => HY [lf [t [h [L [LC [El [Eh [Eo _]]]]]]]]; rewrite Eo; eexists; split; first by rewrite -Eo. split; first reflexivity.
have Hr : ch_rho h = 2%Re by have [i [_ <-]] := search_result Eh.
have Hn : lg_noise (ck_lf0 (ck_new 1 (Some R0) 0) ex_Y) = Some R0 by rewrite /ck_lf0 /ck_noise0 /= /Rdiv Rmult_0_l.
have [I _] := lgp_interpolates El Hn.
rewrite [ct_y _]/= col_mxKd [ct_rho _]/= [lgp_predict _ _ _]/= Hr I => C; apply: ex_varied; apply: (normalized_constant HY) => i j.
have := C i j; rewrite !addE !oppE !scaleE !mxE; toR; lra.
Qed.

(** ** C119 the order of the training samples *)
(** the objective of the search, for every order of the same samples *)
Theorem C119_objective : forall n (s : 'S_n) d p (phi : 'rV[R]_d -> 'rV[R]_p) noise (X : 'M[R]_(n, d)) (Y : 'cV[R]_n) k h,
  loglik phi noise (row_perm s X) (normalize_output (row_perm s Y)) (stdev (row_perm s Y)) k h =
  loglik phi noise X (normalize_output Y) (stdev Y) k h.
Proof. exact perm_objective. Qed.
Print Assumptions C119_objective.
(** the trained model; gamma is the vector of weights of the samples *)
Theorem C119_order : forall n (s : 'S_n) d p (phi : 'rV[R]_d -> 'rV[R]_p) (lo hi : 'rV[R]_d) (o o1 : gp d p) (X : 'M[R]_(n, d)) (Y : 'cV[R]_n) sr,
  gp_train phi lo hi o X Y sr = Ok o1 ->
  exists o2, gp_train phi lo hi o (row_perm s X) (row_perm s Y) sr = Ok o2 /\
    gp_noise o2 = gp_noise o1 /\ gp_kernel o2 = gp_kernel o1 /\
    exists t1 t2 (E : tr_n t1 = n), gp_model o1 = Some t1 /\ gp_model o2 = Some t2 /\
      kr_beta (tr_krig t2) = kr_beta (tr_krig t1) /\ kr_sigma2 (tr_krig t2) = kr_sigma2 (tr_krig t1) /\ tr_logp t2 = tr_logp t1 /\
    forall m (Z : 'M[R]_(m, d)) mu1 sd1, gp_predict_std phi lo hi o1 Z = Ok (mu1, sd1) ->
      exists mu2 sd2, gp_predict phi lo hi o2 Z = Ok mu2 /\ gp_predict_std phi lo hi o2 Z = Ok (mu2, sd2) /\
      (forall j : 'I_m, (n <= j)%N -> mu2 j 0 = mu1 j 0 /\ sd2 j 0 = sd1 j 0) /\
      (forall (j : 'I_m) (i : 'I_n), (i : nat) = j ->
         let gamma := castmx (E, erefl 1%N) (kr_gamma (tr_krig t1)) in
         Rminus (mu2 j 0) (mu1 j 0) = Rmult (Rmult (Rinv (10 ^ 10)) (Rminus (gamma (s i) 0) (gamma i 0))) (tr_std t1)).
Proof. exact perm_train. Qed.
Print Assumptions C119_order.
Theorem C119_failure : forall n (s : 'S_n) d p (phi : 'rV[R]_d -> 'rV[R]_p) (lo hi : 'rV[R]_d) (o : gp d p) (X : 'M[R]_(n, d)) (Y : 'cV[R]_n) sr e,
  gp_train phi lo hi o X Y sr = Raise e -> gp_train phi lo hi o (row_perm s X) (row_perm s Y) sr = Raise e.
Proof. exact perm_train_raise. Qed.
Print Assumptions C119_failure.
(** exact independence is false: some order of the samples always changes a prediction in the first n rows *)
Theorem C119_first_rows_refuted : forall d (lo hi : 'rV[R]_d) n (o o1 : gp d 1) (X : 'M[R]_(n, d)) (Y : 'cV[R]_n) sr,
  gp_train (@Ordinary d) lo hi o X Y sr = Ok o1 ->
  exists (s : 'S_n) o2, gp_train (@Ordinary d) lo hi o (row_perm s X) (row_perm s Y) sr = Ok o2 /\
    forall m (Z : 'M[R]_(m, d)) mu1 mu2, (n <= m)%N -> gp_predict (@Ordinary d) lo hi o1 Z = Ok mu1 -> gp_predict (@Ordinary d) lo hi o2 Z = Ok mu2 ->
      exists j, mu2 j 0 <> mu1 j 0.
Proof. exact order_shows. Qed.
Print Assumptions C119_first_rows_refuted.
Example C119_ok noise : exists o1, gp_train (@Ordinary 1) ex_lo ex_hi (gp_new 1 1 noise 0) ex_X ex_Y ex_search = Ok o1 /\ tperm 0 1 != 1%g :> 'S_2.
Proof.
have [o1 E] := ex_trained noise; exists o1; split=> //. apply/eqP => /permP /(_ 0). by rewrite tpermL perm1.
Qed.
Example C119_failure_ok : gp_train (@Ordinary 1) ex_lo ex_hi (gp_new 1 1 None 0) ex_X ex_Y (Lbfgs (fun _ => Trial [::] (Hyper 0 1) finf)) = Raise UnboundLocalError.
Proof.
rewrite /gp_train; case: (Req_EM_T _ _) => [E|N]; first by have := nonconstant ex_varied. by [].
Qed.
