(** The properties of Gaussian process regression. *)
From Coq Require Import Reals Lra.
From Verif Require Import Fl FlFacts.
From mathcomp Require Import all_ssreflect all_algebra.
From Verif Require Import RStruct LinAlg LinSpec LinAlgFacts Kernel KernelFacts Krig KrigFacts GP GPSpec GPFacts.
Set Implicit Arguments.
Unset Strict Implicit.
Unset Printing Implicit Defensive.
Import GRing.Theory.
Local Open Scope ring_scope.

Section GP.
Variables (d p : nat) (phi : 'rV[R]_d -> 'rV[R]_p) (lo hi : 'rV[R]_d).

(** ** C40 *)
Lemma gp_train_ordinary n (o : gp d 1) (X : 'M[R]_(n, d)) (Y : 'cV[R]_n) s :
  ~ constant Y -> usable (gp_restart o) s -> exists o', gp_train (@Ordinary d) lo hi o X Y s = Ok o'.
Proof.
move=> HY Hs. have : exists i j, Y i 0 <> Y j 0.
  apply: Classical_Prop.NNPP => N; apply: HY => i j; apply: Classical_Prop.NNPP => E; apply: N. by exists i, j.
case=> i [j E]; have P := stdev_pos E.
apply: train_ok => //; last by move=> E'; move: P; rewrite E'; exact: Rlt_irrefl.
apply: ordinary_full. exact: leq_ltn_trans (ltn_ord i).
Qed.
Lemma gp_train_full n (o : gp d p) (X : 'M[R]_(n, d)) (Y : 'cV[R]_n) s :
  full_rank (regr_matrix phi (normalize_input lo hi X)) -> ~ constant Y -> usable (gp_restart o) s ->
  exists o', gp_train phi lo hi o X Y s = Ok o'.
Proof.
move=> HF HY Hs. have : exists i j, Y i 0 <> Y j 0.
  apply: Classical_Prop.NNPP => N; apply: HY => i j; apply: Classical_Prop.NNPP => E; apply: N. by exists i, j.
case=> i [j E]; have P := stdev_pos E.
by apply: train_ok => //; move=> E'; move: P; rewrite E'; exact: Rlt_irrefl.
Qed.

(** a trained object predicts *)
Lemma gp_predict_ok n m (o o' : gp d p) (X : 'M[R]_(n, d)) (Y : 'cV[R]_n) s (Xq : 'M[R]_(m, d)) :
  gp_train phi lo hi o X Y s = Ok o' ->
  exists mu sd, gp_predict phi lo hi o' Xq = Ok mu /\ gp_predict_std phi lo hi o' Xq = Ok (mu, sd).
Proof.
case/train_inv => HY [h [k [_ [Hf ->]]]]; rewrite /gp_predict_std /gp_predict /= (fit_mse Hf) /=.
by eexists; eexists.
Qed.

(** ** C41 *)
Lemma gp_interpolates n (o o' : gp d p) (X : 'M[R]_(n, d)) (Y : 'cV[R]_n) s :
  gp_noise o = Some R0 -> gp_train phi lo hi o X Y s = Ok o' ->
  gp_predict phi lo hi o' X = Ok Y /\ gp_predict_std phi lo hi o' X = Ok (Y, 0).
Proof.
move=> Hn /train_inv [HY [h [k [_ [Hf ->]]]]].
have E : noise_matrix (normalize_input lo hi X) (set_params (gp_kernel o) (h_theta h)) (Rdiv (new_noise o (stdev Y) h) (stdev Y))
   = get_kernel_matrix (set_params (gp_kernel o) (h_theta h)) (normalize_input lo hi X) (normalize_input lo hi X).
  rewrite /noise_matrix /new_noise Hn /Rdiv !Rmult_0_l. by rewrite -scalemx1 scale0r addr0.
have EP : gp_predict phi lo hi (MkGP (Some (new_noise o (stdev Y) h)) (gp_restart o) (set_params (gp_kernel o) (h_theta h))
      (Some (GPTrained (normalize_input lo hi X) (normalize_output Y) (mean Y) (stdev Y)
         (noise_matrix (normalize_input lo hi X) (set_params (gp_kernel o) (h_theta h)) (Rdiv (new_noise o (stdev Y) h) (stdev Y)))
        k (Rminus (Rmult (Rmult (Ropp (Rdiv 1 2)) (INR n)) (kr_sigma2 k)) (sum_log_diag (kr_L k)))))) X = Ok Y.
  rewrite /gp_predict /= -E (fit_interpolates Hf); congr Ok; apply/matrixP => i j; rewrite !mxE !ord1.
  toR. field. exact: HY.
split=> //. rewrite /gp_predict_std EP /= -E (fit_mse_train Hf) /=. congr Ok; congr pair.
apply/matrixP => j l; rewrite [LHS]mxE [RHS]mxE [(\col__ _) j 0]mxE.
have -> : (noise_matrix (normalize_input lo hi X) (set_params (gp_kernel o) (h_theta h))
        (Rdiv (new_noise o (stdev Y) h) (stdev Y))) j j = Rplus 1 jitter.
  rewrite E kernel_self; last exact: set_params_pos. rewrite addE !mxE wdist_self eqxx RoppE oppr0 exp_0 /=.
  by rewrite mulr1n.
rewrite /new_noise Hn Rmult_0_l. have S2 := fit_sigma2_ge0 Hf. have J := jitter_pos.
rewrite Rmax_right; first exact: sqrt_0.
have := Rle_0_sqr (stdev Y); rewrite /Rsqr => Q.
have -> : Rplus (Rmult (kr_sigma2 k * (1 - Rplus 1 jitter)) (Rmult (stdev Y) (stdev Y))) 0 =
   Ropp (Rmult (Rmult (kr_sigma2 k) jitter) (Rmult (stdev Y) (stdev Y))) by toR; ring.
apply: Rge_le; apply: Ropp_0_le_ge_contravar. apply: Rmult_le_pos => //. apply: Rmult_le_pos => //. exact: Rlt_le.
Qed.

(** ** C42 *)
Lemma gp_gls n (o o' : gp d p) (X : 'M[R]_(n, d)) (Y : 'cV[R]_n) s t :
  gp_train phi lo hi o X Y s = Ok o' -> gp_model o' = Some t ->
  let obj b := gls (tr_K t) (regr_matrix phi (tr_X t)) (tr_Y t) b in
  let beta := kr_beta (tr_krig t) in
  (forall b, (obj beta <= obj b)%Re) /\ (forall b, obj b = obj beta -> b = beta) /\
  kr_sigma2 (tr_krig t) = Rdiv (obj beta) (INR (tr_n t)) /\ (0 <= kr_sigma2 (tr_krig t))%Re.
Proof.
case/train_inv => HY [h [k [_ [Hf ->]]]] [<-] /=; split; first by move=> b; exact: (fit_minimal Hf).
split; first by move=> b; exact: (fit_unique Hf). split; first exact: (fs_sigma2 Hf). exact: (fit_sigma2_ge0 Hf).
Qed.

(** ** C43 *)
Lemma noise_matrixE n (X : 'M[R]_(n, d)) (k : rbf d) r : positive_params (rbf_param k) ->
  noise_matrix X k r = kpure (rbf_param k) X X + (Rplus jitter (Rmult r r))%:M.
Proof. by move=> H; rewrite /noise_matrix kernel_self // -addrA RplusE raddfD. Qed.
Lemma cross_col n m (k : rbf d) (X : 'M[R]_(n, d)) (Xq : 'M[R]_(m, d)) (j : 'I_m) : positive_params (rbf_param k) ->
  (n <= j)%N -> col j (get_kernel_matrix k X Xq) = kpure (rbf_param k) X (row j Xq).
Proof.
move=> H Hj; rewrite kernelE //; apply/matrixP => i l; rewrite !mxE.
have -> : ((i : nat) == j) = false by apply/negbTE; rewrite neq_ltn (leq_trans (ltn_ord i) Hj).
rewrite mulr0 addr0; congr (exp (Ropp (wdist _ _ _))). by apply/matrixP => a b; rewrite !mxE.
Qed.
Lemma mse_ge0 n m (X : 'M[R]_(n, d)) (Y : 'cV[R]_n) (k : rbf d) r q (f : 'M[R]_(m, p)) (F : 'M[R]_(n, p)) (Xq : 'M[R]_(m, d)) mse (j : 'I_m) :
  positive_params (rbf_param k) -> fit_spec (noise_matrix X k r) F Y q ->
  krig_mse q f (get_kernel_matrix k X Xq) = Ok mse -> (n <= j)%N -> (0 <= mse j 0%R)%Re.
Proof.
move=> Hk Hf Em Hj; rewrite (fit_mse_entry Hf j Em). apply: Rmult_le_pos; first exact: (fit_sigma2_ge0 Hf).
rewrite cross_col //. apply: Rplus_le_le_0_compat.
  rewrite noise_matrixE //. have := cross_bound (w := rbf_param k) X (row j Xq) (c := Rplus jitter (Rmult r r)) Hk.
  have := jitter_pos; have := Rle_0_sqr r; rewrite /Rsqr => R1' R2' /(_ ltac:(lra)). toR. lra.
exact: (posdef_semi (pos_inv (fs_N Hf))).2.
Qed.
Lemma gp_std n m (o o' : gp d p) (X : 'M[R]_(n, d)) (Y : 'cV[R]_n) s (Xq : 'M[R]_(m, d)) mu sd noise t :
  gp_train phi lo hi o X Y s = Ok o' -> gp_model o' = Some t -> gp_noise o' = Some noise ->
  gp_predict_std phi lo hi o' Xq = Ok (mu, sd) ->
  let F := regr_matrix phi (tr_X t) in
  let c := get_kernel_matrix (gp_kernel o') (tr_X t) (normalize_input lo hi Xq) in
  let f j := phi (row j (normalize_input lo hi Xq)) in
  let epi j := Rmult (Rmult (tr_std t) (tr_std t)) (Rmult (kr_sigma2 (tr_krig t)) (blup_var (tr_K t) F (col j c) (f j))) in
  forall j,
  mu j 0 = Rplus (Rmult (blup_mean (tr_K t) F (tr_Y t) (kr_beta (tr_krig t)) (col j c) (f j)) (tr_std t)) (tr_mean t) /\
  sd j 0 = sqrt (Rmax (Rplus (epi j) (Rmult noise noise)) 0) /\
  (0 <= sd j 0%R)%Re /\
  ((0 <= epi j)%Re -> (Rabs noise <= sd j 0%R)%Re) /\
  ((tr_n t <= j)%N -> (0 <= epi j)%Re).
Proof.
case/train_inv => HY [h [k [_ [Hf ->]]]] [<-] [<-]; rewrite /gp_predict_std /gp_predict /=.
case Em: (krig_mse _ _ _) => [mse|//] /= [<- <-] j.
set v := Rmult (Rmult (stdev Y) (stdev Y)) _.
have Ev : Rmult (mse j 0) (Rmult (stdev Y) (stdev Y)) = v.
  rewrite (fit_mse_entry Hf j Em) row_regr Rmult_comm /v /blup_var. by [].
split.
  rewrite mxE; congr (Rplus (Rmult _ _) _); rewrite /krig_mean /blup_mean addE; congr (_ + _).
    by rewrite !mxE; apply: eq_bigr => l _; rewrite !mxE.
  by rewrite (fs_gamma Hf) [LHS]mxE [RHS]mxE; apply: eq_bigr => l _; congr (_ * _); rewrite !trE [RHS]mxE.
rewrite [(\col__ _) j 0]mxE Ev; split=> //; split; first exact: sqrt_pos.
split=> H.
  rewrite -sqrt_Rsqr_abs; apply: sqrt_le_1_alt. rewrite /Rsqr. apply: (Rle_trans _ _ _ _ (Rmax_l _ _)). lra.
rewrite -Ev. apply: Rmult_le_pos; last exact: Rle_0_sqr.
apply: (mse_ge0 (set_params_pos _ _) Hf Em H).
Qed.

(** ** C39 *)
Lemma gp_position (o : gp d p) t m1 m2 (X1 : 'M[R]_(m1, d)) (X2 : 'M[R]_(m2, d)) mu1 mu2 (j1 : 'I_m1) (j2 : 'I_m2) (i : 'I_(tr_n t)) :
  gp_model o = Some t -> gp_predict phi lo hi o X1 = Ok mu1 -> gp_predict phi lo hi o X2 = Ok mu2 ->
  row j1 X1 = row j2 X2 -> i = j1 :> nat -> (tr_n t <= j2)%N ->
  Rminus (mu1 j1 0) (mu2 j2 0) = Rmult (Rmult (Rinv (10 ^ 10)) (kr_gamma (tr_krig t) i 0)) (tr_std t).
Proof.
move=> Et; rewrite /gp_predict Et => -[<-] [<-] Er Ei Hj; rewrite !mxE.
have Eq k : X1 j1 k = X2 j2 k by have /matrixP/(_ 0 k) := Er; rewrite !mxE.
have Rn : row j1 (normalize_input lo hi X1) = row j2 (normalize_input lo hi X2).
  by apply/matrixP => a k; rewrite !mxE Eq.
have -> : \sum_j regr_matrix phi (normalize_input lo hi X1) j1 j * kr_beta (tr_krig t) j 0 =
          \sum_j regr_matrix phi (normalize_input lo hi X2) j2 j * kr_beta (tr_krig t) j 0.
  by apply: eq_bigr => l _; rewrite !mxE Rn.
set B := \sum_j _.
pose P := \sum_j exp (Ropp (rbf_dist (rbf_param (gp_kernel o)) (row j (tr_X t)) (row j2 (normalize_input lo hi X2)))) * kr_gamma (tr_krig t) j 0.
have -> : \sum_j (get_kernel_matrix (gp_kernel o) (tr_X t) (normalize_input lo hi X2))^T j2 j * kr_gamma (tr_krig t) j 0 = P.
  apply: eq_bigr => l _; rewrite !mxE. have -> : ((l : nat) == j2) = false by apply/negbTE; rewrite neq_ltn (leq_trans (ltn_ord l) Hj).
  by rewrite mulr0 addr0.
have -> : \sum_j (get_kernel_matrix (gp_kernel o) (tr_X t) (normalize_input lo hi X1))^T j1 j * kr_gamma (tr_krig t) j 0 =
   P + jitter * kr_gamma (tr_krig t) i 0.
  rewrite /P [in RHS](bigD1 i) //= [LHS](bigD1 i) //= !mxE Rn Ei eqxx mulr1 mulrDl -!addrA; congr (_ + _).
  rewrite addrC; congr (_ + _). apply: eq_bigr => l Hl; rewrite !mxE Rn.
  have -> : ((l : nat) == j1) = false by rewrite -Ei; apply/negbTE.
  by rewrite mulr0 addr0.
rewrite -/jitter. toR. ring.
Qed.
Lemma gp_same_point n (o o' : gp d p) (X : 'M[R]_(n, d)) (Y : 'cV[R]_n) s t (x : 'rV[R]_d) mu :
  gp_train phi lo hi o X Y s = Ok o' -> gp_model o' = Some t -> kr_sigma2 (tr_krig t) <> R0 ->
  gp_predict phi lo hi o' (\matrix_(i < (tr_n t).+1, k < d) x 0 k) = Ok mu ->
  exists j, mu j 0 <> mu ord_max 0.
Proof.
move=> Ht Et Hs Ep; have := Ht; case/train_inv => HY [h [k [_ [Hf Eo]]]].
have G : exists i, kr_gamma (tr_krig t) i 0 <> R0.
  apply: Classical_Prop.NNPP => N; apply: Hs. move: Et N; rewrite Eo => -[<-] /= N.
  rewrite (fs_sigma2 Hf) /gls /qf -mulmxA -(fs_gamma Hf).
  have -> : kr_gamma k = 0.
    apply/matrixP => i j; rewrite ord1 [RHS]mxE; apply: Classical_Prop.NNPP => E; apply: N; by exists i.
  by rewrite mulmx0 mxE /Rdiv Rmult_0_l.
have Hst : tr_std t <> R0 by move: Et; rewrite Eo => -[<-].
case: G => i Hi. exists (widen_ord (leqnSn _) i) => E.
have := @gp_position o' t _ _ _ _ mu mu (widen_ord (leqnSn _) i) ord_max i Et Ep Ep.
rewrite E => H. have : Rminus (mu ord_max 0) (mu ord_max 0) = Rmult (Rmult (Rinv (10 ^ 10)) (kr_gamma (tr_krig t) i 0)) (tr_std t).
  apply: H => //. by apply/matrixP => a b; rewrite !mxE.
have -> : Rminus (mu ord_max 0) (mu ord_max 0) = R0 by ring.
move/esym/Rmult_integral => [/Rmult_integral [H0|//]|//].
have := jitter_pos; rewrite /jitter H0. exact: Rlt_irrefl.
Qed.
End GP.

(** ** C44 *)
Definition rescale_trained d p a b (t : gp_trained d p) : gp_trained d p :=
  GPTrained (tr_X t) (tr_Y t) (Rplus (Rmult a (tr_mean t)) b) (Rmult a (tr_std t)) (tr_K t) (tr_krig t) (tr_logp t).
Definition rescale_gp d p a b (o : gp d p) : gp d p :=
  MkGP (omap (Rmult a) (gp_noise o)) (gp_restart o) (gp_kernel o) (omap (rescale_trained a b) (gp_model o)).
Section Affine.
Variables (d p : nat) (phi : 'rV[R]_d -> 'rV[R]_p) (lo hi : 'rV[R]_d).
Lemma loglik_rescale n (noise : option R) (X : 'M[R]_(n, d)) (Y : 'cV[R]_n) ys k h a : (0 < a)%Re -> ys <> R0 ->
  loglik phi (omap (Rmult a) noise) X Y (Rmult a ys) k h = loglik phi noise X Y ys k h.
Proof.
move=> Ha Hy; rewrite /loglik. case: noise => [s|] //=.
have -> : Rdiv (Rmult a s) (Rmult a ys) = Rdiv s ys by field; split=> //; lra.
case: (krig_fit _ _ _) => //= m. case: (Req_EM_T s 0) => Hs; case: (Req_EM_T (Rmult a s) 0) => Ha' //=.
  by case: Ha'; rewrite Hs Rmult_0_r.
by case/Rmult_integral: Ha' => // E; lra.
Qed.
Lemma train_rescale n (o o' : gp d p) (X : 'M[R]_(n, d)) (Y : 'cV[R]_n) s a b : (0 < a)%Re ->
  gp_train phi lo hi o X Y s = Ok o' ->
  gp_train phi lo hi (rescale_gp a b o) X (\col_i Rplus (Rmult a (Y i 0)) b) s = Ok (rescale_gp a b o').
Proof.
move=> Ha; rewrite /gp_train; case: (Req_EM_T _ _) => // HY; have Hn := stdev_nz HY.
have Ea : (0 <= a)%Re by lra.
rewrite stdev_affine // mean_affine // normalize_output_affine //.
case: (Req_EM_T _ _) => [E|N]; first by exfalso; have [E'|E'] := Rmult_integral _ _ E; [lra|exact: HY].
rewrite (hyper_search_ext _ _ (fun h => loglik_rescale _ _ _ _ h Ha HY)) /=.
case: (hyper_search _ _ _) => //= h; rewrite /gp_update /=.
have -> : Rdiv match omap (Rmult a) (gp_noise o) with Some s0 => s0 | None => Rmult (h_sigma h) (Rmult a (stdev Y)) end
   (Rmult a (stdev Y)) = Rdiv match gp_noise o with Some s0 => s0 | None => Rmult (h_sigma h) (stdev Y) end (stdev Y).
  by case: (gp_noise o) => [s0|] /=; field; split=> //; lra.
case: (krig_fit _ _ _) => //= m [<-]. rewrite /rescale_gp /=. congr Ok; congr MkGP; congr Some.
by case: (gp_noise o) => [s0|] //=; ring.
Qed.
Lemma predict_rescale m (o : gp d p) (X : 'M[R]_(m, d)) a b mu :
  gp_predict phi lo hi o X = Ok mu -> gp_predict phi lo hi (rescale_gp a b o) X = Ok (\col_j Rplus (Rmult a (mu j 0)) b).
Proof.
rewrite /gp_predict /rescale_gp /=; case: (gp_model o) => [t|//] /= [<-]; congr Ok; apply/matrixP => i j; rewrite !mxE.
toR. ring.
Qed.
Lemma predict_std_rescale m (o : gp d p) (X : 'M[R]_(m, d)) a b mu sd : (0 < a)%Re ->
  gp_predict_std phi lo hi o X = Ok (mu, sd) ->
  gp_predict_std phi lo hi (rescale_gp a b o) X = Ok (\col_j Rplus (Rmult a (mu j 0)) b, \col_j Rmult a (sd j 0)).
Proof.
move=> Ha. rewrite /gp_predict_std. have := @predict_rescale m o X a b.
case: (gp_predict phi lo hi o X) => [mu'|e] P; last by case: (gp_model o).
rewrite (P _ (erefl _)) /rescale_gp /=; case: (gp_model o) => [t|//] /=.
case: (krig_mse _ _ _) => [mse|//] /=; case: (gp_noise o) => [noise|//] /= [<- <-]. congr Ok; congr pair.
apply/matrixP => i j; rewrite !mxE.
have -> : Rplus (Rmult (mse i 0) (Rmult (Rmult a (tr_std t)) (Rmult a (tr_std t)))) (Rmult (Rmult a noise) (Rmult a noise)) =
  Rmult (Rmult a a) (Rplus (Rmult (mse i 0) (Rmult (tr_std t) (tr_std t))) (Rmult noise noise)) by ring.
set v := Rplus _ _.
have -> : Rmax (Rmult (Rmult a a) v) 0 = Rmult (Rmult a a) (Rmax v 0).
  have Haa : (0 < a * a)%Re by exact: Rmult_lt_0_compat.
  rewrite -RmaxRmult; last lra. by rewrite Rmult_0_r.
rewrite sqrt_mult_alt; last exact: Rle_0_sqr. rewrite sqrt_square //; lra.
Qed.
Lemma gp_equivariant n m (o o' : gp d p) (X : 'M[R]_(n, d)) (Y : 'cV[R]_n) s a b (Xq : 'M[R]_(m, d)) mu sd : (0 < a)%Re ->
  gp_train phi lo hi o X Y s = Ok o' -> gp_predict_std phi lo hi o' Xq = Ok (mu, sd) ->
  exists o2, gp_train phi lo hi (MkGP (omap (Rmult a) (gp_noise o)) (gp_restart o) (gp_kernel o) (gp_model o)) X
                     (\col_i Rplus (Rmult a (Y i 0)) b) s = Ok o2 /\
    gp_noise o2 = omap (Rmult a) (gp_noise o') /\
    gp_predict phi lo hi o2 Xq = Ok (\col_j Rplus (Rmult a (mu j 0)) b) /\
    gp_predict_std phi lo hi o2 Xq = Ok (\col_j Rplus (Rmult a (mu j 0)) b, \col_j Rmult a (sd j 0)).
Proof.
move=> Ha Ht Hp; exists (rescale_gp a b o'); split.
  have := train_rescale b Ha Ht; rewrite /gp_train /rescale_gp /=. by [].
split=> //; split; last exact: predict_std_rescale.
apply: predict_rescale. move: Hp; rewrite /gp_predict_std /gp_predict; case: (gp_model o') => [t|//] /=.
case: (krig_mse _ _ _) => [mse|//] /=; case: (gp_noise o') => [noise|//] /= [<- _]. by [].
Qed.

(** ** C45 *)
Lemma gp_input_invariant n m (o : gp d p) (X : 'M[R]_(n, d)) (Y : 'cV[R]_n) s (c t : 'rV[R]_d) (Xq : 'M[R]_(m, d)) :
  space_ok lo hi -> (forall k, c 0 k <> R0) ->
  let aff q (Z : 'M[R]_(q, d)) := \matrix_(i, k) Rplus (Rmult (c 0 k) (Z i k)) (t 0 k) in
  let lo' := \row_k Rplus (Rmult (c 0 k) (lo 0 k)) (t 0 k) in
  let hi' := \row_k Rplus (Rmult (c 0 k) (hi 0 k)) (t 0 k) in
  gp_train phi lo' hi' o (aff n X) Y s = gp_train phi lo hi o X Y s /\
  forall o', gp_predict phi lo' hi' o' (aff m Xq) = gp_predict phi lo hi o' Xq /\
             gp_predict_std phi lo' hi' o' (aff m Xq) = gp_predict_std phi lo hi o' Xq.
Proof.
move=> H Hc /=; split; first by rewrite /gp_train normalize_input_affine.
by move=> o'; rewrite /gp_predict_std /gp_predict normalize_input_affine.
Qed.
End Affine.

(** ** C46 *)
Lemma normalize_unit d n (lo hi : 'rV[R]_d) (X : 'M[R]_(n, d)) i k : space_ok lo hi ->
  ((lo 0%R k <= X i k <= hi 0%R k)%Re <-> (0 <= normalize_input lo hi X i k <= 1)%Re).
Proof.
move=> H; have Hk := H k; have E := normalize_input_inv X i k H; move: E.
set u := normalize_input lo hi X i k => E. rewrite -E; split=> -[A B]; split; nra.
Qed.
Lemma normalize_mono d n (lo hi : 'rV[R]_d) (X : 'M[R]_(n, d)) i j k : space_ok lo hi ->
  ((X i k < X j k)%Re <-> (normalize_input lo hi X i k < normalize_input lo hi X j k)%Re).
Proof.
move=> H; have Hk := H k; have E := normalize_input_inv X i k H; have E' := normalize_input_inv X j k H; move: E E'.
set u := normalize_input lo hi X i k; set v := normalize_input lo hi X j k => E E'. rewrite -E -E'; split=> A; nra.
Qed.
Lemma normalize_corners d (lo hi : 'rV[R]_d) : space_ok lo hi ->
  normalize_input lo hi lo = 0 /\ normalize_input lo hi hi = const_mx 1.
Proof.
move=> H; split; apply/matrixP => i k; rewrite !mxE !ord1; have Hk := H k; toR; field; lra.
Qed.

(** ** C47 *)
(** one call of train *)
Record call d := Call { c_n : nat; c_X : 'M[R]_(c_n, d); c_Y : 'cV[R]_c_n; c_search : search (hyper d) }.
Fixpoint gp_trains d p (phi : 'rV[R]_d -> 'rV[R]_p) lo hi (o : gp d p) (cs : seq (call d)) : result (gp d p) :=
  if cs is c :: cs' then bind (gp_train phi lo hi o (c_X c) (c_Y c) (c_search c)) (fun o' => gp_trains phi lo hi o' cs')
  else Ok o.
Section Noise.
Variables (d p : nat) (phi : 'rV[R]_d -> 'rV[R]_p) (lo hi : 'rV[R]_d).
Lemma noise_kept (o o' : gp d p) cs noise : gp_noise o = Some noise -> gp_trains phi lo hi o cs = Ok o' -> gp_noise o' = Some noise.
Proof.
elim: cs o => [|c cs IH] o Hn /=; first by case=> <-.
case Et: (gp_train _ _ _ _ _ _ _) => [o1|//] /= H. apply: IH H.
by have [_ [h [m [_ [_ ->]]]]] := train_inv Et; rewrite /= /new_noise Hn.
Qed.
Lemma noise_learned (o o' : gp d p) c cs : gp_noise o = None -> gp_trains phi lo hi o (c :: cs) = Ok o' ->
  exists h, result_of (c_search c) (gp_restart o) h /\ gp_noise o' = Some (Rmult (h_sigma h) (stdev (c_Y c))).
Proof.
move=> Hn /=; case Et: (gp_train _ _ _ _ _ _ _) => [o1|//] /= H.
have [_ [h [m [Es [_ Eo]]]]] := train_inv Et; exists h; split; first exact: search_result Es.
by apply: noise_kept H; rewrite Eo /= /new_noise Hn.
Qed.

(** ** C49 *)
Lemma gp_in_bounds n (o o' : gp d p) (X : 'M[R]_(n, d)) (Y : 'cV[R]_n) s (lb ub : 'rV[R]_d) sl su :
  (forall h, result_of s (gp_restart o) h ->
     (forall k, (lb 0%R k <= h_theta h 0%R k <= ub 0%R k)%Re) /\ (gp_noise o = None -> (sl <= h_sigma h <= su)%Re)) ->
  gp_train phi lo hi o X Y s = Ok o' ->
  (forall k, exists t, rbf_param (gp_kernel o') 0 k = Rpower 10 t /\ (lb 0%R k <= t <= ub 0%R k)%Re) /\
  (gp_noise o = None -> exists noise, gp_noise o' = Some noise /\ (sl * stdev Y <= noise <= su * stdev Y)%Re).
Proof.
move=> H /train_inv [_ [h [m [Es [_ ->]]]]]; have [H1 H2] := H h (search_result Es); split.
  by move=> k; exists (h_theta h 0 k); rewrite /= mxE.
move=> Hn; have [A B] := H2 Hn; exists (Rmult (h_sigma h) (stdev Y)); rewrite /= /new_noise Hn; split=> //.
have P := stdev_ge0 Y. split; exact: Rmult_le_compat_r.
Qed.

(** ** C50 *)
Lemma gp_logp n (o o' : gp d p) (X : 'M[R]_(n, d)) (Y : 'cV[R]_n) s t :
  gp_train phi lo hi o X Y s = Ok o' -> gp_model o' = Some t ->
  let objective := loglik phi (gp_noise o) (normalize_input lo hi X) (normalize_output Y) (stdev Y) (gp_kernel o) in
  exists h, hyper_search (gp_restart o) objective s = Ok h /\
    (gp_noise o <> Some R0 -> objective h = Ok (Ropp (tr_logp t))) /\
    (gp_noise o = Some R0 ->
       objective h = Ok (Rplus (Ropp (tr_logp t)) (Rmult (Rdiv (INR n) 2) (Rminus (ln (kr_sigma2 (tr_krig t))) (kr_sigma2 (tr_krig t)))))).
Proof.
move=> Ht Et objective; move: Ht; rewrite /gp_train; case: (Req_EM_T _ _) => // HY; have Hn := stdev_nz HY.
rewrite -/objective. case Es: (hyper_search _ _ _) => [h|//] /= Eu; exists h; split=> //.
move: Eu; rewrite /gp_update /objective /loglik kernel_callE.
have -> : Rdiv (if gp_noise o is Some s0 then s0 else Rmult (h_sigma h) (stdev Y)) (stdev Y) =
  (if gp_noise o is Some s0 then Rdiv s0 (stdev Y) else h_sigma h).
  by case: (gp_noise o) => [s0|] //; field.
case: (krig_fit _ _ _) => [m|//] /= [Eo]; move: Et; rewrite -Eo => -[<-] /=; split.
  case: (gp_noise o) => [s0|] //= H; case: (Req_EM_T s0 0) => [E|] //=. by case: H; rewrite E.
move=> ->; case: (Req_EM_T R0 0) => [E|N] /=; last by case: N.
congr Ok. field.
Qed.
Lemma ln_lt_self x : (0 < x)%Re -> (ln x < x)%Re.
Proof.
move=> H; have := exp_ineq1_le (ln x); rewrite exp_ln //; lra.
Qed.
Lemma gp_logp_differs n (o o' : gp d p) (X : 'M[R]_(n, d)) (Y : 'cV[R]_n) s t :
  gp_train phi lo hi o X Y s = Ok o' -> gp_model o' = Some t -> gp_noise o = Some R0 -> (0 < kr_sigma2 (tr_krig t))%Re ->
  let objective := loglik phi (gp_noise o) (normalize_input lo hi X) (normalize_output Y) (stdev Y) (gp_kernel o) in
  exists h v, hyper_search (gp_restart o) objective s = Ok h /\ objective h = Ok v /\ (v < - tr_logp t)%Re.
Proof.
move=> Ht Et Hn Hs objective; have [h [E1 [_ /(_ Hn) E2]]] := gp_logp Ht Et.
have HY := (train_inv Ht).1. have P := INR_pos (stdev_nz HY).
do 2 eexists; split; first exact: E1. split; first exact: E2.
have L := ln_lt_self Hs. nra.
Qed.
End Noise.

(** ** with the Ordinary basis the residual variance is positive *)
Lemma ordinary_sigma2 d (lo hi : 'rV[R]_d) n (o o' : gp d 1) (X : 'M[R]_(n, d)) (Y : 'cV[R]_n) s t :
  gp_train (@Ordinary d) lo hi o X Y s = Ok o' -> gp_model o' = Some t -> (0 < kr_sigma2 (tr_krig t))%Re.
Proof.
move=> Ht; case/train_inv: (Ht) => HY [h [k [_ [Hf ->]]]] [<-] /=.
have Hn := stdev_nz HY. have Pn := INR_pos Hn.
have [//|E] : (0 <= kr_sigma2 k)%Re by exact: (fit_sigma2_ge0 Hf).
exfalso. move: E; rewrite (fs_sigma2 Hf) => E.
have G : gls (noise_matrix (normalize_input lo hi X) (set_params (gp_kernel o) (h_theta h)) (Rdiv (new_noise o (stdev Y) h) (stdev Y)))
    (regr_matrix (Ordinary (d:=d)) (normalize_input lo hi X)) (normalize_output Y) (kr_beta k) = R0.
  have := Rinv_0_lt_compat _ Pn => Q. move/esym: E; rewrite /Rdiv => /Rmult_integral [//|E]. lra.
have Z : normalize_output Y - regr_matrix (Ordinary (d:=d)) (normalize_input lo hi X) *m kr_beta k = 0.
  apply/eqP/negPn/negP => N; have := (pos_inv (fs_K Hf)).2 _ N. rewrite -/(gls _ _ _ _) G. exact: Rlt_irrefl.
have C : forall i j, normalize_output Y i 0 = normalize_output Y j 0.
  move=> i j; move/eqP: Z; rewrite subr_eq0 => /eqP ->. by rewrite !mxE; apply: eq_bigr => l _; rewrite !mxE.
have S1 := normalize_output_std HY.
have : stdev (normalize_output Y) = R0.
  rewrite /stdev. have M : forall i, normalize_output Y i 0 = mean (normalize_output Y).
    move=> i; rewrite /mean. have -> : \sum_i0 normalize_output Y i0 0 = Rmult (INR n) (normalize_output Y i 0).
      by rewrite -sum_const; apply: eq_bigr => l _; exact: C.
    have Q (y : R) : y = Rdiv (Rmult (INR n) y) (INR n) by field; lra.
    exact: Q.
  rewrite big1 => [|i _]; first by rewrite /Rdiv Rmult_0_l; exact: sqrt_0.
  rewrite -(M i). toR. ring.
rewrite S1. exact: R1_neq_R0.
Qed.
Lemma gp_same_point_ordinary d (lo hi : 'rV[R]_d) n (o o' : gp d 1) (X : 'M[R]_(n, d)) (Y : 'cV[R]_n) s t (x : 'rV[R]_d) mu :
  gp_train (@Ordinary d) lo hi o X Y s = Ok o' -> gp_model o' = Some t ->
  gp_predict (@Ordinary d) lo hi o' (\matrix_(i < (tr_n t).+1, k < d) x 0 k) = Ok mu ->
  exists j, mu j 0 <> mu ord_max 0.
Proof.
move=> Ht Et; apply: (gp_same_point Ht Et). have := ordinary_sigma2 Ht Et => H E; move: H; rewrite E; exact: Rlt_irrefl.
Qed.
Lemma gp_logp_differs_ordinary d (lo hi : 'rV[R]_d) n (o o' : gp d 1) (X : 'M[R]_(n, d)) (Y : 'cV[R]_n) s t :
  gp_train (@Ordinary d) lo hi o X Y s = Ok o' -> gp_model o' = Some t -> gp_noise o = Some R0 ->
  let objective := loglik (@Ordinary d) (gp_noise o) (normalize_input lo hi X) (normalize_output Y) (stdev Y) (gp_kernel o) in
  exists h v, hyper_search (gp_restart o) objective s = Ok h /\ objective h = Ok v /\ (v < - tr_logp t)%Re.
Proof. move=> Ht Et Hn; apply: (gp_logp_differs Ht Et Hn); exact: (ordinary_sigma2 Ht Et). Qed.
Lemma gp_data d p (phi : 'rV[R]_d -> 'rV[R]_p) (lo hi : 'rV[R]_d) n (o o' : gp d p) (X : 'M[R]_(n, d)) (Y : 'cV[R]_n) s :
  gp_train phi lo hi o X Y s = Ok o' -> exists t noise, gp_model o' = Some t /\ gp_noise o' = Some noise /\
  tr_mean t = mean Y /\ tr_std t = stdev Y /\
  exists E : tr_n t = n, castmx (E, erefl d) (tr_X t) = normalize_input lo hi X /\
    castmx (E, erefl 1%N) (tr_Y t) = normalize_output Y /\
    tr_K t = get_kernel_matrix (gp_kernel o') (tr_X t) (tr_X t) + (Rmult (Rdiv noise (stdev Y)) (Rdiv noise (stdev Y)))%:M.
Proof.
case/train_inv => HY [h [k [_ [_ ->]]]] /=; do 2 eexists; split; first by []. split; first by [].
by do 2 (split; first by []); exists (erefl n); rewrite !castmx_id.
Qed.
Lemma nonconstant n (Y : 'cV[R]_n) : ~ constant Y -> stdev Y <> R0.
Proof.
move=> H E; apply: H => i j; case: (Req_dec (Y i 0) (Y j 0)) => // N.
by have := stdev_pos N; rewrite E => /Rlt_irrefl.
Qed.
Lemma normalize_responses n (Y : 'cV[R]_n) : ~ constant Y ->
  Rdiv (\sum_i normalize_output Y i 0) (INR n) = 0 /\
  Rdiv (\sum_i Rmult (normalize_output Y i 0) (normalize_output Y i 0)) (INR n) = 1.
Proof.
move/nonconstant => HY; have M := normalize_output_mean HY; split; first exact: M.
have := normalize_output_std HY; rewrite /stdev M => E.
have -> : (1 : R) = Rsqr R1 by rewrite Rsqr_1.
rewrite -E Rsqr_sqrt.
  by congr Rdiv; apply: eq_bigr => i _; rewrite !Rminus_0_r.
apply: Rmult_le_pos; last by apply: Rlt_le; apply: Rinv_0_lt_compat; apply: INR_pos; exact: stdev_nz HY.
apply: sumR_ge0 => i; exact: Rle_0_sqr.
Qed.
Lemma loglik_kernel_only d p (phi : 'rV[R]_d -> 'rV[R]_p) n noise (X : 'M[R]_(n, d)) (Y : 'cV[R]_n) ys k theta s1 s2 :
  loglik phi (Some noise) X Y ys k (Hyper theta s1) = loglik phi (Some noise) X Y ys k (Hyper theta s2).
Proof. by []. Qed.
Lemma search_first_best A r (objective : A -> result R) oracle h t0 : hyper_search r objective (Lbfgs oracle) = Ok h ->
  exists i, first_best t0 (trials r oracle) i /\ (nth t0 (trials r oracle) i).1 = h.
Proof. by move=> Hs; exact: (multistart_ok t0 (search_lbfgs Hs)). Qed.
Lemma search_unbound A r (objective : A -> result R) oracle : (forall h, exists v, objective h = Ok v) ->
  ((forall i, (i <= r)%N -> flt (t_fun (oracle i)) finf = false) <->
   hyper_search r objective (Lbfgs oracle) = Raise UnboundLocalError).
Proof.
move=> H; have E : hyper_search r objective (Lbfgs oracle) = multistart (trials r oracle).
  by rewrite /hyper_search run_queries_ok // /= -map_comp.
have S : size (trials r oracle) = r.+1 by rewrite size_map size_iota.
have N i t0 : (i <= r)%N -> nth t0 (trials r oracle) i = (t_x (oracle i), t_fun (oracle i)).
  by move=> Hi; rewrite /trials (nth_map 0%N) ?size_iota // nth_iota.
rewrite E; split=> [Q|/multistart_raise [_ Q] i Hi]; last first.
  by have := Q i (t_x (oracle 0%N), t_fun (oracle 0%N)); rewrite S ltnS N // => /(_ Hi).
case Em: (multistart _) => [h|e]; last by case: (multistart_raise Em) => ->.
have [i [[Hi [B _]] _]] := multistart_ok (t_x (oracle 0%N), t_fun (oracle 0%N)) Em.
by move: Hi B; rewrite S ltnS => Hi; rewrite N //= Q.
Qed.
