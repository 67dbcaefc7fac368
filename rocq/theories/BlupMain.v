(** Proofs: predictions are best linear unbiased, and what more samples change. *)
From Coq Require Import Reals Lra.
From Verif Require Import Fl.
From mathcomp Require Import all_ssreflect all_algebra.
From Verif Require Import RStruct LinAlg LinSpec LinAlgFacts Kernel KernelFacts Krig KrigFacts GP GPSpec GPFacts GPMain MF CoKrig MFSpec MFMain CoKrigMain MFUnits LikSpec LikFacts LikMain BlupSpec BlupFacts.
Set Implicit Arguments.
Unset Strict Implicit.
Unset Printing Implicit Defensive.
Import GRing.Theory.
Local Open Scope ring_scope.

(** ** bases *)
Lemma seq_row_constant p q (s : seq R) : p.+1 = q -> nth 0 s 0 = 1 -> exists b : 'cV[R]_q, seq_row q s *m b = const_mx 1 /\ forall s', nth 0 s' 0 = 1 -> seq_row q s' *m b = const_mx 1.
Proof.
move=> <- H; pose b : 'cV[R]_p.+1 := \col_i (if i == 0 then 1 else 0).
have B s' : nth 0 s' 0 = 1 -> seq_row p.+1 s' *m b = const_mx 1.
  move=> H'; apply/matrixP => i j; rewrite !mxE big_ord_recl !mxE eqxx mulr1 H' big1 ?addr0 // => k _.
  by rewrite !mxE /= mulr0.
by exists b; split=> //; exact: B.
Qed.
Lemma ordinary_constant d : has_constant (@Ordinary d).
Proof.
have [b [_ H]] := @seq_row_constant 0 1 [:: 1] (erefl _) (erefl _). by exists b => x; exact: H.
Qed.
Lemma linear_constant d : has_constant (@Linear d).
Proof.
have [b [_ H]] := @seq_row_constant d d.+1 [:: 1] (erefl _) (erefl _). by exists b => x; exact: H.
Qed.
Lemma quadratic_constant d : has_constant (@Quadratic d).
Proof.
have Q : ((((d + 1) * (d + 2)) %/ 2).-1.+1 = ((d + 1) * (d + 2)) %/ 2)%N.
  by rewrite prednK // divn_gt0 // -[X in (X <= _)%N]mul1n leq_mul // ?addn1 ?addn2.
have [b [_ H]] := @seq_row_constant _ _ [:: 1] Q (erefl _). by exists b => x; exact: H.
Qed.

(** ** Gaussian process *)
Lemma cross_colE d (k : rbf d) theta n m (Z : 'M[R]_(n, d)) (z : 'M[R]_(m, d)) j :
  col j (get_kernel_matrix (set_params k theta) Z z) = cross_corr theta Z (row j z) j.
Proof.
rewrite kernelE; last exact: set_params_pos. apply/matrixP => i l; rewrite !mxE. congr (_ + _).
by case: (_ == _); rewrite ?mulr1 ?mulr0.
Qed.
Lemma regr_constant d p (phi : 'rV[R]_d -> 'rV[R]_p) n (Z : 'M[R]_(n, d)) (b : 'cV[R]_p) : (forall x, phi x *m b = const_mx 1) ->
  regr_matrix phi Z *m b = const_mx 1.
Proof.
move=> H; apply/row_matrixP => i; rewrite row_mul row_regr H. by apply/matrixP => a c; rewrite !mxE.
Qed.
Lemma sum_ones n (w : 'cV[R]_n) : (w^T *m (const_mx 1 : 'cV[R]_n)) 0 0 = \sum_i w i 0.
Proof. by rewrite mxE; apply: eq_bigr => i _; rewrite !mxE mulr1. Qed.
Lemma weights_sum d p (phi : 'rV[R]_d -> 'rV[R]_p) n (Z : 'M[R]_(n, d)) z w : has_constant phi ->
  unbiased (regr_matrix phi Z) (phi z) w -> \sum_i w i 0 = 1.
Proof.
case=> b Hb U. by rewrite -sum_ones -(regr_constant Z Hb) mulmxA U Hb mxE.
Qed.
(** weights that sum to 1 may be applied to the responses as given *)
Lemma unscale n (w Y : 'cV[R]_n) : stdev Y <> R0 -> \sum_i w i 0 = 1 ->
  Rplus (Rmult ((w^T *m normalize_output Y) 0 0) (stdev Y)) (mean Y) = \sum_i Rmult (w i 0) (Y i 0).
Proof.
move=> HY HS. rewrite mxE RmultE mulr_suml.
have E : \sum_i Rmult (w i 0) (Y i 0) = \sum_i (w^T 0 i * normalize_output Y i 0 * stdev Y + w i 0 * mean Y).
  apply: eq_bigr => i _; rewrite !mxE. move: (w i 0) (Y i 0) => a y. toR. by field.
by rewrite E big_split /= -[X in _ = _ + X]mulr_suml HS mul1r.
Qed.
Lemma sum_shift n (w Y : 'cV[R]_n) : stdev Y <> R0 ->
  Rplus (Rmult ((w^T *m normalize_output Y) 0 0) (stdev Y)) (mean Y) = Rplus (mean Y) (\sum_i Rmult (w i 0) (Rminus (Y i 0) (mean Y))).
Proof.
move=> HY. rewrite mxE RmultE mulr_suml Rplus_comm. congr Rplus. apply: eq_bigr => i _; rewrite !mxE.
move: (w i 0) (Y i 0) => a y. toR. by field.
Qed.

Section GPBest.
Variables (d p : nat) (phi : 'rV[R]_d -> 'rV[R]_p) (lo hi : 'rV[R]_d).
(** everything about one trained process, in terms of its data *)
Lemma gp_facts n (o o' : gp d p) (X : 'M[R]_(n, d)) (Y : 'cV[R]_n) s : gp_train phi lo hi o X Y s = Ok o' ->
  exists theta noise t k, gp_kernel o' = rbf_new theta /\ gp_noise o' = Some noise /\ gp_model o' = Some t /\ kr_sigma2 (tr_krig t) = kr_sigma2 k /\
  stdev Y <> R0 /\
  let Z := normalize_input lo hi X in
  let r := Rdiv noise (stdev Y) in
  let K := corr_mx theta Z (Rplus jitter (Rmult r r)) in let F := regr_matrix phi Z in
  fit_spec K F (normalize_output Y) k /\
  forall m (Xq : 'M[R]_(m, d)) mu, gp_predict phi lo hi o' Xq = Ok mu ->
  let z j := row j (normalize_input lo hi Xq) in let c j := cross_corr theta Z (z j) j in
  (forall j, mu j 0 = Rplus (Rmult (blup_mean K F (normalize_output Y) (kr_beta k) (c j) (phi (z j))) (stdev Y)) (mean Y)) /\
  exists sd, gp_predict_std phi lo hi o' Xq = Ok (mu, sd) /\ forall j,
    sd j 0 = sqrt (Rmax (Rplus (Rmult (Rmult (Rsqr (stdev Y)) (kr_sigma2 k)) (error_var 1 K (c j) (blup_w K F (c j) (phi (z j))))) (Rsqr noise)) 0).
Proof.
move=> Ht; have Ht' := Ht; case/train_inv: Ht' => HY [h [k [_ [Hf Eo]]]].
have G m (Xq : 'M[R]_(m, d)) mu sd := gp_std (Xq := Xq) (mu := mu) (sd := sd) Ht.
have P m (Xq : 'M[R]_(m, d)) := gp_predict_ok Xq Ht.
exists (h_theta h), (new_noise o (stdev Y) h). rewrite Eo in G P *.
eexists; exists k; split; first by []. split; first by []. split; first by []. split; first by []. split; first exact: HY.
move=> Z r K F.
have EK : K = noise_matrix Z (set_params (gp_kernel o) (h_theta h)) r by rewrite corr_noise.
rewrite /= -/Z -/r -EK in Hf; split; first exact: Hf.
move=> m Xq mu Hmu z c. have [mu' [sd [Emu Esd]]] := P m Xq. move: Emu; rewrite Hmu => -[Emu]. rewrite -{mu'}Emu in Esd.
have {}G := G _ _ m Xq mu sd (erefl _) (erefl _) Esd.
split=> [j|]; last exists sd; [|split; first exact: Esd; move=> j]; have [Em [Es _]] := G j;
  rewrite cross_colE /= -/Z -/(z j) -/r -EK -/F -/(c j) in Em Es.
  exact: Em.
rewrite Es (blup_value (c j) (phi (z j)) 1 (fs_K Hf) (fs_N Hf)). congr (sqrt (Rmax (Rplus _ _) _)). rewrite /Rsqr. rewrite -/F. toR. ring.
Qed.
Lemma gp_best n m (o o' : gp d p) (X : 'M[R]_(n, d)) (Y : 'cV[R]_n) s (Xq : 'M[R]_(m, d)) mu sd :
  has_constant phi -> gp_train phi lo hi o X Y s = Ok o' -> gp_predict_std phi lo hi o' Xq = Ok (mu, sd) ->
  exists theta noise t, gp_kernel o' = rbf_new theta /\ gp_noise o' = Some noise /\ gp_model o' = Some t /\
  let Z := normalize_input lo hi X in let z j := row j (normalize_input lo hi Xq) in
  let r := Rdiv noise (stdev Y) in
  let K := corr_mx theta Z (Rplus (Rinv (pow 10 10)) (Rmult r r)) in
  forall j, exists w, best_weights 1 K (regr_matrix phi Z) (cross_corr theta Z (z j) j) (phi (z j)) w /\
    mu j 0 = \sum_i Rmult (w i 0) (Y i 0) /\
    sd j 0 = sqrt (Rmax (Rplus (Rmult (Rmult (Rsqr (stdev Y)) (kr_sigma2 (tr_krig t))) (error_var 1 K (cross_corr theta Z (z j) j) w)) (Rsqr noise)) 0).
Proof.
move=> HC Ht Hp; have [mu' [sd' [Emu Esd]]] := gp_predict_ok Xq Ht. move: Esd; rewrite Hp => -[E1 E2]; rewrite -E1 in Emu.
have [theta [noise [t [k [Ek [En [Et [Es [HY [Hf G]]]]]]]]]] := gp_facts Ht.
exists theta, noise, t; split; first exact: Ek. split; first exact: En. split; first exact: Et.
have [Gm [sd2 [Es2 Gs]]] := G _ _ _ Emu. move: Es2; rewrite Hp => -[Es2]. rewrite -{sd2}Es2 in Gs.
move=> Z z r K j. have B := blup_best (cross_corr theta Z (z j) j) (phi (z j)) 1 (fs_K Hf) (fs_N Hf).
eexists; split; first exact: B. rewrite Es; split; last exact: Gs.
rewrite Gm -(blup_predicts _ _ (fs_K Hf) (fs_beta Hf)). apply: unscale => //; exact: weights_sum HC B.1.
Qed.

(** *** more samples *)
Variables (n n2 : nat).
Lemma norm_col_mx (X : 'M[R]_(n, d)) (X2 : 'M[R]_(n2, d)) : normalize_input lo hi (col_mx X X2) = col_mx (normalize_input lo hi X) (normalize_input lo hi X2).
Proof. by apply/matrixP => i l; rewrite !mxE; case: splitP => i' E; rewrite !mxE. Qed.
Lemma row_col_mxu (X : 'M[R]_(n, d)) (X2 : 'M[R]_(n2, d)) i : row (lshift n2 i) (col_mx X X2) = row i X.
Proof. by apply/matrixP => a b; rewrite !mxE (unsplitK (inl i)). Qed.
Lemma row_col_mxd (X : 'M[R]_(n, d)) (X2 : 'M[R]_(n2, d)) i : row (rshift n i) (col_mx X X2) = row i X2.
Proof. by apply/matrixP => a b; rewrite !mxE (unsplitK (inr i)). Qed.
Lemma regr_col_mx (Z : 'M[R]_(n, d)) (Z2 : 'M[R]_(n2, d)) : regr_matrix phi (col_mx Z Z2) = col_mx (regr_matrix phi Z) (regr_matrix phi Z2).
Proof.
apply/row_matrixP => i; rewrite row_regr. case: (split_ordP i) => i' ->; rewrite ?row_col_mxu ?row_col_mxd.
  by apply/matrixP => a b; rewrite !mxE (unsplitK (inl i')) !mxE ord1.
by apply/matrixP => a b; rewrite !mxE (unsplitK (inr i')) !mxE ord1.
Qed.
Lemma corr_ul theta (Z : 'M[R]_(n, d)) (Z2 : 'M[R]_(n2, d)) c : ulsubmx (corr_mx theta (col_mx Z Z2) c) = corr_mx theta Z c.
Proof.
apply/matrixP => i j; rewrite !mxE !row_col_mxu. congr (_ + _ *+ _).
Qed.
Lemma corr_dl theta (Z : 'M[R]_(n, d)) (Z2 : 'M[R]_(n2, d)) c i l :
  dlsubmx (corr_mx theta (col_mx Z Z2) c) i l = exp (Ropp (wdist (\row_k Rpower 10 (theta 0 k)) (row l Z) (row i Z2))).
Proof.
rewrite !mxE row_col_mxu row_col_mxd wdist_sym.
have -> : (rshift n i == lshift n2 l) = false by rewrite -val_eqE /= gtn_eqF // ltn_addr.
by rewrite mulr0n addr0.
Qed.
Lemma corr_blocks theta (Z : 'M[R]_(n, d)) (Z2 : 'M[R]_(n2, d)) c : exists B C D,
  corr_mx theta (col_mx Z Z2) c = block_mx (corr_mx theta Z c) B C D /\
  C = \matrix_(i, l) exp (Ropp (wdist (\row_k Rpower 10 (theta 0 k)) (row l Z) (row i Z2))).
Proof.
set M := corr_mx _ _ _; exists (ursubmx M), (dlsubmx M), (drsubmx M); split; first by rewrite -(corr_ul theta Z Z2) submxK.
by apply/matrixP => i l; rewrite corr_dl mxE.
Qed.
Lemma cross_blocks theta (Z : 'M[R]_(n, d)) (Z2 : 'M[R]_(n2, d)) x j : exists c2,
  cross_corr theta (col_mx Z Z2) x j = col_mx (cross_corr theta Z x j) c2.
Proof.
exists (dsubmx (cross_corr theta (col_mx Z Z2) x j)). rewrite -[LHS]vsubmxK; congr col_mx.
by apply/matrixP => i l; rewrite !mxE row_col_mxu.
Qed.

Lemma rbf_new_inj (a b : 'rV[R]_d) : rbf_new a = rbf_new b -> \row_k Rpower 10 (a 0 k) = \row_k Rpower 10 (b 0 k).
Proof. by case. Qed.
Lemma corr_same (a b : 'rV[R]_d) q (Z : 'M[R]_(q, d)) c : rbf_new a = rbf_new b -> corr_mx a Z c = corr_mx b Z c.
Proof. by rewrite /corr_mx => /rbf_new_inj ->. Qed.
Lemma cross_same (a b : 'rV[R]_d) q (Z : 'M[R]_(q, d)) x j : rbf_new a = rbf_new b -> cross_corr a Z x j = cross_corr b Z x j.
Proof. by rewrite /cross_corr => /rbf_new_inj ->. Qed.
Lemma sq_scale v e : (0 <= v)%Re -> Rsqr (sqrt (Rmax (Rplus (Rmult v e) (Rsqr 0)) 0)) = Rmult v (Rmax e 0).
Proof.
move=> Hv; rewrite Rsqr_sqrt; last exact: Rmax_r. rewrite Rsqr_0 Rplus_0_r.
have -> : Rmax (Rmult v e) 0 = Rmax (Rmult v e) (Rmult v 0) by rewrite Rmult_0_r.
by rewrite RmaxRmult.
Qed.
Lemma gp_more (o1 o1' o2 o2' : gp d p) (X : 'M[R]_(n, d)) (Y : 'cV[R]_n) (X2 : 'M[R]_(n2, d)) (Y2 : 'cV[R]_n2) s1 s2 m (Xq : 'M[R]_(m, d)) mu1 sd1 mu2 sd2 t1 t2 :
  gp_train phi lo hi o1 X Y s1 = Ok o1' -> gp_train phi lo hi o2 (col_mx X X2) (col_mx Y Y2) s2 = Ok o2' ->
  gp_kernel o1' = gp_kernel o2' -> gp_noise o1' = Some R0 -> gp_noise o2' = Some R0 ->
  gp_model o1' = Some t1 -> gp_model o2' = Some t2 ->
  gp_predict_std phi lo hi o1' Xq = Ok (mu1, sd1) -> gp_predict_std phi lo hi o2' Xq = Ok (mu2, sd2) ->
  forall j, (Rsqr (sd2 j 0%R) * (kr_sigma2 (tr_krig t1) * Rsqr (stdev Y)) <= Rsqr (sd1 j 0%R) * (kr_sigma2 (tr_krig t2) * Rsqr (stdev (col_mx Y Y2))))%Re.
Proof.
move=> H1 H2 Hk N1 N2 M1 M2 P1 P2 j.
have [a [r1 [u1 [k1 [Ea [En1 [Eu1 [Es1 [HY1 [Hf1 G1]]]]]]]]]] := gp_facts H1.
have [b [r2 [u2 [k2 [Eb [En2 [Eu2 [Es2 [HY2 [Hf2 G2]]]]]]]]]] := gp_facts H2.
move: En1 En2 Eu1 Eu2; rewrite N1 N2 M1 M2 => -[E1] -[E2] [Et1] [Et2]; rewrite -{r1}E1 -{r2}E2 -{u1}Et1 -{u2}Et2 in Hf1 G1 Hf2 G2 Es1 Es2.
have Eab : rbf_new a = rbf_new b by rewrite -Ea -Eb.
have [m1 [v1 [Q1 V1]]] := gp_predict_ok Xq H1. move: V1; rewrite P1 => -[F1 F1']; rewrite -F1 in Q1.
have [m2 [v2 [Q2 V2]]] := gp_predict_ok Xq H2. move: V2; rewrite P2 => -[F2 F2']; rewrite -F2 in Q2.
have [_ [w1 [W1 D1]]] := G1 _ _ _ Q1. have [_ [w2 [W2 D2]]] := G2 _ _ _ Q2.
move: W1; rewrite P1 => -[W1]. move: W2; rewrite P2 => -[W2].
rewrite (_ : sd1 = w1) // (_ : sd2 = w2) // D1 D2 Es1 Es2 !(Rmult_comm _ (Rsqr _)).
have Z0 x : Rdiv R0 x = R0 by rewrite /Rdiv Rmult_0_l.
set Z := normalize_input lo hi X in Hf1 *. set Z2 := normalize_input lo hi X2.
rewrite norm_col_mx -/Z -/Z2 !Z0 in Hf2 *. rewrite Z0 in Hf1 *.
set x := row j _. set c := cross_corr a Z x j. set C2 := cross_corr b _ x j.
have B1 := blup_best c (phi x) 1 (fs_K Hf1) (fs_N Hf1). have B2 := blup_best C2 (phi x) 1 (fs_K Hf2) (fs_N Hf2).
have LE : (error_var 1 (corr_mx b (col_mx Z Z2) (jitter + R0 * R0)%Re) C2 (blup_w (corr_mx b (col_mx Z Z2) (jitter + R0 * R0)%Re) (regr_matrix phi (col_mx Z Z2)) C2 (phi x)) <=
   error_var 1 (corr_mx a Z (jitter + R0 * R0)%Re) c (blup_w (corr_mx a Z (jitter + R0 * R0)%Re) (regr_matrix phi Z) c (phi x)))%Re.
  have [B [C [D [EK _]]]] := corr_blocks b Z Z2 (jitter + R0 * R0)%Re. have [c2 Ec] := cross_blocks b Z Z2 x j.
  rewrite -/C2 in Ec. move: B2; rewrite !EK Ec regr_col_mx => B2. rewrite (corr_same Z _ Eab) in B1 *.
  have Ecc : c = cross_corr b Z x j by apply: cross_same. rewrite -Ecc in B2 *. exact: best_more B1 B2.
set e1 := error_var _ _ c _ in LE *. set e2 := error_var _ _ C2 _ in LE *.
have S1 : (0 <= Rsqr (stdev Y) * kr_sigma2 k1)%Re by apply: Rmult_le_pos; [exact: Rle_0_sqr|exact: (fit_sigma2_ge0 Hf1)].
have S2 : (0 <= Rsqr (stdev (col_mx Y Y2)) * kr_sigma2 k2)%Re by apply: Rmult_le_pos; [exact: Rle_0_sqr|exact: (fit_sigma2_ge0 Hf2)].
rewrite !sq_scale //.
have LM : (Rmax e2 0 <= Rmax e1 0)%Re by apply: Rle_max_compat_r.
move: S1 S2 LM. move: (Rsqr (stdev Y) * kr_sigma2 k1)%Re (Rsqr (stdev (col_mx Y Y2)) * kr_sigma2 k2)%Re (Rmax e1 0) (Rmax e2 0) => p1 p2 q1 q2 S1 S2 LM.
have := Rmult_le_pos _ _ S1 S2. nra.
Qed.

(** *** the fit in the units of the responses *)
Lemma gp_raw q (o o' : gp d p) (X : 'M[R]_(q, d)) (Y : 'cV[R]_q) s : has_constant phi -> gp_train phi lo hi o X Y s = Ok o' ->
  exists theta noise t (b : 'cV[R]_p) (g : 'cV[R]_q), gp_kernel o' = rbf_new theta /\ gp_noise o' = Some noise /\ gp_model o' = Some t /\
  let Z := normalize_input lo hi X in
  let r := Rdiv noise (stdev Y) in
  let K := corr_mx theta Z (Rplus jitter (Rmult r r)) in let F := regr_matrix phi Z in
  posdef K /\ posdef (normal_mx K F) /\ K *m g + F *m b = Y /\ F^T *m g = 0 /\
  Rmult (Rmult (kr_sigma2 (tr_krig t)) (Rsqr (stdev Y))) (INR q) = qf K g /\
  forall m (Xq : 'M[R]_(m, d)), let z j := row j (normalize_input lo hi Xq) in
    gp_predict phi lo hi o' Xq = Ok (\col_j ((phi (z j) *m b) 0 0 + ((cross_corr theta Z (z j) j)^T *m g) 0 0)).
Proof.
case=> b1 Hb Ht; have [a [noise [t [k [Ea [En [Et [Es [HY [Hf G]]]]]]]]]] := gp_facts Ht.
exists a, noise, t, (stdev Y *: kr_beta k + mean Y *: b1), (stdev Y *: kr_gamma k).
split; first exact: Ea. split; first exact: En. split; first exact: Et.
move=> Z r K F. have [S1 S2] := saddle Hf.
split; first exact: (fs_K Hf). split; first exact: (fs_N Hf). split.
  rewrite mulmxDr -!scalemxAr addrA -scalerDr S1 (regr_constant Z Hb). apply/matrixP => i j; rewrite !mxE ord1.
  toR. by field.
split; first by rewrite -scalemxAr S2 scaler0.
split.
  have q0 : (0 < INR q)%Re by apply: lt_0_INR; apply/ltP; exact: (stdev_nz HY).
  rewrite Es (fs_sigma2 Hf) /gls.
  have -> : qf K (stdev Y *: kr_gamma k) = Rmult (Rsqr (stdev Y)) (qf (invmx K) (normalize_output Y - F *m kr_beta k)).
    rewrite /qf (fs_gamma Hf) [(stdev Y *: _)^T]linearZ /= -!scalemxAl -scalemxAr !scaleE trmx_mul (inv_sym (fs_K Hf).1) -!mulmxA.
    rewrite mulKVmx ?(pos_unit (fs_K Hf)) // /Rsqr. by rewrite -/Z -/r -/K -/F -RmultE -Rmult_assoc.
  rewrite -/Z -/r -/K -/F. set v := qf _ _. set y := stdev Y. set N := INR q in q0 *. rewrite /Rsqr. field. lra.
move=> m Xq z. have [mu [sd [Emu _]]] := gp_predict_ok Xq Ht. have [Gm _] := G _ _ _ Emu. rewrite Emu; congr Ok.
apply/matrixP => j l; rewrite ord1 Gm mxE /blup_mean -/Z -/r -/K -/F.
rewrite -(fs_gamma Hf) [phi (z j) *m (_ + _)]mulmxDr addE -!scalemxAr !scaleE Hb [const_mx _ _ _]mxE.
have A (x y e c : R) : ((x + y) * e + c = e * x + c * 1 + e * y)%Re by ring.
exact: A.
Qed.
Lemma gp_consistent (o1 o1' o2 o2' : gp d p) (X : 'M[R]_(n, d)) (Y : 'cV[R]_n) (X2 : 'M[R]_(n2, d)) (Y2 : 'cV[R]_n2) s1 s2 (W : 'M[R]_(n, d)) M0 noise1 noise2 t1 t2 :
  has_constant phi ->
  gp_train phi lo hi o1 X Y s1 = Ok o1' -> gp_predict phi lo hi o1' (col_mx W X2) = Ok (col_mx M0 Y2) ->
  gp_train phi lo hi o2 (col_mx X X2) (col_mx Y Y2) s2 = Ok o2' ->
  gp_kernel o1' = gp_kernel o2' -> gp_noise o1' = Some noise1 -> gp_noise o2' = Some noise2 ->
  Rdiv noise1 (stdev Y) = Rdiv noise2 (stdev (col_mx Y Y2)) ->
  gp_model o1' = Some t1 -> gp_model o2' = Some t2 ->
  (forall m (Xq : 'M[R]_(m, d)), gp_predict phi lo hi o2' Xq = gp_predict phi lo hi o1' Xq) /\
  Rmult (Rmult (kr_sigma2 (tr_krig t2)) (Rsqr (stdev (col_mx Y Y2)))) (INR (n + n2)) = Rmult (Rmult (kr_sigma2 (tr_krig t1)) (Rsqr (stdev Y))) (INR n).
Proof.
move=> HC H1 HP H2 Hk N1 N2 HN M1 M2.
have [a [r1 [u1 [b1 [g1 [Ea [En1 [Eu1 [PK1 [PN1 [S1 [T1 [V1 Q1]]]]]]]]]]]]] := gp_raw HC H1.
have [b [r2 [u2 [b2 [g2 [Eb [En2 [Eu2 [PK2 [PN2 [S2 [T2 [V2 Q2]]]]]]]]]]]]] := gp_raw HC H2.
move: En1 En2 Eu1 Eu2; rewrite N1 N2 M1 M2 => -[E1] -[E2] [Et1] [Et2].
rewrite -{r1}E1 -{u1}Et1 in PK1 PN1 S1 V1. rewrite -{r2}E2 -{u2}Et2 -HN in PK2 PN2 S2 V2.
have Eab : rbf_new a = rbf_new b by rewrite -Ea -Eb.
move: HP; rewrite Q1 => -[HP].
set Z := normalize_input lo hi X in PK1 PN1 S1 T1 V1 Q1 HP. set Z2 := normalize_input lo hi X2.
rewrite norm_col_mx -/Z -/Z2 in PK2 PN2 S2 T2 V2 Q2.
set nug := (jitter + _)%Re in PK1 PN1 S1 V1 PK2 PN2 S2 V2.
have [B [C [D [EK EC]]]] := corr_blocks b Z Z2 nug. rewrite -(corr_same Z nug Eab) in EK.
have EY : corr_mx b (col_mx Z Z2) nug *m col_mx g1 0 + regr_matrix phi (col_mx Z Z2) *m b1 = col_mx Y Y2.
  rewrite EK regr_col_mx mul_block_col !mulmx0 !addr0 mul_col_mx add_col_mx S1; congr col_mx.
  apply/matrixP => i l; rewrite ord1 addE.
  have -> : Y2 i 0 = (col_mx M0 Y2) (rshift n i) 0 by rewrite col_mxEd.
  rewrite -HP mxE norm_col_mx row_col_mxd -/Z2 addrC; congr (_ + _).
    by rewrite -row_regr -row_mul [RHS]mxE.
  rewrite [LHS]mxE [RHS]mxE; apply: eq_bigr => q _; congr (_ * _).
  rewrite EC [LHS]mxE [RHS]mxE mxE -(rbf_new_inj Eab).
  have -> : ((q : nat) == (rshift n i : nat)) = false by rewrite /= ltn_eqF // ltn_addr.
  by rewrite Rplus_0_r.
have T : (regr_matrix phi (col_mx Z Z2))^T *m col_mx g1 0 = 0.
  by rewrite regr_col_mx tr_col_mx mul_row_col mulmx0 addr0.
have [Eg Eb'] := saddle_unique PK2 PN2 (etrans S2 (esym EY)) T2 T.
split.
  move=> m Xq; rewrite Q1 Q2. congr Ok; apply/matrixP => j l; rewrite [LHS]mxE [RHS]mxE Eb' Eg. congr (_ + _).
  have [c2 ->] := cross_blocks b Z Z2 (row j (normalize_input lo hi Xq)) j.
  by rewrite tr_col_mx mul_row_col mulmx0 addr0 -(cross_same Z _ _ Eab).
rewrite V2 V1 Eg EK /qf tr_col_mx mul_row_block mul_row_col !trmx0 !mul0mx !mulmx0 !addr0. by [].
Qed.
End GPBest.

(** ** hierarchical Kriging *)
Section HKBest.
Variables (d : nat) (lo hi : 'rV[R]_d).
Lemma hk_best nh nl m (o o' : hk d) (Xh : 'M[R]_(nh, d)) (Yh : 'cV[R]_nh) (Xl : 'M[R]_(nl, d)) (Yl : 'cV[R]_nl) sl sh (Xq : 'M[R]_(m, d)) mu sd :
  hk_train lo hi o Xh Yh Xl Yl sl sh = Ok o' -> hk_predict_std lo hi o' Xq = Ok (mu, sd) ->
  exists theta noise t F0 f0, hk_kernel o' = rbf_new theta /\ hk_noise o' = Some noise /\ hk_model o' = Some t /\
  gp_predict (@Ordinary d) lo hi (hk_lf o') Xh = Ok F0 /\ gp_predict (@Ordinary d) lo hi (hk_lf o') Xq = Ok f0 /\
  let scaled y := Rdiv (Rminus y (mean Yh)) (stdev Yh) in
  let Z := normalize_input lo hi Xh in let z j := row j (normalize_input lo hi Xq) in
  let r := Rdiv noise (stdev Yh) in
  let K := corr_mx theta Z (Rplus (Rinv (pow 10 10)) (Rmult r r)) in
  let F : 'M[R]_(nh, 1) := \col_i scaled (F0 i 0) in
  forall j, exists w, best_weights 1 K F (cross_corr theta Z (z j) j) (const_mx (scaled (f0 j 0))) w /\
    mu j 0 = Rplus (mean Yh) (\sum_i Rmult (w i 0) (Rminus (Yh i 0) (mean Yh))) /\
    sd j 0 = sqrt (Rplus (Rmult (Rsqr (stdev Yh)) (Rmax (Rmult (kr_sigma2 (hk_krig t)) (error_var 1 K (cross_corr theta Z (z j) j) w)) 0)) (Rsqr noise)).
Proof.
move=> Ht Hp; have Ht' := Ht; case/hk_train_inv: Ht' => lf [F0 [h [k [El [HY [EF [_ [Hf Eo]]]]]]]].
have [f0 [_ [Ef _]]] := gp_predict_ok Xq El.
rewrite Eo in Ht Hp *.
exists (h_theta h), (hk_new_noise o (stdev Yh) h); eexists; exists F0, f0.
split; first by []. split; first by []. split; first by []. split; first exact: EF. split; first exact: Ef.
move=> scaled Z z r K F j. have [Em [Es _]] := hk_std Ht (erefl _) (erefl _) Ef Hp j.
have EK : K = noise_matrix Z (set_params (hk_kernel o) (h_theta h)) r by rewrite corr_noise.
have EFF : F = scale_col Yh F0 by apply/matrixP => a b; rewrite !mxE ord1.
rewrite /= -/Z -/r -EK -EFF in Hf Em Es. rewrite cross_colE -/(z j) in Em Es.
have Efj : row j (scale_col Yh f0) = const_mx (scaled (f0 j 0)) by apply/matrixP => a b; rewrite !mxE ord1.
rewrite Efj in Em Es. set c := cross_corr _ _ _ _ in Em Es *. set f := const_mx _ in Em Es *.
have B := blup_best c f 1 (fs_K Hf) (fs_N Hf).
eexists; split; first exact: B. split.
  by rewrite Em -(blup_predicts c f (fs_K Hf) (fs_beta Hf)); exact: sum_shift.
rewrite Es (blup_value c f 1 (fs_K Hf) (fs_N Hf)). congr (sqrt (Rplus _ _)).
set q := Rmult (kr_sigma2 k) _. set q' := Rmult (kr_sigma2 k) (Rplus _ _).
have <- : q = q' by rewrite /q /q'; toR; ring.
have := sqrt_sqrt _ (Rmax_r q 0). set e := sqrt _ => He. rewrite -He /Rsqr. ring.
Qed.
End HKBest.

(** ** Co-Kriging *)
Section CKBest.
Variables (d : nat) (lo hi : 'rV[R]_d).
(** without a condition on the weights *)
Lemma simple_best n v (K : 'M[R]_n) c : posdef K -> forall w,
  error_var v K c w = Rplus (error_var v K c (invmx K *m c)) (qf K (w - invmx K *m c)).
Proof.
move=> PK w; rewrite /error_var !sum_dot. set w0 := invmx K *m c. set h := w - w0.
have Eh : w = w0 + h by rewrite addrC subrK.
rewrite {1 2}Eh (qf_sum _ _ PK.1) [(w0 + h)^T]linearD /= mulmxDl addE.
have -> : (h^T *m K *m w0) 0 0 = (h^T *m c) 0 0 by rewrite -mulmxA /w0 mulKVmx // (pos_unit PK).
toR. ring.
Qed.
Lemma simple_value n v (K : 'M[R]_n) c : posdef K -> error_var v K c (invmx K *m c) = Rminus v (qf (invmx K) c).
Proof.
move=> PK; rewrite /error_var sum_dot /qf trmx_mul (inv_sym PK.1) -!mulmxA mulKVmx ?(pos_unit PK) //. toR. ring.
Qed.
Lemma invxE (x : R) : x <> R0 -> x^-1 = Rinv x.
Proof. move=> N; apply: (@mulfI _ x); first exact/eqP. by rewrite mulfV ?(introN eqP) // -RmultE Rinv_r. Qed.
(** the constant trend: one column of ones *)
Lemma ones_normal n (K : 'M[R]_n) : normal_mx K (const_mx 1 : 'cV[R]_n) = (qf (invmx K) (const_mx 1))%:M.
Proof. by rewrite [LHS]mx11_scalar /normal_mx /qf mulmxA. Qed.
Lemma ones_beta n (K : 'M[R]_n) (Y : 'cV[R]_n) : (0 < n)%N -> posdef K ->
  const_mx (gls_mean K Y) = invmx (normal_mx K (const_mx 1 : 'cV[R]_n)) *m ((const_mx 1 : 'cV[R]_n)^T *m (invmx K *m Y)).
Proof.
move=> n0 PK; have q0 := ones_pos n0 (pos_inv PK). rewrite ones_normal invmx_scalar mul_scalar_mx.
apply/matrixP => i j; rewrite !ord1 scaleE mxE /gls_mean invxE; last lra. rewrite -RmultE /Rdiv. exact: Rmult_comm.
Qed.
Lemma ones_full n : (0 < n)%N -> full_rank (const_mx 1 : 'cV[R]_n).
Proof.
move=> n0 x E; apply/matrixP => i j; rewrite !ord1 [RHS]mxE.
by have := congr1 (fun M : 'cV[R]_n => M (Ordinal n0) 0) E; rewrite !mxE big_ord1 mxE mul1r.
Qed.
Lemma ck_best nh nl m (o o' o2 : ck d) (Xh : 'M[R]_(nh, d)) (Yh : 'cV[R]_nh) (Xl : 'M[R]_(nl, d)) (Yl : 'cV[R]_nl) sl sh (Xq : 'M[R]_(m, d)) mu sd t noise :
  ck_train lo hi o Xh Yh Xl Yl sl sh = Ok o' -> ck_model o' = Some t -> ck_noise o' = Some noise -> ck_predict_std lo hi o' Xq = Ok (o2, (mu, sd)) ->
  let z := normalize_input lo hi Xq in
  let s_l := kr_sigma2 (lt_krig (ct_lf t)) in let v := Rplus (Rmult (Rmult (ct_rho t) (ct_rho t)) s_l) (ct_sigma2 t) in
  let K := ct_C t + (Rinv (pow 10 10))%:M in
  let one : 'cV[R]_(ct_nl t + ct_nh t) := const_mx 1 in
  let c := col_mx (Rmult (ct_rho t) s_l *: get_kernel_matrix (lg_kernel (ck_lf o')) (ct_Xl t) z)
                  (Rmult (Rmult (ct_rho t) (ct_rho t)) s_l *: get_kernel_matrix (lg_kernel (ck_lf o')) (ct_Xh t) z
                   + ct_sigma2 t *: get_kernel_matrix (ck_kernel o') (ct_Xh t) z) in
  forall j, exists w w0,
    best_weights v K one (col j c) 1%:M w /\ (forall w', (error_var v K (col j c) w0 <= error_var v K (col j c) w')%Re) /\
    mu j 0 = Rplus (mean Yh) (Rmult (stdev Yh) (\sum_i Rmult (w i 0) (ct_y t i 0))) /\
    sd j 0 = sqrt (Rplus (Rmult (Rsqr (stdev Yh)) (Rmax (error_var v K (col j c) w0) 0)) (Rsqr (Rmult noise (stdev Yh)))) /\
    error_var v K (col j c) w = Rplus (error_var v K (col j c) w0) (Rdiv (Rsqr (Rminus 1 (\sum_i w0 i 0))) (qf (invmx K) one)).
Proof.
move=> Ht Et Hn Hp.
have [t' [s' [Et' [Hs [Em [Es [HY [EL PC]]]]]]]] := ck_model_of Ht.
move: Et' Hs; rewrite Et Hn => -[E1] [E2]; rewrite -{t'}E1 in Em Es EL PC.
have Emu : ct_mu t = gls_mean (ct_C t + jitter%:M) (ct_y t).
  by move: Ht => /ck_train_inv [_ [lf [u [h [L [LC [_ [_ [Eo _]]]]]]]]]; move: Et; rewrite Eo => -[<-].
have N0 : (0 < ct_nl t + ct_nh t)%N.
  move: Ht => /ck_train_inv [_ [lf [u [h [L [LC [_ [_ [Eo _]]]]]]]]]; move: Et; rewrite Eo => -[<-] /=.
  by rewrite addn_gt0 (stdev_nz HY) orbT.
move=> z s_l v K one c j; rewrite -/K in Emu.
have PE := ck_predictE lo hi Xq Et PC EL. rewrite /= -/z -[ck_cross _ _ _]/c -/K in PE.
move: Hp; rewrite /ck_predict_std Et PE -/z -[ck_cross _ _ _]/c /= (chol_solve_ok _ PC.1 EL) /= Hn -/K => -[_ Hmu Hsd].
change (posdef K) in PC. have PN := normal_pos PC (ones_full N0).
have B := blup_best (col j c) (1%:M : 'rV[R]_1) v PC PN.
exists (blup_w K one (col j c) 1%:M), (invmx K *m col j c); split; first exact: B.
split.
  move=> w'; rewrite (simple_best v (col j c) PC w') -{1}[error_var _ _ _ _]Rplus_0_r; apply: Rplus_le_compat_l; exact: (posdef_semi PC).2.
split.
  rewrite -Hmu mxE Emu Es Em Rplus_comm sum_dot (blup_predicts _ _ PC (ones_beta (ct_y t) N0 PC)) /blup_mean.
  have -> : (const_mx 1 : 'cV[R]_(ct_nl t + ct_nh t)) *m (const_mx (gls_mean K (ct_y t)) : 'cV[R]_1) = const_mx (gls_mean K (ct_y t)).
    by apply/matrixP => a b; rewrite !mxE big_ord1 !mxE mul1r.
  have -> : ((col j c)^T *m (invmx K *m (ct_y t - const_mx (gls_mean K (ct_y t))))) 0 0 = (c^T *m (invmx K *m (ct_y t - const_mx (gls_mean K (ct_y t))))) j 0.
    by rewrite [LHS]mxE [RHS]mxE; apply: eq_bigr => i _; rewrite !trE [col j c i 0]mxE.
  rewrite mul1mx [const_mx _ 0 0]mxE. congr Rplus. exact: Rmult_comm.
rewrite (blup_value _ _ v PC PN) (simple_value v _ PC).
split.
  have Eq : (c^T *m (invmx K *m c)) j j = qf (invmx K) (col j c).
    rewrite /qf -mulmxA [LHS]mxE [RHS]mxE; apply: eq_bigr => k _; congr (_ * _); first by rewrite !trE [RHS]mxE.
    by rewrite [LHS]mxE [RHS]mxE; apply: eq_bigr => i _; rewrite [col j c i 0]mxE.
  rewrite -Hsd mxE Es Eq -/s_l -/v. congr sqrt. have := sqrt_sqrt _ (Rmax_r (v - qf (invmx K) (col j c))%Re 0).
  set e := sqrt _ => He. rewrite -He /Rsqr. ring.
rewrite /blup_var -/(normal_mx K one) ones_normal invmx_scalar invxE; last by have := ones_pos N0 (pos_inv PC); lra.
set q := qf (invmx K) (const_mx 1). rewrite -/one -/q /=.
have -> : qf ((Rinv q)%:M) ((1%:M : 'rV[R]_1)^T - one^T *m (invmx K *m col j c)) = Rdiv (Rsqr (Rminus 1 (\sum_i (invmx K *m col j c) i 0))) q.
  rewrite /qf mul_mx_scalar -scalemxAl scaleE.
  have -> : (1%:M : 'rV[R]_1)^T - one^T *m (invmx K *m col j c) = (Rminus 1 (\sum_i (invmx K *m col j c) i 0))%:M.
    rewrite [LHS]mx11_scalar addE oppE trE [1%:M 0 0]mxE eqxx dotC sum_ones. by [].
  rewrite tr_scalar_mx mul_scalar_mx scaleE [_%:M 0 0]mxE eqxx mulr1n /Rdiv /Rsqr. toR. ring.
have A (x y e : R) : (x - 1 + (1 - y + e) = x - y + e)%Re by ring.
exact: A.
Qed.
End CKBest.
