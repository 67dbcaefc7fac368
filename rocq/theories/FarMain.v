(** Proofs: predictions far from all samples. *)
From Coq Require Import Reals Lra.
From Verif Require Import Fl.
From mathcomp Require Import all_ssreflect all_algebra.
From Verif Require Import RStruct LinAlg LinSpec LinAlgFacts Kernel KernelFacts Krig KrigFacts GP GPSpec GPFacts GPMain MF CoKrig MFSpec MFMain CoKrigMain LikSpec LikFacts LikMain BlupSpec BlupFacts BlupMain FarSpec FarFacts.
Set Implicit Arguments.
Unset Strict Implicit.
Unset Printing Implicit Defensive.
Import GRing.Theory.
Local Open Scope ring_scope.

Lemma min_pos d (f : 'I_d -> R) : (forall k, (0 < f k)%Re) -> exists a, (0 < a)%Re /\ forall k, (a <= f k)%Re.
Proof.
elim: d f => [|d IH] f H; first by exists 1%Re; split; [lra|case].
have [a [Ha Hb]] := IH (fun k => f (lift ord0 k)) (fun k => H _).
exists (Rmin a (f ord0)); split; first exact: Rmin_pos.
move=> k; case: (unliftP ord0 k) => [k' ->|->]; last exact: Rmin_r. apply: Rle_trans (Hb k'); exact: Rmin_l.
Qed.
Lemma row_norm d (lo hi : 'rV[R]_d) n (X : 'M[R]_(n, d)) i : row i (normalize_input lo hi X) = normalize_input lo hi (row i X).
Proof. by apply/matrixP => a b; rewrite !mxE. Qed.

Section Corr.
Variables (d : nat) (lo hi : 'rV[R]_d).
Hypothesis Hs : space_ok lo hi.
Lemma wdist_far n (X : 'M[R]_(n, d)) (w : 'rV[R]_d) : positive_params w ->
  exists a, (0 < a)%Re /\ forall r x i, (0 <= r)%Re -> away r X x -> (a * (r * r) <= wdist w (row i (normalize_input lo hi X)) (normalize_input lo hi x))%Re.
Proof.
move=> Hw; have P k : (0 < w 0%R k * Rsqr (/ (hi 0%R k - lo 0%R k)))%Re.
  apply: Rmult_lt_0_compat; first exact: Hw. apply: Rlt_0_sqr; apply: Rinv_neq_0_compat. have := Hs k; lra.
have [a [Ha Hb]] := min_pos P; exists a; split=> // r x i Hr /(_ i) [k Hk].
have T l : Rle R0 (w 0 l * (row i (normalize_input lo hi X) 0 l - normalize_input lo hi x 0 l) ^+ 2).
  rewrite expr2; apply: Rmult_le_pos; first by have := Hw l; lra. exact: Rle_0_sqr.
rewrite /wdist (bigD1 k) //=.
have G : Rle R0 (\sum_(l < d | l != k) w 0 l * (row i (normalize_input lo hi X) 0 l - normalize_input lo hi x 0 l) ^+ 2).
  by elim/big_rec: _ => [|l y _ Hy]; [exact: Rle_refl|exact: (Rplus_le_le_0_compat _ _ (T l) Hy)].
set S := \sum_(_ < d | _) _ in G *.
have E : row i (normalize_input lo hi X) 0 k - normalize_input lo hi x 0 k = ((X i k - x 0%R k) * / (hi 0%R k - lo 0%R k))%Re.
  rewrite !mxE. toR. have := Hs k => H. field. lra.
have D : (r * r <= Rsqr (X i k - x 0%R k))%Re by rewrite -/(Rsqr r) Rsqr_neg_minus; apply: Rsqr_le_abs_1; rewrite (Rabs_pos_eq r).
rewrite expr2 E; have := Hb k. move: D; rewrite /Rsqr. set u := (/ _)%Re. set v := (X i k - x 0%R k)%Re. move: (w 0 k) => ww D B.
have B1 : (0 <= r * r)%Re by exact: Rle_0_sqr.
have := Rmult_le_compat _ _ _ _ (Rlt_le _ _ Ha) B1 B D. toR. move: G; toR. nra.
Qed.
Lemma exp_small a e : (0 < a)%Re -> (0 < e)%Re -> exists r, (0 <= r)%Re /\ forall y, (a * (r * r) <= y)%Re -> (exp (- y) < e)%Re.
Proof.
move=> Ha He; exists (Rmax 1 (/ (a * e)))%Re. have P := Rmult_lt_0_compat _ _ Ha He. have I := Rinv_0_lt_compat _ P.
set r := Rmax _ _. have R1' : (1 <= r)%Re by exact: Rmax_l. have R2 : (/ (a * e) <= r)%Re by exact: Rmax_r.
split; first lra. move=> y Hy. rewrite exp_Ropp.
have Y : (/ e <= y)%Re.
  have -> : (/ e = a * / (a * e))%Re by field; lra. apply: Rle_trans Hy. apply: Rmult_le_compat_l; first lra. nra.
have Z := exp_ineq1_le y. have L : (/ e < exp y)%Re by lra.
rewrite -[e]Rinv_inv. apply: Rinv_lt_contravar => //. have Ie := Rinv_0_lt_compat _ He. exact: Rmult_lt_0_compat (exp_pos _).
Qed.

Variables (far : R -> 'rV[R]_d -> Prop).
Lemma lim_corr n (X : 'M[R]_(n, d)) theta j : (forall r x, far r x -> away r X x) ->
  limm far (fun x => cross_corr theta (normalize_input lo hi X) (normalize_input lo hi x) j) (no_corr n j).
Proof.
move=> Hfar i l e He; rewrite !mxE.
have Hw : positive_params (\row_k Rpower 10 (theta 0 k)) by move=> k; rewrite mxE; exact: exp_pos.
have [a [Ha Ga]] := wdist_far X Hw. have [r [Hr Gr]] := exp_small Ha He.
exists r => x /Hfar Hx; rewrite !mxE. 
have L := Gr _ (Ga r x i Hr Hx).
set c := (if _ then _ else _). set b := exp _. have B : (0 < b)%Re by exact: exp_pos.
rewrite -/b in L. have -> : (b + c - c = b)%Re by ring. rewrite Rabs_pos_eq; lra.
Qed.
End Corr.

Lemma ordinaryE d (x : 'rV[R]_d) : Ordinary x = 1%:M.
Proof. by apply/matrixP => i j; rewrite !mxE !ord1. Qed.
Lemma regr_ordinary d n (Z : 'M[R]_(n, d)) : regr_matrix (@Ordinary d) Z = const_mx 1.
Proof. by apply/row_matrixP => i; rewrite row_regr ordinaryE; apply/matrixP => a b; rewrite !mxE !ord1. Qed.
Lemma no_corr0 n j : (n <= j)%N -> no_corr n j = 0.
Proof. move=> H; apply/matrixP => i l; rewrite !mxE. by rewrite ltn_eqF // (leq_trans (ltn_ord i)). Qed.
Lemma error0 n v (K : 'M[R]_n) w : error_var v K 0 w = Rplus v (qf K w).
Proof.
rewrite /error_var big1 => [|i _]; last by rewrite mxE Rmult_0_r. by rewrite Rmult_0_r Rminus_0_r.
Qed.
(** without correlations and with a constant trend *)
Lemma weights0 n (K : 'M[R]_n) : (0 < n)%N -> posdef K ->
  blup_w K (const_mx 1) 0 1%:M = Rinv (qf (invmx K) (const_mx 1)) *: (invmx K *m (const_mx 1 : 'cV[R]_n)).
Proof.
move=> n0 PK; have q0 := ones_pos n0 (pos_inv PK). rewrite /blup_w /blup_r add0r !mulmx0 subr0 tr_scalar_mx mulmx1 ones_normal invmx_scalar.
by rewrite mul_mx_scalar -scalemxAr invxE //; lra.
Qed.
Lemma combine0 n (K : 'M[R]_n) (Y : 'cV[R]_n) : (0 < n)%N -> posdef K ->
  \sum_i Rmult (blup_w K (const_mx 1) 0 1%:M i 0) (Y i 0) = gls_constant K Y.
Proof.
move=> n0 PK; rewrite sum_dot weights0 // [(_ *: _)^T]linearZ /= -scalemxAl scaleE trmx_mul (inv_sym PK.1) -mulmxA.
rewrite /gls_constant /Rdiv. exact: Rmult_comm.
Qed.
Lemma value0 n v (K : 'M[R]_n) : (0 < n)%N -> posdef K ->
  error_var v K 0 (blup_w K (const_mx 1) 0 1%:M) = Rplus v (Rinv (qf (invmx K) (const_mx 1))).
Proof.
move=> n0 PK; have q0 := ones_pos n0 (pos_inv PK). rewrite error0 weights0 //. congr Rplus. set q := qf (invmx K) _ in q0 *.
rewrite /qf [(_ *: _)^T]linearZ /= -!scalemxAl -scalemxAr !scaleE trmx_mul (inv_sym PK.1) -!mulmxA mulKVmx ?(pos_unit PK) //.
set e := (_ *m _) 0 0. have -> : e = q by rewrite /e /q /qf -mulmxA.
rewrite -!RmultE. field. lra.
Qed.

(** ** Gaussian process *)
Section GPFar.
Variables (d : nat) (lo hi : 'rV[R]_d).
Hypothesis Hs : space_ok lo hi.
Lemma away_mono n (X : 'M[R]_(n, d)) r r' x : (r <= r')%Re -> away r' X x -> away r X x.
Proof. by move=> H G i; have [k Hk] := G i; exists k; exact: Rle_trans Hk. Qed.
(** the values predicted for a row [x] numbered [j], and their limits *)
Lemma gp_row n (o o' : gp d 1) (X : 'M[R]_(n, d)) (Y : 'cV[R]_n) s : gp_train (@Ordinary d) lo hi o X Y s = Ok o' ->
  exists theta noise t, gp_kernel o' = rbf_new theta /\ gp_noise o' = Some noise /\ gp_model o' = Some t /\
  let Z := normalize_input lo hi X in
  let r := Rdiv noise (stdev Y) in
  let K := corr_mx theta Z (Rplus (Rinv (pow 10 10)) (Rmult r r)) in
  let w c := blup_w K (const_mx 1 : 'cV[R]_n) c 1%:M in
  let S c := sqrt (Rmax (Rplus (Rmult (Rmult (Rsqr (stdev Y)) (kr_sigma2 (tr_krig t))) (error_var 1 K c (w c))) (Rsqr noise)) 0) in
  (0 < n)%N /\ posdef K /\
  (forall m (Xq : 'M[R]_(m, d)) mu, gp_predict (@Ordinary d) lo hi o' Xq = Ok mu -> forall i,
    mu i 0 = \sum_k Rmult (w (cross_corr theta Z (normalize_input lo hi (row i Xq)) i) k 0) (Y k 0)) /\
  forall m (Xq : 'M[R]_(m, d)) mu sd, gp_predict_std (@Ordinary d) lo hi o' Xq = Ok (mu, sd) -> forall i,
    gp_predict (@Ordinary d) lo hi o' Xq = Ok mu /\ sd i 0 = S (cross_corr theta Z (normalize_input lo hi (row i Xq)) i).
Proof.
move=> Ht; have [theta [noise [t [k [Ek [En [Et [Es [HY [Hf G]]]]]]]]]] := gp_facts Ht.
exists theta, noise, t; split; first exact: Ek. split; first exact: En. split; first exact: Et.
move=> Z r K w S. rewrite regr_ordinary in Hf G. split; first exact: (stdev_nz HY). split; first exact: (fs_K Hf).
have M m (Xq : 'M[R]_(m, d)) mu : gp_predict (@Ordinary d) lo hi o' Xq = Ok mu -> forall i,
    mu i 0 = \sum_k0 Rmult (w (cross_corr theta Z (normalize_input lo hi (row i Xq)) i) k0 0) (Y k0 0).
  move=> P i; have [Gm _] := G _ _ _ P. rewrite Gm row_norm ordinaryE -(blup_predicts _ _ (fs_K Hf) (fs_beta Hf)).
  set c := cross_corr _ _ _ _. apply: unscale => //.
  have := blup_unbiased c 1%:M (fs_N Hf). rewrite /unbiased => U. have := sum_ones (w c). by rewrite /w U mxE => <-.
split; first exact: M.
move=> m Xq mu sd P i. have [mu' [sd' [Q1 Q2]]] := gp_predict_ok Xq Ht. move: Q2; rewrite P => -[E1 E2]. rewrite -E1 in Q1.
split; first exact: Q1. have [_ [sd2 [Q3 Gs]]] := G _ _ _ Q1. move: Q3; rewrite P => -[E3]. by rewrite E3 Gs row_norm ordinaryE /S -Es.
Qed.
Lemma gp_far n (o o' : gp d 1) (X : 'M[R]_(n, d)) (Y : 'cV[R]_n) s : gp_train (@Ordinary d) lo hi o X Y s = Ok o' ->
  exists theta noise t, gp_kernel o' = rbf_new theta /\ gp_noise o' = Some noise /\ gp_model o' = Some t /\
  let q := Rdiv noise (stdev Y) in
  let K := corr_mx theta (normalize_input lo hi X) (Rplus (Rinv (pow 10 10)) (Rmult q q)) in
  let one : 'cV[R]_n := const_mx 1 in
  forall j, exists w, best_weights 1 K one (no_corr n j) 1%:M w /\
    (forall e, (0 < e)%Re -> exists r, forall m (Xq : 'M[R]_(m, d)) (i : 'I_m) mu sd, (i : nat) = j ->
      away r X (row i Xq) -> gp_predict_std (@Ordinary d) lo hi o' Xq = Ok (mu, sd) ->
      close e (mu i 0) (\sum_k Rmult (w k 0) (Y k 0)) /\
      close e (sd i 0) (sqrt (Rmax (Rplus (Rmult (Rmult (Rsqr (stdev Y)) (kr_sigma2 (tr_krig t))) (error_var 1 K (no_corr n j) w)) (Rsqr noise)) 0))) /\
    ((n <= j)%N -> \sum_k Rmult (w k 0) (Y k 0) = gls_constant K Y /\
      error_var 1 K (no_corr n j) w = Rplus 1 (Rinv (qf (invmx K) one))).
Proof.
move=> Ht; have [theta [noise [t [Ek [En [Et [n0 [PK [M G]]]]]]]]] := gp_row Ht.
exists theta, noise, t; split; first exact: Ek. split; first exact: En. split; first exact: Et.
move=> q K one j. have PN := normal_pos PK (ones_full n0).
exists (blup_w K one (no_corr n j) 1%:M). split; first exact: (blup_best (no_corr n j) 1%:M 1 PK PN).
split.
  have mono r r' x : (r <= r')%Re -> away r' X x -> away r X x by exact: away_mono.
  have C := lim_corr Hs (far := fun r x => away r X x) theta j (fun r x H => H).
  have W := lim_weights mono K one C (limm_const _ (1%:M : 'rV[R]_1)).
  have Lm := lim_combine mono Y W.
  have Le := lim_error mono 1 K C W.
  have Ls := lim_sqrt (lim_max 0 (lim_plus mono (lim_mult mono (lim_const _ (Rmult (Rsqr (stdev Y)) (kr_sigma2 (tr_krig t)))) Le) (lim_const _ (Rsqr noise)))) (Rmax_r _ _).
  move=> e He; have [r Hr] := lim_both mono Lm Ls He.
  exists r => m Xq i mu sd Ei A P. have [P1 ->] := G _ _ _ _ P i. rewrite (M _ _ _ P1) Ei. exact: Hr A.
move=> Hj; rewrite no_corr0 //. split; first exact: combine0. exact: value0.
Qed.
End GPFar.

(** ** any basis: the trend remains *)
Section TrendFar.
Variables (d p : nat) (phi : 'rV[R]_d -> 'rV[R]_p) (lo hi : 'rV[R]_d).
Hypothesis Hs : space_ok lo hi.
Lemma gp_trend n (o o' : gp d p) (X : 'M[R]_(n, d)) (Y : 'cV[R]_n) s : has_constant phi -> gp_train phi lo hi o X Y s = Ok o' ->
  exists theta noise t (b : 'cV[R]_p), gp_kernel o' = rbf_new theta /\ gp_noise o' = Some noise /\ gp_model o' = Some t /\
  let q := Rdiv noise (stdev Y) in let Z := normalize_input lo hi X in
  let K := corr_mx theta Z (Rplus (Rinv (pow 10 10)) (Rmult q q)) in let F := regr_matrix phi Z in
  (forall b', (gls K F Y b <= gls K F Y b')%Re) /\
  forall e, (0 < e)%Re -> exists r, forall m (Xq : 'M[R]_(m, d)) (i : 'I_m) mu sd, (n <= i)%N ->
    away r X (row i Xq) -> gp_predict_std phi lo hi o' Xq = Ok (mu, sd) ->
    close e (mu i 0) ((phi (row i (normalize_input lo hi Xq)) *m b) 0 0) /\
    (sqrt (Rsqr (stdev Y) * kr_sigma2 (tr_krig t) + Rsqr noise) - e < sd i 0%R)%Re.
Proof.
move=> HC Ht; have [theta [noise [t [b [g [Ek [En [Et [PK [PN [E1 [E2 [E3 P]]]]]]]]]]]]] := gp_raw HC Ht.
exists theta, noise, t, b; split; first exact: Ek. split; first exact: En. split; first exact: Et.
move=> q Z K F; split.
  move=> b'; rewrite /gls -E1 -/Z -/q -/K -/F.
  have -> : K *m g + F *m b - F *m b = K *m g by rewrite addrK.
  have -> : K *m g + F *m b - F *m b' = K *m g + F *m (b - b') by rewrite mulmxBr addrA.
  rewrite (qf_sum _ _ (pos_inv PK).1).
  have -> : ((F *m (b - b'))^T *m invmx K *m (K *m g)) 0 0 = 0.
    by rewrite -mulmxA mulKmx ?(pos_unit PK) // trmx_mul -mulmxA E2 mulmx0 mxE.
  have H0 := (posdef_semi (pos_inv PK)).2 (F *m (b - b')). set u := qf _ _ in H0 *. set v := qf _ (K *m g). move: H0; toR. lra.
have [theta' [noise' [t' [k [Ek' [En' [Et' [Es [HY [Hf G]]]]]]]]]] := gp_facts Ht.
move: En' Et'; rewrite En Et => -[En'] [Et']. rewrite -{noise'}En' -{t'}Et' in Es Hf G.
have Eth : rbf_new theta = rbf_new theta' by rewrite -Ek -Ek'.
have mono r r' x : (r <= r')%Re -> away r' X x -> away r X x by exact: away_mono.
have C := lim_corr Hs (far := fun r x => away r X x) theta n (fun r x H => H). rewrite -/Z no_corr0 // in C.
have Lm := limm_mul mono (limm_tr C) (limm_const _ g).
have Lq := limm_mul mono (limm_mul mono (limm_tr C) (limm_const _ (invmx K))) C.
set v := Rmult (Rsqr (stdev Y)) (kr_sigma2 (tr_krig t)).
have v0 : (0 <= v)%Re by apply: Rmult_le_pos; [exact: Rle_0_sqr|rewrite Es; exact: (fit_sigma2_ge0 Hf)].
have Lv := lim_sqrt (lim_max 0 (lim_plus mono (lim_mult mono (lim_const _ v) (lim_minus mono (lim_const _ 1) (Lq 0 0))) (lim_const _ (Rsqr noise)))) (Rmax_r _ _).
rewrite mulmx0 [X in (1 - X)%Re]mxE Rminus_0_r Rmult_1_r in Lv.
have N0 := Rle_0_sqr noise.
rewrite [Rmax _ 0]Rmax_left in Lv; last lra.
move=> e He; have [r Hr] := lim_both mono (Lm 0 0) Lv He.
exists r => m Xq i mu sd Hi A Hp.
have [mu' [sd' [Q1 Q2]]] := gp_predict_ok Xq Ht. move: Q2; rewrite Hp => -[F1 _]. rewrite -{mu'}F1 in Q1.
have [_ [sd2 [Q3 Gs]]] := G _ _ _ Q1. move: Q3; rewrite Hp => -[F3]. rewrite F3 Gs -Es.
move: Q1; rewrite P => -[<-]. have [H1 H2] := Hr _ A.
have EC : cross_corr theta Z (row i (normalize_input lo hi Xq)) i = cross_corr theta Z (normalize_input lo hi (row i Xq)) n.
  rewrite row_norm; apply/matrixP => a c; rewrite !mxE. by rewrite !ltn_eqF // (leq_trans (ltn_ord a)).
split.
  rewrite /close mxE. move: H1. rewrite trmx0 mul0mx [X in (_ - X)%Re]mxE -EC. set u := (_ *m g) 0 0. set f := (_ *m b) 0 0.
  have -> : (f + u - f)%Re = (u - 0)%Re by ring. by [].
move: H2; rewrite -(cross_same _ _ _ Eth) -/Z EC -(corr_same _ _ Eth) -/Z -/q -/K -/F -/v.
set c := cross_corr theta Z _ n. set f := phi _. rewrite (blup_value c f 1 PK PN) /blup_var -/(qf (invmx K) c).
have N1 := (posdef_semi (pos_inv PN)).2 (f^T - F^T *m (invmx K *m c)). rewrite -/(normal_mx K F).
set a := qf (invmx K) c. set h := qf _ _ in N1 *. move=> H2.
have LE : (Rmax (v * (1 - a) + Rsqr noise) 0 <= Rmax (v * (1 - 1 + (1 - a + h)) + Rsqr noise) 0)%Re.
  apply: Rle_max_compat_r. apply: Rplus_le_compat_r. apply: Rmult_le_compat_l => //. lra.
have := sqrt_le_1_alt _ _ LE. move: H2. set x := sqrt _. set y := sqrt _. set z := sqrt _.
move=> H2 L. have : (x - y > - e)%Re by move: H2; rewrite /Rabs; case: Rcase_abs; lra.
lra.
Qed.
End TrendFar.

(** ** Co-Kriging *)
Section CKFar.
Variables (d : nat) (lo hi : 'rV[R]_d).
Hypothesis Hs : space_ok lo hi.
Lemma min_error n v (K : 'M[R]_n) c w0 : posdef K -> (forall w', (error_var v K c w0 <= error_var v K c w')%Re) ->
  error_var v K c w0 = Rminus v (qf (invmx K) c).
Proof.
move=> PK H; rewrite -(simple_value v c PK); apply: Rle_antisym; first exact: H.
rewrite (simple_best v c PK w0) -{1}[error_var _ _ _ _]Rplus_0_r; apply: Rplus_le_compat_l; exact: (posdef_semi PK).2.
Qed.
Lemma cross_late n theta (Z : 'M[R]_(n, d)) x j j' : (n <= j)%N -> (n <= j')%N -> cross_corr theta Z x j = cross_corr theta Z x j'.
Proof. by move=> H H'; apply/matrixP => a c; rewrite !mxE !ltn_eqF // (leq_trans (ltn_ord a)). Qed.
Lemma ck_cross_far nh nl (o o' : ck d) (Xh : 'M[R]_(nh, d)) (Yh : 'cV[R]_nh) (Xl : 'M[R]_(nl, d)) (Yl : 'cV[R]_nl) sl sh t :
  ck_train lo hi o Xh Yh Xl Yl sl sh = Ok o' -> ck_model o' = Some t ->
  let s_l := kr_sigma2 (lt_krig (ct_lf t)) in
  (0 < ct_nl t + ct_nh t)%N /\ (0 <= ct_rho t * ct_rho t * s_l + ct_sigma2 t)%Re /\
  exists cf : 'rV[R]_d -> 'cV[R]_(ct_nl t + ct_nh t), limm (fun r x => away r Xl x /\ away r Xh x) cf 0 /\
  forall m (Xq : 'M[R]_(m, d)) (i : 'I_m), (nl <= i)%N -> (nh <= i)%N -> let z := normalize_input lo hi Xq in
    col i (col_mx (Rmult (ct_rho t) s_l *: get_kernel_matrix (lg_kernel (ck_lf o')) (ct_Xl t) z)
                  (Rmult (Rmult (ct_rho t) (ct_rho t)) s_l *: get_kernel_matrix (lg_kernel (ck_lf o')) (ct_Xh t) z
                   + ct_sigma2 t *: get_kernel_matrix (ck_kernel o') (ct_Xh t) z)) = cf (row i Xq).
Proof.
move=> /ck_train_inv [HY [lf [u [h [L [LC [El [Eh [Eo _]]]]]]]]] Et. move: Et; rewrite Eo => -[<-] s_l.
have [hl [ml [_ [Hf [Elf Eu]]]]] := lgp_train_inv El.
have sl0 : (0 <= s_l)%Re by rewrite /s_l /= Eu /=; exact: (fit_sigma2_ge0 Hf).
split; first by rewrite /= addn_gt0 (stdev_nz HY) orbT.
split.
  apply: Rplus_le_le_0_compat; first by apply: Rmult_le_pos => //; exact: Rle_0_sqr.
  apply: ck_disc_ge0. apply: kernel_noise_pos. exact: set_params_pos.
rewrite /=.
exists (fun x => col_mx (Rmult (ch_rho h) s_l *: cross_corr (h_theta hl) (normalize_input lo hi Xl) (normalize_input lo hi x) nl)
   (Rmult (Rmult (ch_rho h) (ch_rho h)) s_l *: cross_corr (h_theta hl) (normalize_input lo hi Xh) (normalize_input lo hi x) nh
    + ck_disc (noise_matrix (normalize_input lo hi Xh) (set_params (ck_kernel o) (ch_theta h)) (ck_noise1 o Yh h)) (normalize_output Yh - ch_rho h *: lgp_predict lf u (normalize_input lo hi Xh)) *: cross_corr (ch_theta h) (normalize_input lo hi Xh) (normalize_input lo hi x) nh)).
set sd := ck_disc _ _.
split.
  have mono r r' x : (r <= r')%Re -> away r' Xl x /\ away r' Xh x -> away r Xl x /\ away r Xh x.
    by move=> H [H1 H2]; split; exact: away_mono H _.
  have -> : (0 : 'cV[R]_(nl + nh)) = col_mx (Rmult (ch_rho h) s_l *: no_corr nl nl) (Rmult (Rmult (ch_rho h) (ch_rho h)) s_l *: no_corr nh nh + sd *: no_corr nh nh).
    by rewrite !no_corr0 // !scaler0 addr0 col_mx0.
  have Cl th := @lim_corr _ _ _ Hs (fun r x => away r Xl x /\ away r Xh x) _ Xl th nl (fun r x H => H.1).
  have Ch th := @lim_corr _ _ _ Hs (fun r x => away r Xl x /\ away r Xh x) _ Xh th nh (fun r x H => H.2).
  apply: limm_col_mx; first exact: (limm_scale mono _ (Cl _)).
  apply: (limm_add mono); exact: (limm_scale mono _ (Ch _)).
move=> m Xq i Hl Hh. set z := normalize_input lo hi Xq.
have R0' n (Z : 'M[R]_(n, d)) (k : rbf d) th : col i (get_kernel_matrix (set_params k th) Z z) = cross_corr th Z (normalize_input lo hi (row i Xq)) i.
  by rewrite cross_colE row_norm.
have CZ a b c (A : 'M[R]_(a, c)) (B : 'M[R]_(b, c)) (q : 'I_c) : col q (col_mx A B) = col_mx (col q A) (col q B) by rewrite col_col_mx.
have CA a c (A B : 'M[R]_(a, c)) (q : 'I_c) : col q (A + B) = col q A + col q B by apply/matrixP => x y; rewrite !mxE.
have CS a c k (A : 'M[R]_(a, c)) (q : 'I_c) : col q (k *: A) = k *: col q A by apply/matrixP => x y; rewrite !mxE.
rewrite [LHS]CZ CA !CS Elf /= !R0'. by rewrite !(cross_late _ _ _ Hl (leqnn nl)) !(cross_late _ _ _ Hh (leqnn nh)).
Qed.
Lemma ck_far nh nl (o o' : ck d) (Xh : 'M[R]_(nh, d)) (Yh : 'cV[R]_nh) (Xl : 'M[R]_(nl, d)) (Yl : 'cV[R]_nl) sl sh t noise :
  ck_train lo hi o Xh Yh Xl Yl sl sh = Ok o' -> ck_model o' = Some t -> ck_noise o' = Some noise ->
  let v := Rplus (Rmult (Rmult (ct_rho t) (ct_rho t)) (kr_sigma2 (lt_krig (ct_lf t)))) (ct_sigma2 t) in
  let K := ct_C t + (Rinv (pow 10 10))%:M in
  let one : 'cV[R]_(ct_nl t + ct_nh t) := const_mx 1 in
  (forall e, (0 < e)%Re -> exists r, forall m (Xq : 'M[R]_(m, d)) (i : 'I_m) o2 mu sd, (nl <= i)%N -> (nh <= i)%N ->
    away r Xl (row i Xq) -> away r Xh (row i Xq) -> ck_predict_std lo hi o' Xq = Ok (o2, (mu, sd)) ->
    close e (mu i 0) (Rplus (mean Yh) (Rmult (stdev Yh) (gls_constant K (ct_y t)))) /\
    close e (sd i 0) (sqrt (Rplus (Rmult (Rsqr (stdev Yh)) v) (Rsqr (Rmult noise (stdev Yh)))))) /\
  exists w, best_weights v K one 0 1%:M w /\ \sum_k Rmult (w k 0) (ct_y t k 0) = gls_constant K (ct_y t) /\
    error_var v K 0 w = Rplus v (Rinv (qf (invmx K) one)) /\ (0 < qf (invmx K) one)%Re.
Proof.
move=> Ht Et Hn v K one.
have [t' [s' [Et' [_ [_ [_ [HY [_ PC]]]]]]]] := ck_model_of Ht. move: Et'; rewrite Et => -[E1]; rewrite -{t'}E1 in PC.
change (posdef K) in PC. have [N0 [v0 [cf [C EC]]]] := ck_cross_far Ht Et. change (0 <= v)%Re in v0.
have PN := normal_pos PC (ones_full N0).
split; last first.
  exists (blup_w K one 0 1%:M); split; first exact: (blup_best 0 1%:M v PC PN).
  split; first exact: combine0. split; first exact: value0. exact: ones_pos (pos_inv PC).
have mono r r' x : (r <= r')%Re -> away r' Xl x /\ away r' Xh x -> away r Xl x /\ away r Xh x.
  by move=> H [H1 H2]; split; exact: away_mono H _.
have W := lim_weights mono K one C (limm_const _ (1%:M : 'rV[R]_1)).
have Lm := lim_plus mono (lim_const _ (mean Yh)) (lim_mult mono (lim_const _ (stdev Yh)) (lim_combine mono (ct_y t) W)).
have Lq := limm_mul mono (limm_mul mono (limm_tr C) (limm_const _ (invmx K))) C.
have Ls := lim_plus mono (lim_mult mono (lim_const _ (Rsqr (stdev Yh))) (lim_max 0 (lim_minus mono (lim_const _ v) (Lq 0 0)))) (lim_const _ (Rsqr (Rmult noise (stdev Yh)))).
rewrite (combine0 (ct_y t) N0 PC) in Lm. rewrite mulmx0 [X in (v - X)%Re]mxE Rminus_0_r (Rmax_left v) // in Ls.
have P0 : (0 <= Rsqr (stdev Yh) * v + Rsqr (noise * stdev Yh))%Re.
  by apply: Rplus_le_le_0_compat; [apply: Rmult_le_pos => //|]; exact: Rle_0_sqr.
have {}Ls := lim_sqrt Ls P0.
move=> e He; have [r Hr] := lim_both mono Lm Ls He.
exists r => m Xq i o2 mu sd Hl Hh A B Hp.
have [w [w0 [Bw [Mw [Em [Es _]]]]]] := ck_best Ht Et Hn Hp i. rewrite (EC _ _ _ Hl Hh) -/K -/v -/one in Bw Mw Em Es.
rewrite Em Es (best_is PC PN Bw) (min_error PC Mw). exact: (Hr _ (conj A B)).
Qed.
End CKFar.

(** ** hierarchical Kriging *)
Section HKFar.
Variables (d : nat) (lo hi : 'rV[R]_d).
Hypothesis Hs : space_ok lo hi.
Lemma hk_far nh nl (o o' : hk d) (Xh : 'M[R]_(nh, d)) (Yh : 'cV[R]_nh) (Xl : 'M[R]_(nl, d)) (Yl : 'cV[R]_nl) sl sh :
  hk_train lo hi o Xh Yh Xl Yl sl sh = Ok o' ->
  exists theta noise t theta_l noise_l F0, hk_kernel o' = rbf_new theta /\ hk_noise o' = Some noise /\ hk_model o' = Some t /\
  gp_kernel (hk_lf o') = rbf_new theta_l /\ gp_noise (hk_lf o') = Some noise_l /\ gp_predict (@Ordinary d) lo hi (hk_lf o') Xh = Ok F0 /\
  let scaled y := Rdiv (Rminus y (mean Yh)) (stdev Yh) in
  let q := Rdiv noise (stdev Yh) in let ql := Rdiv noise_l (stdev Yl) in
  let K := corr_mx theta (normalize_input lo hi Xh) (Rplus (Rinv (pow 10 10)) (Rmult q q)) in
  let Kl := corr_mx theta_l (normalize_input lo hi Xl) (Rplus (Rinv (pow 10 10)) (Rmult ql ql)) in
  let F : 'cV[R]_nh := \col_i scaled (F0 i 0) in
  exists w, best_weights 1 K F 0 (const_mx (scaled (gls_constant Kl Yl))) w /\
  forall e, (0 < e)%Re -> exists r, forall m (Xq : 'M[R]_(m, d)) (i : 'I_m) mu sd, (nl <= i)%N -> (nh <= i)%N ->
    away r Xl (row i Xq) -> away r Xh (row i Xq) -> hk_predict_std lo hi o' Xq = Ok (mu, sd) ->
    close e (mu i 0) (Rplus (mean Yh) (\sum_k Rmult (w k 0) (Rminus (Yh k 0) (mean Yh)))) /\
    close e (sd i 0) (sqrt (Rplus (Rmult (Rsqr (stdev Yh)) (Rmax (Rmult (kr_sigma2 (hk_krig t)) (error_var 1 K 0 w)) 0)) (Rsqr noise))).
Proof.
move=> Ht; have Ht' := Ht; case/hk_train_inv: Ht' => lf [F0 [h [k [El [HY [EF [_ [Hf Eo]]]]]]]].
have [thl [nzl [tl [Ekl [Enl [_ [nl0 [PKl [M _]]]]]]]]] := gp_row El.
have B := @hk_best _ lo hi _ _ _ _ _ _ _ _ _ _ _ _ _ _ Ht.
rewrite Eo in B *.
exists (h_theta h), (hk_new_noise o (stdev Yh) h); eexists; exists thl, nzl, F0.
split; first by []. split; first by []. split; first by []. split; first exact: Ekl. split; first exact: Enl. split; first exact: EF.
move=> scaled q ql K Kl F. change (posdef Kl) in PKl.
have EK : K = noise_matrix (normalize_input lo hi Xh) (set_params (hk_kernel o) (h_theta h)) q by rewrite corr_noise.
have EFF : F = scale_col Yh F0 by apply/matrixP => a b; rewrite !mxE ord1.
rewrite /= -/q -EK -EFF in Hf. have PK := fs_K Hf. have PN := fs_N Hf.
exists (blup_w K F 0 (const_mx (scaled (gls_constant Kl Yl)))). split; first exact: (blup_best 0 _ 1 PK PN).
pose far := fun r x => away r Xl x /\ away r Xh x.
have mono r r' x : (r <= r')%Re -> far r' x -> far r x by move=> H [H1 H2]; split; exact: away_mono H _.
have Cl := @lim_corr _ _ _ Hs far _ Xl thl nl (fun r x H => H.1).
have Ch := @lim_corr _ _ _ Hs far _ Xh (h_theta h) nh (fun r x H => H.2).
rewrite !no_corr0 // in Cl Ch.
have Wl := lim_weights mono Kl (const_mx 1 : 'cV[R]_nl) Cl (limm_const _ (1%:M : 'rV[R]_1)).
have Ll := lim_combine mono Yl Wl. rewrite (combine0 Yl nl0 PKl) in Ll.
have Lf : limm far (fun x => const_mx (scaled (\sum_i Rmult (blup_w Kl (const_mx 1) (cross_corr thl (normalize_input lo hi Xl) (normalize_input lo hi x) nl) 1%:M i 0) (Yl i 0))) : 'rV[R]_1) (const_mx (scaled (gls_constant Kl Yl))).
  move=> a b; rewrite mxE. apply: lim_ext; last first.
    exact: (lim_mult mono (lim_minus mono Ll (lim_const _ (mean Yh))) (lim_const _ (/ stdev Yh)%Re)).
  by move=> x /=; rewrite mxE.
have W := lim_weights mono K F Ch Lf.
have Lm := lim_plus mono (lim_const _ (mean Yh)) (lim_combine mono (\col_i Rminus (Yh i 0) (mean Yh)) W).
have Ls := lim_plus mono (lim_mult mono (lim_const _ (Rsqr (stdev Yh))) (lim_max 0 (lim_mult mono (lim_const _ (kr_sigma2 k)) (lim_error mono 1 K Ch W)))) (lim_const _ (Rsqr (hk_new_noise o (stdev Yh) h))).
have P0 a b : (0 <= Rsqr (stdev Yh) * Rmax a 0 + Rsqr b)%Re.
  apply: Rplus_le_le_0_compat; last exact: Rle_0_sqr. apply: Rmult_le_pos; [exact: Rle_0_sqr|exact: Rmax_r].
have {}Ls := lim_sqrt Ls (P0 _ _).
have ES (w : 'cV[R]_nh) : \sum_i Rmult (w i 0) ((\col_i Rminus (Yh i 0) (mean Yh)) i 0) = \sum_i Rmult (w i 0) (Rminus (Yh i 0) (mean Yh)).
  by apply: eq_bigr => i _; rewrite mxE.
move=> e He; have [r Hr] := lim_both mono Lm Ls He.
exists r => m Xq i mu sd Hl Hh A1 A2 Hp. have := Hr _ (conj A1 A2). rewrite !ES /close.
have [th' [nz' [t' [F0' [f0 [Ek' [En' [Et' [EF' [Ef' G]]]]]]]]]] := B _ _ _ _ Hp.
move: En' Et' Ek' => [En'] [Et'] Ek'. rewrite -{nz'}En' -{t'}Et' in G. move: EF'; rewrite EF => -[E0]; rewrite -{F0'}E0 in G.
have Eth : rbf_new th' = rbf_new (h_theta h) by rewrite -Ek'.
have [w [Bw [-> ->]]] := G i.
rewrite -/scaled -/q (corr_same _ _ Eth) -/K (cross_same _ _ _ Eth) -/F in Bw *.
rewrite (best_is PK PN Bw) (M _ _ _ Ef' i) row_norm.
by rewrite !(cross_late _ _ _ Hl (leqnn nl)) !(cross_late _ _ _ Hh (leqnn nh)).
Qed.
End HKFar.
