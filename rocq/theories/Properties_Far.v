(** Theorems about predictions far from all samples (C126), in exact arithmetic.  [away r X x]: from every row of
    X the point x differs by at least r in some coordinate; [no_corr n j]: no correlation with n samples, except
    the 1e-10 that query row j gets with sample j (C39); [gls_constant K Y] = 1'K^-1 Y / 1'K^-1 1; [close e a b]:
    |a - b| < e (FarSpec.v).  [best_weights] and [error_var] are in BlupSpec.v, [corr_mx] in LikSpec.v.
    The query point goes away, the trained model stays as it is. *)
From Coq Require Import Reals Lra List.
From Verif Require Import Fl Spec.
From mathcomp Require Import all_ssreflect all_algebra.
From Verif Require Import RStruct LinAlg LinSpec LinAlgFacts Kernel KernelFacts Krig KrigFacts GP GPSpec GPFacts GPMain MF CoKrig MFSpec MFMain CoKrigMain LikSpec BlupSpec BlupFacts BlupMain FarSpec FarFacts FarMain Properties_GP Properties_MF.
Set Implicit Arguments.
Unset Strict Implicit.
Unset Printing Implicit Defensive.
Import GRing.Theory.
Local Open Scope ring_scope.

(** ** C126 far from all samples *)
(** Gaussian process with the constant basis: mean and standard deviation tend to those of the best linear
    unbiased prediction of a point without correlations.  From row n on these are the generalised least squares
    constant and a variance above the process variance. *)
Theorem C126_gaussian_process : forall d (lo hi : 'rV[R]_d), space_ok lo hi -> forall n (o o' : gp d 1) (X : 'M[R]_(n, d)) (Y : 'cV[R]_n) s,
  gp_train (@Ordinary d) lo hi o X Y s = Ok o' ->
  exists theta noise t, gp_kernel o' = rbf_new theta /\ gp_noise o' = Some noise /\ gp_model o' = Some t /\
  let q := Rdiv noise (stdev Y) in
  let K := corr_mx theta (normalize_input lo hi X) (Rplus (Rinv (pow 10 10)) (Rmult q q)) in
  let one : 'cV[R]_n := const_mx 1 in
  forall j, exists w, best_weights 1 K one (no_corr n j) 1%:M w /\
    (forall e, (0 < e)%Re -> exists r, forall m (Xq : 'M[R]_(m, d)) (i : 'I_m) mu sd, (i : nat) = j ->
      away r X (row i Xq) -> gp_predict_std (@Ordinary d) lo hi o' Xq = Ok (mu, sd) ->
      close e (mu i 0) (\sum_k Rmult (w k 0) (Y k 0)) /\
      close e (sd i 0) (sqrt (Rmax (Rplus (Rmult (Rmult (Rsqr (stdev Y)) (kr_sigma2 (tr_krig t))) (error_var 1 K (no_corr n j) w)) (Rsqr noise)) 0))) /\
    ((n <= j)%N -> \sum_k Rmult (w k 0) (Y k 0) = gls_constant K Y /\
      error_var 1 K (no_corr n j) w = Rplus 1 (Rinv (qf (invmx K) one))).
Proof. exact gp_far. Qed.
Print Assumptions C126_gaussian_process.
(** any basis that contains the constant: the mean approaches the fitted trend, which is the generalised least
    squares fit to the responses as given, and the standard deviation does not stay below that of the process *)
Theorem C126_trend : forall d p (phi : 'rV[R]_d -> 'rV[R]_p) (lo hi : 'rV[R]_d), space_ok lo hi -> forall n (o o' : gp d p) (X : 'M[R]_(n, d)) (Y : 'cV[R]_n) s,
  has_constant phi -> gp_train phi lo hi o X Y s = Ok o' ->
  exists theta noise t (b : 'cV[R]_p), gp_kernel o' = rbf_new theta /\ gp_noise o' = Some noise /\ gp_model o' = Some t /\
  let q := Rdiv noise (stdev Y) in let Z := normalize_input lo hi X in
  let K := corr_mx theta Z (Rplus (Rinv (pow 10 10)) (Rmult q q)) in let F := regr_matrix phi Z in
  (forall b', (gls K F Y b <= gls K F Y b')%Re) /\
  forall e, (0 < e)%Re -> exists r, forall m (Xq : 'M[R]_(m, d)) (i : 'I_m) mu sd, (n <= i)%N ->
    away r X (row i Xq) -> gp_predict_std phi lo hi o' Xq = Ok (mu, sd) ->
    close e (mu i 0) ((phi (row i (normalize_input lo hi Xq)) *m b) 0 0) /\
    (sqrt (Rsqr (stdev Y) * kr_sigma2 (tr_krig t) + Rsqr noise) - e < sd i 0%R)%Re.
Proof. exact gp_trend. Qed.
Print Assumptions C126_trend.
(** trained processes to which both apply, and query batches with a row as far away as one likes *)
Lemma away_exists r n (X : 'M[R]_(n, 1)) : exists x : 'rV[R]_1, away r X x.
Proof.
exists (const_mx (\sum_i Rabs (X i 0) + Rabs r)%Re) => i; exists 0; rewrite mxE (bigD1 i) //=.
have G : Rle R0 (\sum_(k < n | k != i) Rabs (X k 0)).
  by elim/big_rec: _ => [|k y _ Hy]; [exact: Rle_refl|exact: (Rplus_le_le_0_compat _ _ (Rabs_pos _) Hy)].
move: G; set S := \sum_(_ < n | _) _ => G. rewrite -RplusE.
have A := Rle_abs (X i 0). have B := Rle_abs r. have C := Rle_abs (Rabs (X i 0%R) + S + Rabs r - X i 0%R)%Re. lra.
Qed.
Example C126_ok r noise : space_ok ex_lo ex_hi /\ has_constant (@Linear 1) /\
  (exists o', gp_train (@Ordinary 1) ex_lo ex_hi (gp_new 1 1 noise 0) ex_X ex_Y ex_search = Ok o') /\
  exists o' (Xq : 'M[R]_(5, 1)) (i : 'I_5) mu sd, gp_train (@Linear 1) ex_lo ex_hi (gp_new 1 2 noise 0) ex_X ex_Y ex_search = Ok o' /\
    (i : nat) = 4%N /\ away r ex_X (row i Xq) /\ gp_predict_std (@Linear 1) ex_lo ex_hi o' Xq = Ok (mu, sd).
Proof.
split; first by move=> k; rewrite !mxE; toR; lra. split; first exact: linear_constant.
split; first exact: ex_trained. have [o' E] := ex_linear noise. have [x A] := away_exists r ex_X.
pose Xq : 'M[R]_(5, 1) := \matrix_(i, k) x 0 k.
have [mu [sd [_ P]]] := gp_predict_ok Xq E. exists o', Xq, (inord 4), mu, sd; split=> //. split; first by rewrite inordK.
split; last exact: P. move=> i; have [k Hk] := A i; exists k. by rewrite [row _ _ _ _]mxE [Xq _ _]mxE.
Qed.
(** hierarchical Kriging, rows from max nl nh on: the prediction for a point without correlations whose trend is
    the low-fidelity constant *)
Theorem C126_hierarchical : forall d (lo hi : 'rV[R]_d), space_ok lo hi -> forall nh nl (o o' : hk d) (Xh : 'M[R]_(nh, d)) (Yh : 'cV[R]_nh) (Xl : 'M[R]_(nl, d)) (Yl : 'cV[R]_nl) sl sh,
  hk_train lo hi o Xh Yh Xl Yl sl sh = Ok o' ->
  exists theta noise t theta_l noise_l F0, hk_kernel o' = rbf_new theta /\ hk_noise o' = Some noise /\ hk_model o' = Some t /\
  gp_kernel (hk_lf o') = rbf_new theta_l /\ gp_noise (hk_lf o') = Some noise_l /\ gp_predict (@Ordinary d) lo hi (hk_lf o') Xh = Ok F0 /\
  let scaled y := Rdiv (Rminus y (mean Yh)) (stdev Yh) in
  let q := Rdiv noise (stdev Yh) in let ql := Rdiv noise_l (stdev Yl) in
  let K := corr_mx theta (normalize_input lo hi Xh) (Rplus (Rinv (pow 10 10)) (Rmult q q)) in
  let Kl := corr_mx theta_l (normalize_input lo hi Xl) (Rplus (Rinv (pow 10 10)) (Rmult ql ql)) in
  let F : 'cV[R]_nh := \col_i scaled (F0 i 0) in
  exists w, best_weights 1 K F 0 (const_mx (scaled (gls_constant Kl Yl))) w /\
  forall e, (0 < e)%Re -> exists r, forall m (Xq : 'M[R]_(m, d)) (i : 'I_m) mu sd, (nl <= i)%N -> (nh <= i)%N ->
    away r Xl (row i Xq) -> away r Xh (row i Xq) -> hk_predict_std lo hi o' Xq = Ok (mu, sd) ->
    close e (mu i 0) (Rplus (mean Yh) (\sum_k Rmult (w k 0) (Rminus (Yh k 0) (mean Yh)))) /\
    close e (sd i 0) (sqrt (Rplus (Rmult (Rsqr (stdev Yh)) (Rmax (Rmult (kr_sigma2 (hk_krig t)) (error_var 1 K 0 w)) 0)) (Rsqr noise))).
Proof. exact hk_far. Qed.
Print Assumptions C126_hierarchical.
(** Co-Kriging, rows from max nl nh on: the mean approaches the generalised least squares constant of all
    responses, the standard deviation that of the modelled function (variance v) alone.  The error of the
    prediction it approaches, which has to estimate the constant, has the larger variance of the last line. *)
Theorem C126_cokriging : forall d (lo hi : 'rV[R]_d), space_ok lo hi -> forall nh nl (o o' : ck d) (Xh : 'M[R]_(nh, d)) (Yh : 'cV[R]_nh) (Xl : 'M[R]_(nl, d)) (Yl : 'cV[R]_nl) sl sh t noise,
  ck_train lo hi o Xh Yh Xl Yl sl sh = Ok o' -> ck_model o' = Some t -> ck_noise o' = Some noise ->
  let v := Rplus (Rmult (Rmult (ct_rho t) (ct_rho t)) (kr_sigma2 (lt_krig (ct_lf t)))) (ct_sigma2 t) in
  let K := ct_C t + (Rinv (pow 10 10))%:M in
  let one : 'cV[R]_(ct_nl t + ct_nh t) := const_mx 1 in
  (forall e, (0 < e)%Re -> exists r, forall m (Xq : 'M[R]_(m, d)) (i : 'I_m) o2 mu sd, (nl <= i)%N -> (nh <= i)%N ->
    away r Xl (row i Xq) -> away r Xh (row i Xq) -> ck_predict_std lo hi o' Xq = Ok (o2, (mu, sd)) ->
    close e (mu i 0) (Rplus (mean Yh) (Rmult (stdev Yh) (gls_constant K (ct_y t)))) /\
    close e (sd i 0) (sqrt (Rplus (Rmult (Rsqr (stdev Yh)) v) (Rsqr (Rmult noise (stdev Yh)))))) /\
  exists w, best_weights v K one 0 1%:M w /\ \sum_k Rmult (w k 0) (ct_y t k 0) = gls_constant K (ct_y t) /\
    error_var v K 0 w = Rplus v (Rinv (qf (invmx K) one)) /\ (0 < qf (invmx K) one)%Re.
Proof. exact ck_far. Qed.
Print Assumptions C126_cokriging.
Example C126_mf_ok r noise : exists (x : 'rV[R]_1), away r ex_X x /\
  (exists o', hk_train ex_lo ex_hi (hk_new 1 (Some R0) 0) ex_X ex_Y ex_X ex_Y ex_search ex_search = Ok o') /\
  exists o' t s, ck_train ex_lo ex_hi (ck_new 1 noise 0) ex_X ex_Y ex_X ex_Y ex_search ex_ck_search = Ok o' /\ ck_model o' = Some t /\ ck_noise o' = Some s.
Proof.
have [x A] := away_exists r ex_X; exists x; split=> //. split; first exact: ex_hk.
have [o' E] := ex_ck noise. have [t [s [Et [Es _]]]] := ck_model_of E. by exists o', t, s.
Qed.
