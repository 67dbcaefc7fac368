(** Theorems about what a prediction is (C120) and how further samples change it (C121), in exact arithmetic.
    [error_var v K c w] is the variance of z0 - w'z for data z with covariance K, a variable z0 with variance v
    and covariances c; [best_weights v K F c f w] says that w are the weights of the best linear unbiased
    predictor of z0, for a trend F b at the data and f b at the new point (BlupSpec.v).  [corr_mx] and
    [cross_corr] are Gaussian correlations (LikSpec.v, BlupSpec.v). *)
From Coq Require Import Reals Lra List.
From Verif Require Import Fl Spec.
From mathcomp Require Import all_ssreflect all_algebra.
From Verif Require Import RStruct LinAlg LinSpec LinAlgFacts Kernel KernelFacts Krig KrigFacts GP GPSpec GPFacts GPMain MF CoKrig MFSpec MFMain CoKrigMain LikSpec BlupSpec BlupFacts BlupMain Properties_GP Properties_MF.
Set Implicit Arguments.
Unset Strict Implicit.
Unset Printing Implicit Defensive.
Import GRing.Theory.
Local Open Scope ring_scope.

(** ** C120 predictions are best linear unbiased predictions *)
(** Gaussian process.  The correlation of query row j with sample j has 1e-10 added (C39).  The weights are
    applied to the responses as given. *)
Theorem C120_gaussian_process : forall d p (phi : 'rV[R]_d -> 'rV[R]_p) (lo hi : 'rV[R]_d) n m (o o' : gp d p) (X : 'M[R]_(n, d)) (Y : 'cV[R]_n) s (Xq : 'M[R]_(m, d)) mu sd,
  has_constant phi -> gp_train phi lo hi o X Y s = Ok o' -> gp_predict_std phi lo hi o' Xq = Ok (mu, sd) ->
  exists theta noise t, gp_kernel o' = rbf_new theta /\ gp_noise o' = Some noise /\ gp_model o' = Some t /\
  let Z := normalize_input lo hi X in let z j := row j (normalize_input lo hi Xq) in
  let r := Rdiv noise (stdev Y) in
  let K := corr_mx theta Z (Rplus (Rinv (pow 10 10)) (Rmult r r)) in
  forall j, exists w, best_weights 1 K (regr_matrix phi Z) (cross_corr theta Z (z j) j) (phi (z j)) w /\
    mu j 0 = \sum_i Rmult (w i 0) (Y i 0) /\
    sd j 0 = sqrt (Rmax (Rplus (Rmult (Rmult (Rsqr (stdev Y)) (kr_sigma2 (tr_krig t))) (error_var 1 K (cross_corr theta Z (z j) j) w)) (Rsqr noise)) 0).
Proof. exact gp_best. Qed.
Print Assumptions C120_gaussian_process.
(** the bases of the package contain the constant *)
Theorem C120_bases : forall d, has_constant (@Ordinary d) /\ has_constant (@Linear d) /\ has_constant (@Quadratic d).
Proof. exact (fun d => conj (ordinary_constant d) (conj (linear_constant d) (quadratic_constant d))). Qed.
Print Assumptions C120_bases.
Example C120_gp_ok noise : has_constant (@Linear 1) /\
  exists o' mu sd, gp_train (@Linear 1) ex_lo ex_hi (gp_new 1 2 noise 0) ex_X ex_Y ex_search = Ok o' /\
  gp_predict_std (@Linear 1) ex_lo ex_hi o' (const_mx (Rinv 2) : 'M_(3, 1)) = Ok (mu, sd).
Proof.
split; first exact: linear_constant. have [o' E] := ex_linear noise.
have [mu [sd [_ P]]] := gp_predict_ok (const_mx (Rinv 2) : 'M_(3, 1)) E. by exists o', mu, sd.
Qed.
(** hierarchical Kriging: the trend is the low-fidelity prediction, [F0] at the samples and [f0] at the query
    rows, in scaled units *)
Theorem C120_hierarchical : forall d (lo hi : 'rV[R]_d) nh nl m (o o' : hk d) (Xh : 'M[R]_(nh, d)) (Yh : 'cV[R]_nh) (Xl : 'M[R]_(nl, d)) (Yl : 'cV[R]_nl) sl sh (Xq : 'M[R]_(m, d)) mu sd,
  hk_train lo hi o Xh Yh Xl Yl sl sh = Ok o' -> hk_predict_std lo hi o' Xq = Ok (mu, sd) ->
  exists theta noise t F0 f0, hk_kernel o' = rbf_new theta /\ hk_noise o' = Some noise /\ hk_model o' = Some t /\
  gp_predict (@Ordinary d) lo hi (hk_lf o') Xh = Ok F0 /\ gp_predict (@Ordinary d) lo hi (hk_lf o') Xq = Ok f0 /\
  let scaled y := Rdiv (Rminus y (mean Yh)) (stdev Yh) in
  let Z := normalize_input lo hi Xh in let z j := row j (normalize_input lo hi Xq) in
  let r := Rdiv noise (stdev Yh) in
  let K := corr_mx theta Z (Rplus (Rinv (pow 10 10)) (Rmult r r)) in
  let F : 'M[R]_(nh, 1) := \col_i scaled (F0 i 0) in
  forall j, exists w, best_weights 1 K F (cross_corr theta Z (z j) j) (const_mx (scaled (f0 j 0))) w /\
    mu j 0 = Rplus (mean Yh) (\sum_i Rmult (w i 0) (Rminus (Yh i 0) (mean Yh))) /\
    sd j 0 = sqrt (Rplus (Rmult (Rsqr (stdev Yh)) (Rmax (Rmult (kr_sigma2 (hk_krig t)) (error_var 1 K (cross_corr theta Z (z j) j) w)) 0)) (Rsqr noise)).
Proof. exact hk_best. Qed.
Print Assumptions C120_hierarchical.
(** Co-Kriging: the mean is the best linear unbiased prediction with a constant trend, from all responses [ct_y],
    scaled.  The standard deviation is not that prediction's: it is the error of weights [w0] chosen without the
    condition of unbiasedness, as if the constant were known.  The difference is the last term. *)
Theorem C120_cokriging : forall d (lo hi : 'rV[R]_d) nh nl m (o o' o2 : ck d) (Xh : 'M[R]_(nh, d)) (Yh : 'cV[R]_nh) (Xl : 'M[R]_(nl, d)) (Yl : 'cV[R]_nl) sl sh (Xq : 'M[R]_(m, d)) mu sd t noise,
  ck_train lo hi o Xh Yh Xl Yl sl sh = Ok o' -> ck_model o' = Some t -> ck_noise o' = Some noise -> ck_predict_std lo hi o' Xq = Ok (o2, (mu, sd)) ->
  let z := normalize_input lo hi Xq in
  let s_l := kr_sigma2 (lt_krig (ct_lf t)) in let v := Rplus (Rmult (Rmult (ct_rho t) (ct_rho t)) s_l) (ct_sigma2 t) in
  let K := ct_C t + (Rinv (pow 10 10))%:M in
  let one : 'cV[R]_(ct_nl t + ct_nh t) := const_mx 1 in
  let c := col_mx (Rmult (ct_rho t) s_l *: get_kernel_matrix (lg_kernel (ck_lf o')) (ct_Xl t) z)
                  (Rmult (Rmult (ct_rho t) (ct_rho t)) s_l *: get_kernel_matrix (lg_kernel (ck_lf o')) (ct_Xh t) z
                   + ct_sigma2 t *: get_kernel_matrix (ck_kernel o') (ct_Xh t) z) in
  forall j, exists w w0,
    best_weights v K one (col j c) 1%:M w /\ (forall w', (error_var v K (col j c) w0 <= error_var v K (col j c) w')%Re) /\
    mu j 0 = Rplus (mean Yh) (Rmult (stdev Yh) (\sum_i Rmult (w i 0) (ct_y t i 0))) /\
    sd j 0 = sqrt (Rplus (Rmult (Rsqr (stdev Yh)) (Rmax (error_var v K (col j c) w0) 0)) (Rsqr (Rmult noise (stdev Yh)))) /\
    error_var v K (col j c) w = Rplus (error_var v K (col j c) w0) (Rdiv (Rsqr (Rminus 1 (\sum_i w0 i 0))) (qf (invmx K) one)).
Proof. exact ck_best. Qed.
Print Assumptions C120_cokriging.
Example C120_ck_ok noise : exists o' o2 mu sd t s, ck_train ex_lo ex_hi (ck_new 1 noise 0) ex_X ex_Y ex_X ex_Y ex_search ex_ck_search = Ok o' /\
  ck_model o' = Some t /\ ck_noise o' = Some s /\ ck_predict_std ex_lo ex_hi o' (const_mx (Rinv 2) : 'M_(3, 1)) = Ok (o2, (mu, sd)).
Proof.
have [o' E] := ex_ck noise. have [t [s [Et [Es _]]]] := ck_model_of E.
have [mu [sd [o2 [_ P]]]] := ck_predict_ok (const_mx (Rinv 2) : 'M_(3, 1)) E. by exists o', o2, mu, sd, t, s.
Qed.

(** ** C121 further samples, the correlation parameters staying as they are *)
(** noise 0: relative to the estimated standard deviation of the process, the predicted standard deviation does
    not grow anywhere *)
Theorem C121_uncertainty : forall d p (phi : 'rV[R]_d -> 'rV[R]_p) (lo hi : 'rV[R]_d) n n2 (o1 o1' o2 o2' : gp d p) (X : 'M[R]_(n, d)) (Y : 'cV[R]_n) (X2 : 'M[R]_(n2, d)) (Y2 : 'cV[R]_n2) s1 s2 m (Xq : 'M[R]_(m, d)) mu1 sd1 mu2 sd2 t1 t2,
  gp_train phi lo hi o1 X Y s1 = Ok o1' -> gp_train phi lo hi o2 (col_mx X X2) (col_mx Y Y2) s2 = Ok o2' ->
  gp_kernel o1' = gp_kernel o2' -> gp_noise o1' = Some R0 -> gp_noise o2' = Some R0 ->
  gp_model o1' = Some t1 -> gp_model o2' = Some t2 ->
  gp_predict_std phi lo hi o1' Xq = Ok (mu1, sd1) -> gp_predict_std phi lo hi o2' Xq = Ok (mu2, sd2) ->
  forall j, (Rsqr (sd2 j 0%R) * (kr_sigma2 (tr_krig t1) * Rsqr (stdev Y)) <= Rsqr (sd1 j 0%R) * (kr_sigma2 (tr_krig t2) * Rsqr (stdev (col_mx Y Y2))))%Re.
Proof. exact gp_more. Qed.
Print Assumptions C121_uncertainty.
(** samples whose responses are the predictions change no prediction (they are predicted in rows after the first
    n of a batch, which get no 1e-10), and the estimated variance of the process falls by the factor n / (n + n2) *)
Theorem C121_no_surprise : forall d p (phi : 'rV[R]_d -> 'rV[R]_p) (lo hi : 'rV[R]_d) n n2 (o1 o1' o2 o2' : gp d p) (X : 'M[R]_(n, d)) (Y : 'cV[R]_n) (X2 : 'M[R]_(n2, d)) (Y2 : 'cV[R]_n2) s1 s2 (W : 'M[R]_(n, d)) M0 noise1 noise2 t1 t2,
  has_constant phi ->
  gp_train phi lo hi o1 X Y s1 = Ok o1' -> gp_predict phi lo hi o1' (col_mx W X2) = Ok (col_mx M0 Y2) ->
  gp_train phi lo hi o2 (col_mx X X2) (col_mx Y Y2) s2 = Ok o2' ->
  gp_kernel o1' = gp_kernel o2' -> gp_noise o1' = Some noise1 -> gp_noise o2' = Some noise2 ->
  Rdiv noise1 (stdev Y) = Rdiv noise2 (stdev (col_mx Y Y2)) ->
  gp_model o1' = Some t1 -> gp_model o2' = Some t2 ->
  (forall m (Xq : 'M[R]_(m, d)), gp_predict phi lo hi o2' Xq = gp_predict phi lo hi o1' Xq) /\
  Rmult (Rmult (kr_sigma2 (tr_krig t2)) (Rsqr (stdev (col_mx Y Y2)))) (INR (n + n2)) = Rmult (Rmult (kr_sigma2 (tr_krig t1)) (Rsqr (stdev Y))) (INR n).
Proof. exact gp_consistent. Qed.
Print Assumptions C121_no_surprise.
Example C121_ok (x : 'M[R]_(1, 1)) : exists o1' o2' M0 (y : 'cV[R]_1) t1 t2,
  gp_train (@Ordinary 1) ex_lo ex_hi (gp_new 1 1 (Some R0) 0) ex_X ex_Y ex_search = Ok o1' /\
  gp_predict (@Ordinary 1) ex_lo ex_hi o1' (col_mx ex_X x) = Ok (col_mx M0 y) /\
  gp_train (@Ordinary 1) ex_lo ex_hi (gp_new 1 1 (Some R0) 0) (col_mx ex_X x) (col_mx ex_Y y) ex_search = Ok o2' /\
  gp_kernel o1' = gp_kernel o2' /\ gp_noise o1' = Some R0 /\ gp_noise o2' = Some R0 /\ gp_model o1' = Some t1 /\ gp_model o2' = Some t2 /\
  Rdiv R0 (stdev ex_Y) = Rdiv R0 (stdev (col_mx ex_Y y)).
Proof.
have [o1' E1] := ex_trained (Some R0). have [mu [_ [P _]]] := gp_predict_ok (col_mx ex_X x) E1.
have V : ~ constant (col_mx ex_Y (dsubmx mu)).
  move=> C; apply: ex_varied => i j; have := C (lshift 1 i) (lshift 1 j). by rewrite !col_mxEu.
have [o2' E2] := gp_train_ordinary ex_lo ex_hi (col_mx ex_X x) V (ex_usable : usable (gp_restart (gp_new 1 1 (Some R0) 0)) _).
case/train_inv: (E1) => _ [h1 [k1 [H1 [_ Eo1]]]]. case/train_inv: (E2) => _ [h2 [k2 [H2 [_ Eo2]]]].
exists o1', o2', (usubmx mu), (dsubmx mu); rewrite vsubmxK; eexists; eexists.
split; first exact: E1. split; first exact: P. split; first exact: E2.
have Eh : h1 = h2 by move: H1 H2; rewrite /hyper_search /= => -[<-] [<-].
rewrite Eo1 Eo2 Eh. do 5 (split; first reflexivity). by rewrite /Rdiv !Rmult_0_l.
Qed.
