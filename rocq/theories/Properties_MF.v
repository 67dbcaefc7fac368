(** Theorems about models/hierarchical_kriging.py, scale_kriging.py and co_kriging.py (C51 to C57, C81 to C86).
    The vocabulary is in LinSpec.v, GPSpec.v and MFSpec.v.  All searches are free: what they evaluate and
    return is arbitrary. *)
From Coq Require Import Reals Lra List.
From Verif Require Import Fl Spec.
From mathcomp Require Import all_ssreflect all_algebra.
From Verif Require Import RStruct LinAlg LinSpec LinAlgFacts Kernel KernelFacts Krig GP GPSpec GPFacts GPMain MF CoKrig MFSpec MFMain CoKrigMain Properties_GP.
Set Implicit Arguments.
Unset Strict Implicit.
Unset Printing Implicit Defensive.
Import GRing.Theory.
Local Open Scope ring_scope.

(** *** the concrete case: both fidelities have the two points of Properties_GP *)
Lemma ex_not_mean : exists i, ex_Y i 0 <> mean ex_Y.
Proof.
case: (Req_dec (ex_Y 0 0) (mean ex_Y)) => [E|N]; last by exists 0.
by exists 1 => E1; apply: R1_neq_R0; move: (etrans E1 (esym E)); rewrite !mxE.
Qed.
Lemma ex_hk : exists o', hk_train ex_lo ex_hi (hk_new 1 (Some R0) 0) ex_X ex_Y ex_X ex_Y ex_search ex_search = Ok o'.
Proof.
have [lf [F0 [El [EF H]]]] := hk_train_iff ex_lo ex_hi (o := hk_new 1 (Some R0) 0) ex_X ex_X ex_varied ex_varied ex_usable ex_usable.
have [I _] := gp_interpolates (o := hk_lf (hk_new 1 (Some R0) 0)) (erefl _) El.
move: EF; rewrite I => -[E]; apply/H. rewrite -E. exact: ex_not_mean.
Qed.

(** ** C51 *)
Theorem C51_interpolates : forall d (lo hi : 'rV[R]_d) nh nl (o o' : hk d) (Xh : 'M[R]_(nh, d)) (Yh : 'cV[R]_nh) (Xl : 'M[R]_(nl, d)) (Yl : 'cV[R]_nl) sl sh,
  hk_noise o = Some R0 -> hk_train lo hi o Xh Yh Xl Yl sl sh = Ok o' ->
  hk_predict lo hi o' Xh = Ok Yh /\ hk_predict_std lo hi o' Xh = Ok (Yh, 0).
Proof. exact hk_interpolates. Qed.
Print Assumptions C51_interpolates.
Example C51_ok : exists o o', hk_noise o = Some R0 /\ hk_train ex_lo ex_hi o ex_X ex_Y ex_X ex_Y ex_search ex_search = Ok o'.
Proof. have [o' E] := ex_hk. by exists (hk_new 1 (Some R0) 0), o'. Qed.

(** ** C52 *)
Theorem C52_proportional : forall d (lo hi : 'rV[R]_d) nh nl m (o o' : hk d) (Xh : 'M[R]_(nh, d)) (Yh : 'cV[R]_nh) (Xl : 'M[R]_(nl, d)) (Yl : 'cV[R]_nl) sl sh c (Xq : 'M[R]_(m, d)) F0,
  hk_train lo hi o Xh Yh Xl Yl sl sh = Ok o' ->
  gp_predict (@Ordinary d) lo hi (hk_lf o') Xh = Ok F0 ->
  (forall i, Rminus (Yh i 0) (mean Yh) = Rmult c (Rminus (F0 i 0) (mean Yh))) ->
  exists t f noise, hk_model o' = Some t /\ kr_beta (hk_krig t) = c%:M /\ kr_gamma (hk_krig t) = 0 /\ kr_sigma2 (hk_krig t) = 0 /\
    gp_predict (@Ordinary d) lo hi (hk_lf o') Xq = Ok f /\ hk_noise o' = Some noise /\
    hk_predict_std lo hi o' Xq = Ok (\col_j Rplus (mean Yh) (Rmult c (Rminus (f j 0) (mean Yh))), \col_j Rabs noise).
Proof. exact hk_proportional. Qed.
Print Assumptions C52_proportional.
Example C52_ok : exists o' F0, hk_train ex_lo ex_hi (hk_new 1 (Some R0) 0) ex_X ex_Y ex_X ex_Y ex_search ex_search = Ok o' /\
  gp_predict (@Ordinary 1) ex_lo ex_hi (hk_lf o') ex_X = Ok F0 /\
  forall i, Rminus (ex_Y i 0) (mean ex_Y) = Rmult 1 (Rminus (F0 i 0) (mean ex_Y)).
Proof.
have [o' E] := ex_hk; exists o', ex_Y; split=> //; split=> [|i]; last by rewrite Rmult_1_l.
have [lf [F0 [h [k [El [_ [EF [_ [_ ->]]]]]]]]] := hk_train_inv E.
exact: (gp_interpolates (o := hk_lf (hk_new 1 (Some R0) 0)) (erefl _) El).1.
Qed.

(** ** C83 when the training of hierarchical Kriging succeeds *)
Theorem C83_train_iff : forall d (lo hi : 'rV[R]_d) nh nl (o : hk d) (Xh : 'M[R]_(nh, d)) (Yh : 'cV[R]_nh) (Xl : 'M[R]_(nl, d)) (Yl : 'cV[R]_nl) sl sh,
  ~ constant Yl -> ~ constant Yh -> usable (gp_restart (hk_lf o)) sl -> usable (hk_restart o) sh ->
  exists lf F0, gp_train (@Ordinary d) lo hi (hk_lf o) Xl Yl sl = Ok lf /\ gp_predict (@Ordinary d) lo hi lf Xh = Ok F0 /\
    ((exists o', hk_train lo hi o Xh Yh Xl Yl sl sh = Ok o') <-> exists i, F0 i 0 <> mean Yh).
Proof. exact hk_train_iff. Qed.
Print Assumptions C83_train_iff.
Theorem C83_predict : forall d (lo hi : 'rV[R]_d) nh nl m (o o' : hk d) (Xh : 'M[R]_(nh, d)) (Yh : 'cV[R]_nh) (Xl : 'M[R]_(nl, d)) (Yl : 'cV[R]_nl) sl sh (Xq : 'M[R]_(m, d)),
  hk_train lo hi o Xh Yh Xl Yl sl sh = Ok o' ->
  exists mu sd, hk_predict lo hi o' Xq = Ok mu /\ hk_predict_std lo hi o' Xq = Ok (mu, sd).
Proof. exact hk_predict_ok. Qed.
Print Assumptions C83_predict.
(** the predicted mean is the best linear unbiased one with the scaled low-fidelity prediction as trend *)
Theorem C83_std : forall d (lo hi : 'rV[R]_d) nh nl m (o o' : hk d) (Xh : 'M[R]_(nh, d)) (Yh : 'cV[R]_nh) (Xl : 'M[R]_(nl, d)) (Yl : 'cV[R]_nl) sl sh (Xq : 'M[R]_(m, d)) mu sd noise t f,
  hk_train lo hi o Xh Yh Xl Yl sl sh = Ok o' -> hk_model o' = Some t -> hk_noise o' = Some noise ->
  gp_predict (@Ordinary d) lo hi (hk_lf o') Xq = Ok f ->
  hk_predict_std lo hi o' Xq = Ok (mu, sd) ->
  let c := get_kernel_matrix (hk_kernel o') (hk_X t) (normalize_input lo hi Xq) in
  let fs j := row j (\matrix_(i < m, k < 1) Rdiv (Rminus (f i k) (mean Yh)) (stdev Yh)) in
  let epi j := Rmult (stdev Yh) (sqrt (Rmax (Rmult (kr_sigma2 (hk_krig t)) (blup_var (hk_K t) (hk_F t) (col j c) (fs j))) 0)) in
  forall j,
  mu j 0 = Rplus (Rmult (blup_mean (hk_K t) (hk_F t) (hk_Y t) (kr_beta (hk_krig t)) (col j c) (fs j)) (stdev Yh)) (mean Yh) /\
  sd j 0 = sqrt (Rplus (Rmult (epi j) (epi j)) (Rmult noise noise)) /\ (Rabs noise <= sd j 0%R)%Re.
Proof. exact hk_std. Qed.
Print Assumptions C83_std.
Theorem C83_noise : forall d (lo hi : 'rV[R]_d) nh nl (o o' : hk d) (Xh : 'M[R]_(nh, d)) (Yh : 'cV[R]_nh) (Xl : 'M[R]_(nl, d)) (Yl : 'cV[R]_nl) sl sh,
  hk_train lo hi o Xh Yh Xl Yl sl sh = Ok o' ->
  (forall noise, hk_noise o = Some noise -> hk_noise o' = Some noise) /\
  (hk_noise o = None -> exists h, result_of sh (hk_restart o) h /\ hk_noise o' = Some (Rmult (h_sigma h) (stdev Yh))).
Proof. exact hk_noise_kept. Qed.
Print Assumptions C83_noise.
Example C83_ok : ~ constant ex_Y /\ usable (gp_restart (hk_lf (hk_new 1 (Some R0) 0))) ex_search /\ usable (hk_restart (hk_new 1 (Some R0) 0)) ex_search.
Proof. by split; [exact: ex_varied|split; exact: ex_usable]. Qed.

(** ** C53 *)
Theorem C53_predictions : forall d (lo hi : 'rV[R]_d) m (o : sk d) (X : 'M[R]_(m, d)) mu mu' sd,
  sk_predict lo hi o X = Ok mu -> sk_predict_std lo hi o X = Ok (mu', sd) ->
  exists l sl e se, gp_predict_std (@Ordinary d) lo hi (sk_lf o) X = Ok (l, sl) /\ gp_predict_std (@Ordinary d) lo hi (sk_disc o) X = Ok (e, se) /\
  forall j, mu' j 0 = Rplus (Rmult (sk_rho o) (l j 0)) (e j 0) /\
    mu j 0 = Rplus (l j 0) (Rmult (sk_rho o) (e j 0)) /\
    Rmult (sd j 0) (sd j 0) = Rplus (Rmult (Rmult (sk_rho o) (sk_rho o)) (Rmult (sl j 0) (sl j 0))) (Rmult (se j 0) (se j 0)) /\
    (0 <= sd j 0%R)%Re /\
    (mu j 0 = mu' j 0 <-> Rmult (Rminus (sk_rho o) 1) (Rminus (l j 0) (e j 0)) = 0).
Proof. exact sk_predictions. Qed.
Print Assumptions C53_predictions.
(** at the high-fidelity samples with noise 0 *)
Theorem C53_samples : forall d (lo hi : 'rV[R]_d) nh nl (o o' : sk d) (Xh : 'M[R]_(nh, d)) (Yh : 'cV[R]_nh) (Xl : 'M[R]_(nl, d)) (Yl : 'cV[R]_nl) sl sr sh,
  gp_noise (sk_disc o) = Some R0 -> sk_train lo hi o Xh Yh Xl Yl sl sr sh = Ok o' ->
  exists l sdl, gp_predict_std (@Ordinary d) lo hi (sk_lf o') Xh = Ok (l, sdl) /\
  sk_predict_std lo hi o' Xh = Ok (Yh, \col_j Rmult (Rabs (sk_rho o')) (Rabs (sdl j 0))) /\
  sk_predict lo hi o' Xh = Ok (\col_j Rplus (Yh j 0) (Rmult (Rminus (sk_rho o') 1) (Rminus (Yh j 0) (Rmult (Rplus (sk_rho o') 1) (l j 0))))).
Proof. exact sk_interpolates. Qed.
Print Assumptions C53_samples.
Theorem C53_train : forall d (lo hi : 'rV[R]_d) nh nl (o : sk d) (Xh : 'M[R]_(nh, d)) (Yh : 'cV[R]_nh) (Xl : 'M[R]_(nl, d)) (Yl : 'cV[R]_nl) sl sr sh,
  ~ constant Yl -> usable (gp_restart (sk_lf o)) sl -> usable (gp_restart (sk_disc o)) sh ->
  exists lf l, gp_train (@Ordinary d) lo hi (sk_lf o) Xl Yl sl = Ok lf /\ gp_predict (@Ordinary d) lo hi lf Xh = Ok l /\
  forall rho, ((sr = RhoFixed d /\ rho = sk_rho o) \/ sr = RhoError d rho) ->
  ~ constant (\col_i Rminus (Yh i 0) (Rmult rho (l i 0)) : 'cV[R]_nh) ->
  exists o', sk_train lo hi o Xh Yh Xl Yl sl sr sh = Ok o' /\ sk_rho o' = rho.
Proof. exact sk_train_ok. Qed.
Print Assumptions C53_train.
Lemma ex_sk : exists o', sk_train ex_lo ex_hi (sk_new 1 (Some R0) 0) ex_X ex_Y ex_X ex_Y ex_search (RhoError 1 (IZR 2)) ex_search = Ok o' /\ sk_rho o' = IZR 2.
Proof.
have [lf [l [El [EF H]]]] := sk_train_ok ex_lo ex_hi (o := sk_new 1 (Some R0) 0) ex_X ex_Y ex_X (RhoError 1 (IZR 2)) ex_varied ex_usable ex_usable.
have [I _] := gp_interpolates (o := sk_lf (sk_new 1 (Some R0) 0)) (erefl _) El.
move: EF; rewrite I => -[E]; rewrite -E in H; apply: H; first by right.
move=> /(_ 0 1); rewrite !mxE /= => K. move: K. toR. lra.
Qed.
(** rho = 2: the two calls disagree at a training input, and the one without std is off by the response *)
Theorem C53_same_mean_refuted : exists o' mu' sd mu,
  sk_train ex_lo ex_hi (sk_new 1 (Some R0) 0) ex_X ex_Y ex_X ex_Y ex_search (RhoError 1 (IZR 2)) ex_search = Ok o' /\
  sk_predict_std ex_lo ex_hi o' ex_X = Ok (mu', sd) /\ sk_predict ex_lo ex_hi o' ex_X = Ok mu /\
  mu' = ex_Y /\ mu = - ex_Y /\ mu <> mu'.
Proof.
have [o' [E Er]] := ex_sk. have [l [sdl [El [E1 E2]]]] := sk_interpolates (o := sk_new 1 (Some R0) 0) (erefl _) E.
have [l' [rd [Etl [EF _]]]] := sk_train_inv E.
have [I1 _] := gp_interpolates (o := sk_lf (sk_new 1 (Some R0) 0)) (erefl _) Etl.
have [l2 [sd2 [P1 P2]]] := gp_predict_ok ex_X Etl; move: P1 P2; rewrite I1 => -[<-]; rewrite El => -[El' _].
exists o'; do 3 eexists; split; first exact: E. split; first exact: E1. split; first exact: E2.
have EM : \col_j Rplus (ex_Y j 0) (Rmult (Rminus (sk_rho o') 1) (Rminus (ex_Y j 0) (Rmult (Rplus (sk_rho o') 1) (l j 0)))) = - ex_Y :> 'cV[R]_2.
  apply/matrixP => j k; rewrite (ord1 k) [LHS]mxE [RHS]mxE El' Er. 
  have Q (y : R) : Rplus y (Rmult (Rminus 2 1) (Rminus y (Rmult (Rplus 2 1) y))) = Ropp y by ring. exact: Q.
split=> //; split; first exact: EM. rewrite EM => /matrixP /(_ 1 0); rewrite !mxE /=. toR. lra.
Qed.
Print Assumptions C53_same_mean_refuted.

(** ** C54 the error of a scale factor *)
Theorem C54_quadratic : forall n (l Y : 'cV[R]_n) rho,
  let ll := \sum_i Rmult (l i 0) (l i 0) in let ly := \sum_i Rmult (l i 0) (Y i 0) in let yy := \sum_i Rmult (Y i 0) (Y i 0) in
  sk_eval_error l Y rho = Rplus (Rminus (Rmult ll (Rmult rho rho)) (Rmult (Rmult 2 rho) ly)) yy.
Proof. exact sk_error_quadratic. Qed.
Print Assumptions C54_quadratic.
Theorem C54_minimiser : forall n (l Y : 'cV[R]_n),
  let ll := \sum_i Rmult (l i 0) (l i 0) in let ly := \sum_i Rmult (l i 0) (Y i 0) in
  l <> 0 -> (0 < ll)%Re /\ forall rho, sk_eval_error l Y rho =
    Rplus (sk_eval_error l Y (Rdiv ly ll)) (Rmult ll (Rmult (Rminus rho (Rdiv ly ll)) (Rminus rho (Rdiv ly ll)))).
Proof. exact sk_error_min. Qed.
Print Assumptions C54_minimiser.
Theorem C54_convex : forall n (l Y : 'cV[R]_n) a b t, (0 <= t <= 1)%Re ->
  (sk_eval_error l Y (t * a + (1 - t) * b) <= t * sk_eval_error l Y a + (1 - t) * sk_eval_error l Y b)%Re.
Proof. exact sk_error_convex. Qed.
Print Assumptions C54_convex.
Theorem C54_zero : forall n (l Y : 'cV[R]_n) rho, (0 <= sk_eval_error l Y rho)%Re /\
  (sk_eval_error l Y rho = 0 <-> forall i, Rmult rho (l i 0) = Y i 0).
Proof. exact sk_error_zero. Qed.
Print Assumptions C54_zero.
Example C54_ok : ex_Y <> 0.
Proof. by move=> /matrixP /(_ 1 0); rewrite !mxE; exact: R1_neq_R0. Qed.

(** ** C85 the search for rho *)
Theorem C85_unknown_method : forall d (lo hi : 'rV[R]_d) nh nl (o : sk d) (Xh : 'M[R]_(nh, d)) (Yh : 'cV[R]_nh) (Xl : 'M[R]_(nl, d)) (Yl : 'cV[R]_nl) sl sh,
  ~ constant Yl -> usable (gp_restart (sk_lf o)) sl ->
  sk_train lo hi o Xh Yh Xl Yl sl (RhoOther d) sh = Raise UnboundLocalError.
Proof. exact sk_unknown_method. Qed.
Print Assumptions C85_unknown_method.
(** the noise comes from the first value of rho the search tries, not from the one it chooses *)
Theorem C85_bumpiness_noise : forall d (lo hi : 'rV[R]_d) nh nl (o o' : sk d) (Xh : 'M[R]_(nh, d)) (Yh : 'cV[R]_nh) (Xl : 'M[R]_(nl, d)) (Yl : 'cV[R]_nl) sl r1 s1 qs rho sh,
  gp_noise (sk_disc o) = None ->
  sk_train lo hi o Xh Yh Xl Yl sl (RhoBumpiness ((r1, s1) :: qs) rho) sh = Ok o' ->
  exists l h, gp_predict (@Ordinary d) lo hi (sk_lf o') Xh = Ok l /\ result_of s1 (gp_restart (sk_disc o)) h /\ sk_rho o' = rho /\
    sk_noise o' = Some (Rmult (h_sigma h) (stdev (\col_i Rminus (Yh i 0) (Rmult r1 (l i 0)) : 'cV[R]_nh))).
Proof. exact sk_bumpiness_noise. Qed.
Print Assumptions C85_bumpiness_noise.
Theorem C85_given_noise : forall d (lo hi : 'rV[R]_d) nh nl (o o' : sk d) (Xh : 'M[R]_(nh, d)) (Yh : 'cV[R]_nh) (Xl : 'M[R]_(nl, d)) (Yl : 'cV[R]_nl) sl sr sh noise,
  gp_noise (sk_disc o) = Some noise -> sk_train lo hi o Xh Yh Xl Yl sl sr sh = Ok o' -> sk_noise o' = Some noise /\ gp_noise (sk_disc o') = Some noise.
Proof. exact sk_noise_of. Qed.
Print Assumptions C85_given_noise.
Example C85_ok : exists o', sk_train ex_lo ex_hi (MkSK (gp_new 1 1 (Some R0) 0) (gp_new 1 1 None 0) 1 (rbf_new 0) None)
  ex_X ex_Y ex_X ex_Y ex_search (RhoBumpiness [:: (IZR 2, ex_search)] (IZR 3)) ex_search = Ok o'.
Proof.
have [lf El] := gp_train_ordinary ex_lo ex_hi ex_X ex_varied (ex_usable : usable (gp_restart (gp_new 1 1 (Some R0) 0)) _).
have [I _] := gp_interpolates (o := gp_new 1 1 (Some R0) 0) (erefl _) El.
have V (r : R) : r <> R1 -> ~ constant (sk_disc_data ex_Y ex_Y r).
  move=> Hr /(_ 0 1); rewrite !mxE /=. toR. lra.
have V2 : ~ constant (sk_disc_data ex_Y ex_Y (IZR 2)) by apply: V; toR; lra.
have V3 : ~ constant (sk_disc_data ex_Y ex_Y (IZR 3)) by apply: V; toR; lra.
have [d1 E1] := gp_train_ordinary ex_lo ex_hi ex_X V2 (ex_usable : usable (gp_restart (gp_new 1 1 None 0)) _).
have U1 : usable (gp_restart d1) ex_search by exists 0%N.
have [d2 E2] := gp_train_ordinary ex_lo ex_hi ex_X V3 U1.
by eexists; rewrite /sk_train /= El /= I /= E1 /= E2.
Qed.

(** ** C82 the correlation used by the augmented acquisition functions *)
(** a scaled Kriging model never trains the kernel of fidelity 0: the correlation is that of parameters 1,
    whatever the trainings were *)
Theorem C82_scaled_untrained : forall d (lo hi : 'rV[R]_d) (o' : sk d) noise restart cs n m (X : 'M[R]_(n, d)) (X' : 'M[R]_(m, d)),
  sk_trains lo hi (sk_new d noise restart) cs = Ok o' ->
  eval_corr lo hi (sk_kernel o') (sk_lf o') X X' 0 =
  Some (\matrix_(i, j) Rplus (exp (Ropp (wdist (const_mx 1) (row i (normalize_input lo hi X)) (row j (normalize_input lo hi X')))))
                            (if (i : nat) == j then Rinv (10 ^ 10) else 0)).
Proof. exact sk_corr_untrained. Qed.
Print Assumptions C82_scaled_untrained.
Theorem C82_hierarchical_trained : forall d (lo hi : 'rV[R]_d) nh nl n m (o o' : hk d) (Xh : 'M[R]_(nh, d)) (Yh : 'cV[R]_nh) (Xl : 'M[R]_(nl, d)) (Yl : 'cV[R]_nl) sl sh (X : 'M[R]_(n, d)) (X' : 'M[R]_(m, d)),
  hk_train lo hi o Xh Yh Xl Yl sl sh = Ok o' -> exists h, result_of sh (hk_restart o) h /\
  eval_corr lo hi (hk_kernel o') (hk_lf o') X X' 0 =
  Some (\matrix_(i, j) Rplus (exp (Ropp (wdist (\row_k Rpower 10 (h_theta h 0 k)) (row i (normalize_input lo hi X)) (row j (normalize_input lo hi X')))))
                            (if (i : nat) == j then Rinv (10 ^ 10) else 0)).
Proof. exact hk_corr_trained. Qed.
Print Assumptions C82_hierarchical_trained.
(** the fidelity-1 correlation is that of the trained low-fidelity model *)
Theorem C82_hierarchical_low : forall d (lo hi : 'rV[R]_d) nh nl n m (o o' : hk d) (Xh : 'M[R]_(nh, d)) (Yh : 'cV[R]_nh) (Xl : 'M[R]_(nl, d)) (Yl : 'cV[R]_nl) sl sh (X : 'M[R]_(n, d)) (X' : 'M[R]_(m, d)),
  hk_train lo hi o Xh Yh Xl Yl sl sh = Ok o' -> exists h, result_of sl (gp_restart (hk_lf o)) h /\
  eval_corr lo hi (hk_kernel o') (hk_lf o') X X' 1 =
  Some (\matrix_(i, j) Rplus (exp (Ropp (wdist (\row_k Rpower 10 (h_theta h 0 k)) (row i (normalize_input lo hi X)) (row j (normalize_input lo hi X')))))
                            (if (i : nat) == j then Rinv (10 ^ 10) else 0)).
Proof. exact hk_low_corr. Qed.
Print Assumptions C82_hierarchical_low.
Theorem C82_scaled_low : forall d (lo hi : 'rV[R]_d) nh nl n m (o o' : sk d) (Xh : 'M[R]_(nh, d)) (Yh : 'cV[R]_nh) (Xl : 'M[R]_(nl, d)) (Yl : 'cV[R]_nl) sl sr sh (X : 'M[R]_(n, d)) (X' : 'M[R]_(m, d)),
  sk_train lo hi o Xh Yh Xl Yl sl sr sh = Ok o' -> exists h, result_of sl (gp_restart (sk_lf o)) h /\
  eval_corr lo hi (sk_kernel o') (sk_lf o') X X' 1 =
  Some (\matrix_(i, j) Rplus (exp (Ropp (wdist (\row_k Rpower 10 (h_theta h 0 k)) (row i (normalize_input lo hi X)) (row j (normalize_input lo hi X')))))
                            (if (i : nat) == j then Rinv (10 ^ 10) else 0)).
Proof. exact sk_low_corr. Qed.
Print Assumptions C82_scaled_low.
Theorem C82_unknown_fidelity : forall d (lo hi : 'rV[R]_d) n m k (lf : gp d 1) (X : 'M[R]_(n, d)) (X' : 'M[R]_(m, d)) fid, (1 < fid)%N ->
  eval_corr lo hi k lf X X' fid = None.
Proof. exact corr_unknown. Qed.
Print Assumptions C82_unknown_fidelity.
Example C82_ok : exists o', sk_trains ex_lo ex_hi (sk_new 1 (Some R0) 0) [:: MFCall ex_X ex_Y ex_X ex_Y ex_search (RhoError 1 (IZR 2)) ex_search] = Ok o'.
Proof. have [o' [E _]] := ex_sk. by exists o'; rewrite /= E. Qed.

(** ** C55 the joint covariance of Co-Kriging *)
Theorem C55_covariance : forall d nl nh (kl kd : rbf d) (Xl : 'M[R]_(nl, d)) (Xh : 'M[R]_(nh, d)) sl sd rho a b,
  positive_params (rbf_param kl) -> positive_params (rbf_param kd) -> (0 <= sl)%Re -> (0 <= sd)%Re ->
  let Kl := get_kernel_matrix kl Xl Xl + (Rmult a a)%:M in
  let Kd := get_kernel_matrix kd Xh Xh + (Rmult b b)%:M in
  let C := ck_cov kl Kl Kd sl sd rho Xl Xh in
  posdef (C + (Rinv (10 ^ 10))%:M) /\ exists L, chol (C + jitter%:M) = Ok L.
Proof. exact ck_cov_pos. Qed.
Print Assumptions C55_covariance.
(** the covariance a training builds *)
Theorem C55_trained : forall d (lo hi : 'rV[R]_d) nh nl (o o' : ck d) (Xh : 'M[R]_(nh, d)) (Yh : 'cV[R]_nh) (Xl : 'M[R]_(nl, d)) (Yl : 'cV[R]_nl) sl sh t noise nlf,
  ck_train lo hi o Xh Yh Xl Yl sl sh = Ok o' -> ck_model o' = Some t -> ck_noise o' = Some noise -> lg_noise (ck_lf o') = Some nlf ->
  let k := lg_kernel (ck_lf o') in let s_l := kr_sigma2 (lt_krig (ct_lf t)) in
  posdef (ct_C t + (Rinv (10 ^ 10))%:M) /\ (0 <= s_l)%Re /\ (0 <= ct_sigma2 t)%Re /\
  ulsubmx (ct_C t) = s_l *: (get_kernel_matrix k (ct_Xl t) (ct_Xl t) + (Rmult nlf nlf)%:M) /\
  ursubmx (ct_C t) = Rmult (ct_rho t) s_l *: get_kernel_matrix k (ct_Xl t) (ct_Xh t) /\
  dlsubmx (ct_C t) = (ursubmx (ct_C t))^T /\
  drsubmx (ct_C t) = Rmult (Rmult (ct_rho t) (ct_rho t)) s_l *: get_kernel_matrix k (ct_Xh t) (ct_Xh t) +
     ct_sigma2 t *: (get_kernel_matrix (ck_kernel o') (ct_Xh t) (ct_Xh t) + (Rmult noise noise)%:M).
Proof. exact ck_cov_blocks. Qed.
Print Assumptions C55_trained.

(** ** C84 training succeeds *)
Theorem C84_train : forall d (lo hi : 'rV[R]_d) nh nl (o : ck d) (Xh : 'M[R]_(nh, d)) (Yh : 'cV[R]_nh) (Xl : 'M[R]_(nl, d)) (Yl : 'cV[R]_nl) sl sh,
  (0 < nl)%N -> ~ constant Yh -> usable (lg_restart (ck_lf o)) sl -> usable (ck_restart o) sh ->
  exists o', ck_train lo hi o Xh Yh Xl Yl sl sh = Ok o'.
Proof. exact ck_train_ok. Qed.
Print Assumptions C84_train.
Theorem C84_predict : forall d (lo hi : 'rV[R]_d) nh nl m (o o' : ck d) (Xh : 'M[R]_(nh, d)) (Yh : 'cV[R]_nh) (Xl : 'M[R]_(nl, d)) (Yl : 'cV[R]_nl) sl sh (Xq : 'M[R]_(m, d)),
  ck_train lo hi o Xh Yh Xl Yl sl sh = Ok o' ->
  exists mu sd o2, ck_predict lo hi o' Xq = Ok mu /\ ck_predict_std lo hi o' Xq = Ok (o2, (mu, sd)).
Proof. exact ck_predict_ok. Qed.
Print Assumptions C84_predict.
Definition ex_ck_search : search (ckhyper 1) := Lbfgs (fun _ => Trial [::] (CKHyper 1 1 0) f1).
Example ex_ck noise : exists o', ck_train ex_lo ex_hi (ck_new 1 noise 0) ex_X ex_Y ex_X ex_Y ex_search ex_ck_search = Ok o'.
Proof.
have U : usable (ck_restart (ck_new 1 noise 0)) ex_ck_search by exists 0%N.
exact: (ck_train_ok ex_lo ex_hi ex_X ex_X ex_Y (erefl _) ex_varied (ex_usable : usable (lg_restart (ck_lf (ck_new 1 noise 0))) _) U).
Qed.
Example C55_ok : exists o' t noise nlf, ck_train ex_lo ex_hi (ck_new 1 (Some R1) 0) ex_X ex_Y ex_X ex_Y ex_search ex_ck_search = Ok o' /\
  ck_model o' = Some t /\ ck_noise o' = Some noise /\ lg_noise (ck_lf o') = Some nlf.
Proof.
have [o' E] := ex_ck (Some R1). have [t [s [Et [Es _]]]] := ck_model_of E. have [_ [En _]] := ck_train_noise (o := ck_new 1 (Some R1) 0) (erefl _) E.
exists o', t, s; eexists; split; first exact: E. by split=> //; split=> //; exact: En.
Qed.

(** ** C81 what Co-Kriging returns at the samples *)
Theorem C81_high_fidelity : forall d (lo hi : 'rV[R]_d) nh nl (o o' : ck d) (Xh : 'M[R]_(nh, d)) (Yh : 'cV[R]_nh) (Xl : 'M[R]_(nl, d)) (Yl : 'cV[R]_nl) sl sh,
  ck_train lo hi o Xh Yh Xl Yl sl sh = Ok o' ->
  exists t noise mu (E : ct_nh t = nh), ck_model o' = Some t /\ ck_noise o' = Some noise /\ ck_predict lo hi o' Xh = Ok mu /\
    let alpha := invmx (ct_C t + (Rinv (10 ^ 10))%:M) *m (ct_y t - const_mx (ct_mu t)) in
    forall j, mu (cast_ord E j) 0 = Rminus (Yh (cast_ord E j) 0)
      (Rmult (Rmult (Rplus (Rinv (10 ^ 10)) (Rmult (ct_sigma2 t) (Rmult noise noise))) (alpha (rshift (ct_nl t) j) 0)) (stdev Yh)).
Proof. exact ck_at_samples. Qed.
Print Assumptions C81_high_fidelity.
Theorem C81_low_fidelity : forall d (lo hi : 'rV[R]_d) nh nl (o o' : ck d) (Xh : 'M[R]_(nh, d)) (Yh : 'cV[R]_nh) (Xl : 'M[R]_(nl, d)) (Yl : 'cV[R]_nl) sl sh,
  ck_noise o = Some R0 -> ck_train lo hi o Xh Yh Xl Yl sl sh = Ok o' ->
  ck_predict_lf lo hi o' Xl = Ok Yl /\ ck_predict_lf_std lo hi o' Xl = Ok (Yl, 0).
Proof. exact ck_lf_interpolates. Qed.
Print Assumptions C81_low_fidelity.
Example C81_ok : exists o o', ck_noise o = Some R0 /\ ck_train ex_lo ex_hi o ex_X ex_Y ex_X ex_Y ex_search ex_ck_search = Ok o'.
Proof. have [o' E] := ex_ck (Some R0). by exists (ck_new 1 (Some R0) 0), o'. Qed.

(** ** C56 the predicted standard deviation depends on the number of earlier calls *)
Theorem C56_history : forall d (lo hi : 'rV[R]_d) nh nl m (o o' : ck d) (Xh : 'M[R]_(nh, d)) (Yh : 'cV[R]_nh) (Xl : 'M[R]_(nl, d)) (Yl : 'cV[R]_nl) sl sh noise (Xq : 'M[R]_(m, d)),
  ck_train lo hi o Xh Yh Xl Yl sl sh = Ok o' -> ck_noise o' = Some noise ->
  exists mu (epi : 'cV[R]_m), (forall j, (0 <= epi j 0%R)%Re) /\
  forall (qs : seq {q : nat & 'M[R]_(q, d)}),
  exists o2 o3 sd, ck_run lo hi o' [seq OpPredictStd (projT2 q) | q <- qs] = Ok o2 /\
    ck_predict lo hi o2 Xq = Ok mu /\ ck_predict_std lo hi o2 Xq = Ok (o3, (mu, sd)) /\
    forall j, sd j 0 = sqrt (Rplus (Rmult (epi j 0) (epi j 0)) (Rsqr (Rmult noise (pow (stdev Yh) (size qs).+1)))).
Proof. exact ck_std_history. Qed.
Print Assumptions C56_history.
Theorem C56_drift : forall d (lo hi : 'rV[R]_d) nh nl m (o o' o1 o2 : ck d) (Xh : 'M[R]_(nh, d)) (Yh : 'cV[R]_nh) (Xl : 'M[R]_(nl, d)) (Yl : 'cV[R]_nl) sl sh noise (Xq : 'M[R]_(m, d)) mu1 mu2 sd1 sd2,
  ck_train lo hi o Xh Yh Xl Yl sl sh = Ok o' -> ck_noise o' = Some noise ->
  ck_predict_std lo hi o' Xq = Ok (o1, (mu1, sd1)) -> ck_predict_std lo hi o1 Xq = Ok (o2, (mu2, sd2)) ->
  mu2 = mu1 /\ forall j, (sd2 j 0 = sd1 j 0 <-> noise = 0 \/ stdev Yh = 1).
Proof. exact ck_drift. Qed.
Print Assumptions C56_drift.

(** ** C57 the noise through a history of calls *)
Theorem C57_train_divides : forall d (lo hi : 'rV[R]_d) nh nl (o o' : ck d) (Xh : 'M[R]_(nh, d)) (Yh : 'cV[R]_nh) (Xl : 'M[R]_(nl, d)) (Yl : 'cV[R]_nl) sl sh noise,
  ck_noise o = Some noise -> ck_train lo hi o Xh Yh Xl Yl sl sh = Ok o' ->
  ck_noise o' = Some (Rdiv noise (stdev Yh)) /\ lg_noise (ck_lf o') = Some (Rdiv noise (stdev Yh)) /\ std_of o' = stdev Yh.
Proof. exact ck_train_noise. Qed.
Print Assumptions C57_train_divides.
Theorem C57_history : forall d (lo hi : 'rV[R]_d) ops (o o' : ck d) noise, ck_noise o = Some noise -> ck_run lo hi o ops = Ok o' ->
  ck_noise o' = Some (noise_history noise (std_of o) ops).
Proof. exact ck_noise_history. Qed.
Print Assumptions C57_history.
Theorem C57_zero : forall d (lo hi : 'rV[R]_d) ops (o o' : ck d), ck_noise o = Some R0 -> ck_run lo hi o ops = Ok o' -> ck_noise o' = Some R0.
Proof. exact ck_noise_zero. Qed.
Print Assumptions C57_zero.
Theorem C57_learned : forall d (lo hi : 'rV[R]_d) nh nl (o o' : ck d) (Xh : 'M[R]_(nh, d)) (Yh : 'cV[R]_nh) (Xl : 'M[R]_(nl, d)) (Yl : 'cV[R]_nl) sl sh,
  ck_noise o = None -> ck_train lo hi o Xh Yh Xl Yl sl sh = Ok o' -> exists h, result_of sh (ck_restart o) h /\ ck_noise o' = Some (ch_sigma h).
Proof. exact ck_noise_learned. Qed.
Print Assumptions C57_learned.
(** a train, a prediction with standard deviation and another train; the noise after each *)
Example C57_ok : exists o', let ops := [:: OpTrain ex_X ex_Y ex_X ex_Y ex_search ex_ck_search; OpPredictStd ex_X; OpTrain ex_X ex_Y ex_X ex_Y ex_search ex_ck_search] in
  ck_run ex_lo ex_hi (ck_new 1 (Some R1) 0) ops = Ok o' /\ ck_noise o' = Some (Rdiv (Rmult (Rdiv 1 (stdev ex_Y)) (stdev ex_Y)) (stdev ex_Y)).
Proof.
have [o1 E1] := ex_ck (Some R1). have [mu [sd [o2 [_ E2]]]] := ck_predict_ok ex_X E1.
have R1' : ck_restart o2 = 0%N /\ lg_restart (ck_lf o2) = 0%N.
  have [t [s [_ [_ ->]]]] := ck_std_inv E2; have [_ [lf [t' [h [L [LC [El [_ [-> _]]]]]]]]] := ck_train_inv E1.
  by split=> //=; have [hl [q [_ [_ [-> _]]]]] := lgp_train_inv El.
have U1 : usable (lg_restart (ck_lf o2)) ex_search by rewrite R1'.2; exact: ex_usable.
have U2 : usable (ck_restart o2) ex_ck_search by rewrite R1'.1; exists 0%N.
have [o3 E3] := ck_train_ok ex_lo ex_hi ex_X ex_X ex_Y (erefl _) ex_varied U1 U2.
have RN : ck_run ex_lo ex_hi (ck_new 1 (Some R1) 0) [:: OpTrain ex_X ex_Y ex_X ex_Y ex_search ex_ck_search; OpPredictStd ex_X; OpTrain ex_X ex_Y ex_X ex_Y ex_search ex_ck_search] = Ok o3.
  by rewrite /ck_run /ck_do E1 /= E2 /= E3.
exists o3; split; first exact: RN. exact: (ck_noise_history (o := ck_new 1 (Some R1) 0) (erefl _) RN).
Qed.

(** ** C86 logp *)
Theorem C86_logp : forall d (lo hi : 'rV[R]_d) nh nl (o o' : ck d) (Xh : 'M[R]_(nh, d)) (Yh : 'cV[R]_nh) (Xl : 'M[R]_(nl, d)) (Yl : 'cV[R]_nl) sl sh t,
  ck_train lo hi o Xh Yh Xl Yl sl sh = Ok o' -> ck_model o' = Some t ->
  let pred := lgp_predict (ck_lf o') (ct_lf t) (normalize_input lo hi Xh) in
  let objective noise := ck_loglik noise (normalize_input lo hi Xh) (normalize_output Yh) pred (stdev Yh) (ck_kernel o) in
  exists h, result_of sh (ck_restart o) h /\ ct_rho t = ch_rho h /\
    (ck_noise o = Some R0 -> objective (Some R0) h = Ok (Ropp (ct_logp t))) /\
    (ck_noise o = None -> objective None h = Ok (Rplus (Ropp (ct_logp t)) (Rmult (Rdiv (INR nh) 2) (Rminus (ct_sigma2 t) (ln (ct_sigma2 t)))))).
Proof. exact ck_logp. Qed.
Print Assumptions C86_logp.
