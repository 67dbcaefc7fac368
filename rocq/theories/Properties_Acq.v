(** Theorems about the acquisition functions (C58 to C60, C87 to C91).
    The vocabulary is in AcqSpec.v ([gauss] the normal density, [prob_below] a normal probability and
    [expected_improvement] an expectation, all as integrals) and AcqSpecM.v ([least] the smallest sample,
    [answers] a surrogate that predicts every batch with standard deviations that are not negative). *)
From Coq Require Import Reals Lra List.
From Coquelicot Require Import Coquelicot.
From Verif Require Import Fl Normal NormalFacts AcqSpec AcqReal.
From mathcomp Require Import all_ssreflect all_algebra.
From Verif Require Import RStruct LinAlg LinSpec Kernel KernelFacts Krig GP GPSpec GPMain MF MFMain Acq AcqSpecM AcqFacts Properties_GP Properties_MF.
Set Implicit Arguments.
Unset Strict Implicit.
Unset Printing Implicit Defensive.
Import GRing.Theory.
Local Open Scope ring_scope.

(** ** C58 expected improvement *)
(** the density has total mass one, and the model's [norm_cdf] and [norm_pdf] are the standard normal ones *)
Theorem C58_density : forall m s, (0 < s)%Re -> is_RInt_gen (gauss m s) (Rbar_locally m_infty) (Rbar_locally p_infty) 1%Re.
Proof. exact gauss_total. Qed.
Print Assumptions C58_density.
Theorem C58_normal : forall x, prob_below 0 1 x (norm_cdf x) /\ norm_pdf x = gauss 0 1 x.
Proof. exact normal_functions. Qed.
Print Assumptions C58_normal.
Theorem C58_formula : forall f m s, (0 < s)%Re ->
  expected_improvement f m s ((f - m) * norm_cdf ((f - m) / s) + s * norm_pdf ((f - m) / s))%Re.
Proof. exact ei_formula. Qed.
Print Assumptions C58_formula.
Theorem C58_unique : forall f m s v w, expected_improvement f m s v -> expected_improvement f m s w -> v = w.
Proof. exact ei_unique. Qed.
Print Assumptions C58_unique.
Theorem C58_bounds : forall f m s v, expected_improvement f m s v -> (Rmax (f - m) 0 <= v)%Re /\ ((0 < s)%Re -> (0 < v)%Re).
Proof. exact ei_bounds. Qed.
Print Assumptions C58_bounds.
Theorem C58_monotone : forall f m s v f' m' s' v', expected_improvement f m s v -> expected_improvement f' m' s' v' ->
  (f - m <= f' - m')%Re -> (s <= s')%Re -> (v <= v')%Re /\ ((s < s')%Re -> (v < v')%Re).
Proof. exact ei_monotone. Qed.
Print Assumptions C58_monotone.
Example C58_values : exists v, expected_improvement 1 0 2 v. Proof. apply: ei_exists; lra. Qed.
(** [EI.eval] returns minus the expected improvement up to 5e-10 *)
Theorem C58_eval : forall d n m (predict : predictor d) (y : 'cV[R]_n.+1) (x : 'M[R]_(m, d)), answers predict ->
  exists V fmin mu sd, ei_eval predict y x = Ok V /\ least y fmin /\ predict m x = Ok (mu, sd) /\
  forall j, exists v, expected_improvement fmin (mu j 0) (sd j 0) v /\
    (Rabs (V j 0%R + v) <= / 10 ^ 9 / 2)%Re /\ (V j 0%R < / 10 ^ 9 / 2)%Re.
Proof. exact ei_eval_spec. Qed.
Print Assumptions C58_eval.
(** so a point with a smaller value has the larger expected improvement, up to 1e-9 *)
Theorem C58_choice : forall d n m1 m2 (predict : predictor d) (y : 'cV[R]_n) (x1 : 'M[R]_(m1, d)) (x2 : 'M[R]_(m2, d)) V1 V2 fmin mu1 sd1 mu2 sd2 j1 j2 v1 v2,
  ei_eval predict y x1 = Ok V1 -> ei_eval predict y x2 = Ok V2 -> least y fmin ->
  predict m1 x1 = Ok (mu1, sd1) -> predict m2 x2 = Ok (mu2, sd2) ->
  expected_improvement fmin (mu1 j1 0) (sd1 j1 0) v1 -> expected_improvement fmin (mu2 j2 0) (sd2 j2 0) v2 ->
  (V1 j1 0%R <= V2 j2 0%R)%Re -> (v2 <= v1 + / 10 ^ 9)%Re.
Proof. exact ei_eval_choice. Qed.
Print Assumptions C58_choice.
(** at the samples of a noise-free Gaussian process the value is zero or positive, although expected
    improvement is never negative *)
Theorem C58_sampled : forall d p (phi : 'rV[R]_d -> 'rV[R]_p) (lo hi : 'rV[R]_d) n (o o' : gp d p) (X : 'M[R]_(n, d)) (Y : 'cV[R]_n) s fmin,
  gp_noise o = Some R0 -> gp_train phi lo hi o X Y s = Ok o' -> least Y fmin ->
  exists V, ei_eval (fun m => @gp_predict_std d p phi lo hi m o') Y X = Ok V /\
  forall i, (Y i 0 = fmin -> V i 0 = 0) /\ ((fmin < Y i 0%R)%Re -> (0 < V i 0%R)%Re).
Proof. exact ei_eval_sampled. Qed.
Print Assumptions C58_sampled.
(** the trained surrogates of the package answer *)
Theorem C58_gaussian_process : forall d p (phi : 'rV[R]_d -> 'rV[R]_p) (lo hi : 'rV[R]_d) n (o o' : gp d p) (X : 'M[R]_(n, d)) (Y : 'cV[R]_n) s,
  gp_train phi lo hi o X Y s = Ok o' -> answers (fun m => @gp_predict_std d p phi lo hi m o').
Proof. exact gp_answers. Qed.
Print Assumptions C58_gaussian_process.
Lemma ex_least : least ex_Y R0.
Proof. split; first by exists 0; rewrite mxE. by move=> i; rewrite mxE; exact: pos_INR. Qed.
Example C58_ok : exists o', gp_train (@Ordinary 1) ex_lo ex_hi (gp_new 1 1 (Some R0) 0) ex_X ex_Y ex_search = Ok o' /\
  answers (fun m => @gp_predict_std 1 1 (@Ordinary 1) ex_lo ex_hi m o') /\ least ex_Y R0 /\ (0 < ex_Y 1%R 0%R)%Re.
Proof.
have [o' E] := ex_trained (Some R0). exists o'; split=> //; split; first exact: gp_answers E.
split; first exact: ex_least. by rewrite mxE; exact: Rlt_0_1.
Qed.

(** ** C59 probability of improvement and of feasibility *)
Theorem C59_eval : forall d n m (predict : predictor d) (y : 'cV[R]_n.+1) (x : 'M[R]_(m, d)), answers predict ->
  exists V fmin mu sd, pi_eval predict y x = Ok V /\ least y fmin /\ predict m x = Ok (mu, sd) /\
  forall j, prob_below (mu j 0) (Rplus (sd j 0) (/ 10 ^ 9)) fmin (Ropp (V j 0)) /\ (-1 < V j 0%R < 0)%Re.
Proof. exact pi_eval_spec. Qed.
Print Assumptions C59_eval.
Theorem C59_monotone : forall d n1 n2 m1 m2 (p1 p2 : predictor d) (y1 : 'cV[R]_n1) (y2 : 'cV[R]_n2) (x1 : 'M[R]_(m1, d)) (x2 : 'M[R]_(m2, d)) V1 V2 f1 f2 mu1 sd1 mu2 sd2 j1 j2,
  answers p1 -> pi_eval p1 y1 x1 = Ok V1 -> pi_eval p2 y2 x2 = Ok V2 -> least y1 f1 -> least y2 f2 ->
  p1 m1 x1 = Ok (mu1, sd1) -> p2 m2 x2 = Ok (mu2, sd2) -> sd1 j1 0 = sd2 j2 0 ->
  (f1 - mu1 j1 0%R < f2 - mu2 j2 0%R)%Re -> (V2 j2 0%R < V1 j1 0%R)%Re.
Proof. exact pi_eval_mono. Qed.
Print Assumptions C59_monotone.
(** [CEI.pof] at one point: the product of the probabilities that the constraints hold *)
Theorem C59_feasibility : forall d (cons : seq (predictor d)) (x : 'M[R]_(1, d)), List.Forall (@answers d) cons ->
  exists q ps, cei_pof cons x = Ok q /\ List.Forall2 (holds_with x) cons ps /\ q 0 0 = foldr Rmult R1 ps /\
  (0 < q 0%R 0%R <= 1)%Re /\ (cons <> [::] -> (q 0%R 0%R < 1)%Re).
Proof. exact pof_spec. Qed.
Print Assumptions C59_feasibility.
Theorem C59_feasibility_monotone : forall d (x1 x2 : 'M[R]_(1, d)) c1 c2 q1 q2, List.Forall (@answers d) c1 -> List.Forall2 (constraint_le x1 x2) c1 c2 ->
  cei_pof c1 x1 = Ok q1 -> cei_pof c2 x2 = Ok q2 -> (q2 0%R 0%R <= q1 0%R 0%R)%Re.
Proof. exact pof_mono. Qed.
Print Assumptions C59_feasibility_monotone.
Theorem C59_constrained : forall d n (obj : predictor d) (y : 'cV[R]_n.+1) (cons : seq (predictor d)) (x : 'M[R]_(1, d)),
  answers obj -> List.Forall (@answers d) cons ->
  exists V q M, ei_eval obj y x = Ok V /\ cei_pof cons x = Ok q /\ cei_eval obj y cons x = Ok M /\ M 0 0 = Rmult (V 0 0) (q 0 0).
Proof. exact cei_eval_spec. Qed.
Print Assumptions C59_constrained.
(** without constraints; a batch of m points gives the value of each point m times *)
Theorem C59_unconstrained : forall d n m (obj : predictor d) (y : 'cV[R]_n.+1) (x : 'M[R]_(m, d)), answers obj ->
  exists V M, ei_eval obj y x = Ok V /\ cei_eval obj y [::] x = Ok M /\ forall i j, M i j = V i 0.
Proof. exact cei_unconstrained. Qed.
Print Assumptions C59_unconstrained.
(** two constraint models, the second with larger predictions *)
Definition ex_model_at (mean : R) : predictor 1 := fun m x => Ok (const_mx mean, const_mx 1).
Lemma ex_model_answers mean : answers (ex_model_at mean).
Proof. move=> m x; exists (const_mx mean), (const_mx 1); split=> // j; rewrite mxE; exact: Rle_0_1. Qed.
Example C59_ok : let c1 := [:: ex_model_at 0; ex_model_at 1] in let c2 := [:: ex_model_at 1; ex_model_at 1] in
  List.Forall (@answers 1) c1 /\ List.Forall2 (constraint_le ex_lo ex_hi) c1 c2.
Proof.
have Q a b : (a <= b)%Re -> constraint_le ex_lo ex_hi (ex_model_at a) (ex_model_at b).
  by move=> H; exists (const_mx a), (const_mx b), (const_mx 1), (const_mx 1); split=> //; split=> //; split=> //; rewrite !mxE.
split; first by do 2 (constructor; first exact: ex_model_answers).
constructor; first by apply: Q; exact: Rle_0_1. constructor=> //; apply: Q; exact: Rle_refl.
Qed.

(** ** C88 constrained expected improvement of several points *)
Theorem C88_batch : forall d n m (obj p : predictor d) (y : 'cV[R]_n.+1) cons (x : 'M[R]_(m, d)), answers obj -> answers p -> m <> 1%N ->
  cei_eval obj y (p :: cons) x = Raise ValueError.
Proof. exact cei_batch. Qed.
Print Assumptions C88_batch.
Example C88_ok : answers (ex_model_at 0) /\ 2%N <> 1%N. Proof. by split; [exact: ex_model_answers|]. Qed.

(** ** C60 confidence bounds *)
Theorem C60_lcb : forall d m (predict : predictor d) k0 k1 (x : 'M[R]_(m, d)), answers predict ->
  exists V mu sd, lcb_eval predict k0 k1 x = Ok V /\ predict m x = Ok (mu, sd) /\
  forall j, V j 0 = Rminus (Rmult k0 (mu j 0)) (Rmult k1 (sd j 0)) /\ ((0 <= k1)%Re -> (V j 0%R <= k0 * mu j 0%R)%Re).
Proof. exact lcb_spec. Qed.
Print Assumptions C60_lcb.
Theorem C60_monotone : forall d m1 m2 (p1 p2 : predictor d) k0 k1 (x1 : 'M[R]_(m1, d)) (x2 : 'M[R]_(m2, d)) V1 V2 mu1 sd1 mu2 sd2 j1 j2,
  (0 <= k1)%Re -> lcb_eval p1 k0 k1 x1 = Ok V1 -> lcb_eval p2 k0 k1 x2 = Ok V2 ->
  p1 m1 x1 = Ok (mu1, sd1) -> p2 m2 x2 = Ok (mu2, sd2) -> mu1 j1 0 = mu2 j2 0 -> (sd1 j1 0%R <= sd2 j2 0%R)%Re ->
  (V2 j2 0%R <= V1 j1 0%R)%Re.
Proof. exact lcb_mono. Qed.
Print Assumptions C60_monotone.
Theorem C60_sampled : forall d p (phi : 'rV[R]_d -> 'rV[R]_p) (lo hi : 'rV[R]_d) n (o o' : gp d p) (X : 'M[R]_(n, d)) (Y : 'cV[R]_n) s k0 k1,
  gp_noise o = Some R0 -> gp_train phi lo hi o X Y s = Ok o' ->
  lcb_eval (fun m => @gp_predict_std d p phi lo hi m o') k0 k1 X = Ok (\col_i Rmult k0 (Y i 0)).
Proof. exact lcb_sampled. Qed.
Print Assumptions C60_sampled.
(** the bound for low-fidelity points keeps the high-fidelity mean; at one point the low fidelity is
    preferred when the weighted low-fidelity deviation is larger *)
Theorem C60_vflcb : forall d m (s : surrogate d) k0 k1 cr (x : 'M[R]_(m, d)), surrogate_answers s ->
  exists V0 V1 mu sd mul sdl, vflcb_eval s k0 k1 cr 0 x = Ok V0 /\ vflcb_eval s k0 k1 cr 1 x = Ok V1 /\
  su_predict_std s x = Ok (mu, sd) /\ su_predict_lf_std s x = Ok (mul, sdl) /\
  forall j, V0 j 0 = Rminus (Rmult k0 (mu j 0)) (Rmult k1 (sd j 0)) /\
    V1 j 0 = Rminus (Rmult k0 (mu j 0)) (Rmult k1 (Rmult cr (sdl j 0))) /\
    ((0 < k1)%Re -> (V1 j 0%R < V0 j 0%R <-> sd j 0%R < cr * sdl j 0%R)%Re).
Proof. exact vflcb_spec. Qed.
Print Assumptions C60_vflcb.
(** the two multi-fidelity surrogates without state answer once they are trained *)
Theorem C60_hierarchical : forall d (lo hi : 'rV[R]_d) nh nl (o o' : hk d) (Xh : 'M[R]_(nh, d)) (Yh : 'cV[R]_nh) (Xl : 'M[R]_(nl, d)) (Yl : 'cV[R]_nl) sl sh,
  hk_train lo hi o Xh Yh Xl Yl sl sh = Ok o' -> surrogate_answers (hk_surrogate lo hi o' Xh Xl).
Proof. exact hk_answers. Qed.
Print Assumptions C60_hierarchical.
Theorem C60_scaled : forall d (lo hi : 'rV[R]_d) nh nl (o o' : sk d) (Xh : 'M[R]_(nh, d)) (Yh : 'cV[R]_nh) (Xl : 'M[R]_(nl, d)) (Yl : 'cV[R]_nl) sl sr sh,
  sk_train lo hi o Xh Yh Xl Yl sl sr sh = Ok o' -> surrogate_answers (sk_surrogate lo hi o' Xh Xl).
Proof. exact sk_answers. Qed.
Print Assumptions C60_scaled.
Example C60_ok : exists o', surrogate_answers (hk_surrogate ex_lo ex_hi o' ex_X ex_X) /\ su_hierarchical (hk_surrogate ex_lo ex_hi o' ex_X ex_X).
Proof. have [o' E] := ex_hk. exists o'; split=> //; exact: hk_answers E. Qed.

(** ** C87 variable-fidelity expected improvement *)
Theorem C87_vfei : forall d m (s : surrogate d) fmin (x : 'M[R]_(m, d)) beta, surrogate_answers s -> su_hierarchical s -> su_beta s = Ok beta ->
  exists V0 V1 mu sd mul sdl, vfei_eval s fmin 0 x = Ok V0 /\ vfei_eval s fmin 1 x = Ok V1 /\
  su_predict_std s x = Ok (mu, sd) /\ su_predict_lf_std s x = Ok (mul, sdl) /\
  forall j, ((sd j 0%R < / 2 ^ 52)%Re -> V0 j 0 = 0) /\ ((beta * sdl j 0%R < / 2 ^ 52)%Re -> V1 j 0 = 0) /\
    ((/ 2 ^ 52 <= sd j 0%R)%Re -> (exists v, expected_improvement fmin (mu j 0) (sd j 0) v /\ (Rabs (V0 j 0%R + v) <= / 10 ^ 8 / 2)%Re) /\
       ((/ 2 ^ 52 <= beta * sdl j 0%R)%Re -> V1 j 0 = V0 j 0)).
Proof. exact vfei_spec. Qed.
Print Assumptions C87_vfei.
(** with a scale factor that is not positive the low fidelity gets the value 0 everywhere *)
Theorem C87_negative_scale : forall d m (s : surrogate d) fmin (x : 'M[R]_(m, d)) beta, surrogate_answers s -> su_hierarchical s -> su_beta s = Ok beta ->
  (beta <= 0)%Re -> vfei_eval s fmin 1 x = Ok 0.
Proof. exact vfei_negative. Qed.
Print Assumptions C87_negative_scale.
(** the scale factor is the regression coefficient of the trained model *)
Theorem C87_scale : forall d (lo hi : 'rV[R]_d) nh nl (o o' : hk d) (Xh : 'M[R]_(nh, d)) (Yh : 'cV[R]_nh) (Xl : 'M[R]_(nl, d)) (Yl : 'cV[R]_nl) sl sh,
  hk_train lo hi o Xh Yh Xl Yl sl sh = Ok o' ->
  exists t, hk_model o' = Some t /\ su_beta (hk_surrogate lo hi o' Xh Xl) = Ok (kr_beta (hk_krig t) 0 0).
Proof. exact hk_beta. Qed.
Print Assumptions C87_scale.
Theorem C87_only_hierarchical : forall d m (s : surrogate d) fmin fid (x : 'M[R]_(m, d)), ~~ su_hierarchical s -> vfei_eval s fmin fid x = Raise ValueError.
Proof. exact vfei_only_hk. Qed.
Print Assumptions C87_only_hierarchical.

(** a model trained on opposite trends has the scale factor -1 *)
Definition ex_down : 'cV[R]_2 := \col_i Rminus 1 (INR i).
Lemma ex_mean2 (y : 'cV[R]_2) : mean y = Rdiv (Rplus (y 0 0) (y 1 0)) 2.
Proof.
rewrite /mean !big_ord_recl big_ord0. have -> : lift ord0 ord0 = 1 :> 'I_2 by apply: val_inj. by toR; rewrite Rplus_0_r.
Qed.
Example C87_ok : exists o' t, hk_train ex_lo ex_hi (hk_new 1 (Some R0) 0) ex_X ex_down ex_X ex_Y ex_search ex_search = Ok o' /\
  hk_model o' = Some t /\ su_beta (hk_surrogate ex_lo ex_hi o' ex_X ex_X) = Ok (Ropp 1).
Proof.
have V : ~ constant ex_down by move=> /(_ 0 1); rewrite !mxE /= => E; lra.
have [lf [F0 [El [EF Hi]]]] := hk_train_iff ex_lo ex_hi ex_X ex_X ex_varied V (ex_usable : usable (gp_restart (hk_lf (hk_new 1 (Some R0) 0))) _) (ex_usable : usable (hk_restart (hk_new 1 (Some R0) 0)) _).
have [I _] := gp_interpolates (o := hk_lf (hk_new 1 (Some R0) 0)) (erefl _) El.
have EY : F0 = ex_Y by move: EF; rewrite I => -[].
have M : mean ex_down = Rdiv 1 2 by rewrite ex_mean2 !mxE /=; lra.
have [o' E] : exists o', hk_train ex_lo ex_hi (hk_new 1 (Some R0) 0) ex_X ex_down ex_X ex_Y ex_search ex_search = Ok o'.
  apply/Hi; exists 0; rewrite EY M mxE /=; lra.
have [lf' [F' [h [k [El' [_ [EF' [_ [_ Eo]]]]]]]]] := hk_train_inv E.
have Elf : hk_lf o' = lf by move: El'; rewrite El Eo /= => -[].
have P1 : gp_predict (@Ordinary 1) ex_lo ex_hi (hk_lf o') ex_X = Ok F0 by rewrite Elf.
have P2 i : Rminus (ex_down i 0) (mean ex_down) = Rmult (Ropp 1) (Rminus (F0 i 0) (mean ex_down)).
  rewrite M EY !mxE. have Q (z : R) : Rminus (Rminus 1 z) (Rdiv 1 2) = Rmult (Ropp 1) (Rminus z (Rdiv 1 2)) by field. exact: Q.
have [t [f [noise [Et [Eb _]]]]] := hk_proportional ex_X E P1 P2.
have [t' [Et' Hb]] := hk_beta E. exists o', t'; split=> //; split=> //; rewrite Hb. move: Et'; rewrite Et => -[<-]; by rewrite Eb mxE.
Qed.

(** ** C89 unknown fidelities *)
Theorem C89_vflcb : forall d m (s : surrogate d) k0 k1 cr fid (x : 'M[R]_(m, d)), surrogate_answers s ->
  vflcb_eval s k0 k1 cr fid.+2 x = Raise UnboundLocalError.
Proof. exact unknown_vflcb. Qed.
Print Assumptions C89_vflcb.
Theorem C89_vfei : forall d m (s : surrogate d) fmin fid (x : 'M[R]_(m, d)), surrogate_answers s -> su_hierarchical s ->
  vfei_eval s fmin fid.+2 x = Raise UnboundLocalError.
Proof. exact unknown_vfei. Qed.
Print Assumptions C89_vfei.
Theorem C89_augmented : forall d m (s : surrogate d) cr fid (x : 'M[R]_(m, d)), surrogate_answers s -> (0 < su_nh s + su_nl s)%N ->
  aei_eval s cr fid.+2 x = Raise TypeError.
Proof. exact unknown_aei. Qed.
Print Assumptions C89_augmented.
Theorem C89_extended : forall d m (s : surrogate d) fmin cr fid (x : 'M[R]_(m, d)), surrogate_answers s -> epi_eval s fmin cr fid.+2 x = Raise TypeError.
Proof. exact unknown_epi. Qed.
Print Assumptions C89_extended.

(** ** C90 augmented expected improvement *)
Theorem C90_augmented : forall d m (s : surrogate d) cr (x : 'M[R]_(m, d)), surrogate_answers s -> (0 < su_nh s + su_nl s)%N ->
  let X := col_mx (su_Xh s) (su_Xl s) in
  exists A0 A1 i mus sds fm mu sd mul sdl, aei_eval s cr 0 x = Ok A0 /\ aei_eval s cr 1 x = Ok A1 /\
  su_predict_std s X = Ok (mus, sds) /\ first_least (\col_j Rplus (mus j 0) (sds j 0)) i /\ su_predict s (row i X) = Ok fm /\
  su_predict_std s x = Ok (mu, sd) /\ su_predict_lf_std s x = Ok (mul, sdl) /\
  forall j, exists v, A0 j = Some (Ropp v) /\ (0 <= v)%Re /\ ((sd j 0%R < / 2 ^ 52)%Re -> v = 0) /\
    ((/ 2 ^ 52 <= sd j 0%R)%Re -> expected_improvement (fm 0 0) (mu j 0) (sd j 0) v) /\
    let den := Rplus (Rabs (Rminus (mu j 0) (mul j 0))) (sd j 0) in
    (den = 0 -> A1 j = None) /\ (den <> 0 -> A1 j = Some (Ropp (Rmult (Rmult v (Rdiv (sdl j 0) den)) cr))).
Proof. exact aei_spec. Qed.
Print Assumptions C90_augmented.
Theorem C90_not_a_number : forall d (lo hi : 'rV[R]_d) n (o o' : hk d) (X : 'M[R]_(n, d)) (Y : 'cV[R]_n) sl sh cr,
  hk_noise o = Some R0 -> gp_noise (hk_lf o) = Some R0 -> (0 < n)%N -> hk_train lo hi o X Y X Y sl sh = Ok o' ->
  exists A1, aei_eval (hk_surrogate lo hi o' X X) cr 1 X = Ok A1 /\ forall j, A1 j = None.
Proof. exact aei_nan. Qed.
Print Assumptions C90_not_a_number.
Example C90_ok : exists o', hk_train ex_lo ex_hi (hk_new 1 (Some R0) 0) ex_X ex_Y ex_X ex_Y ex_search ex_search = Ok o' /\
  hk_noise (hk_new 1 (Some R0) 0) = Some R0 /\ gp_noise (hk_lf (hk_new 1 (Some R0) 0)) = Some R0.
Proof. have [o' E] := ex_hk. by exists o'. Qed.

(** ** C91 extended probability of improvement *)
Theorem C91_extended : forall d m (s : surrogate d) fmin cr (x : 'M[R]_(m, d)), surrogate_answers s -> correlates s ->
  exists E0 E1 mu sd mul sdl c0 c1, epi_eval s fmin cr 0 x = Ok E0 /\ epi_eval s fmin cr 1 x = Ok E1 /\
  su_predict_std s x = Ok (mu, sd) /\ su_predict_lf_std s x = Ok (mul, sdl) /\
  su_corr s x (su_Xh s) 0 = Some c0 /\ su_corr s x (su_Xl s) 1 = Some c1 /\
  forall i, exists p, ((sd i 0%R < / 2 ^ 52)%Re -> p = 0) /\
    ((/ 2 ^ 52 <= sd i 0%R)%Re -> prob_below (mu i 0) (sd i 0) fmin p /\ (0 < p < 1)%Re) /\ forall j,
    E0 i j = Some (Ropp (Rmult p (\prod_k c0 j k))) /\
    let den := Rplus (Rabs (Rminus (mu i 0) (mul i 0))) (sd i 0) in
    (den = 0 -> E1 i j = None) /\
    (den <> 0 -> E1 i j = Some (Ropp (Rmult (Rmult (Rmult p (Rdiv (sdl i 0) den)) cr) (\prod_k c1 j k)))).
Proof. exact epi_spec. Qed.
Print Assumptions C91_extended.
(** a point that is more correlated with the samples is never worse, and no sample is excluded *)
Theorem C91_crowding : forall d (s : surrogate d) fmin cr (x1 x2 : 'M[R]_(1, d)) mu1 mu2 sd1 sd2 c1 c2 E1 E2,
  surrogate_answers s -> correlates s ->
  su_predict_std s x1 = Ok (mu1, sd1) -> su_predict_std s x2 = Ok (mu2, sd2) -> mu1 0 0 = mu2 0 0 -> sd1 0 0 = sd2 0 0 ->
  su_corr s x1 (su_Xh s) 0 = Some c1 -> su_corr s x2 (su_Xh s) 0 = Some c2 -> (forall k, (c1 0%R k <= c2 0%R k)%Re) ->
  epi_eval s fmin cr 0 x1 = Ok E1 -> epi_eval s fmin cr 0 x2 = Ok E2 ->
  exists v1 v2, E1 0 0 = Some v1 /\ E2 0 0 = Some v2 /\ (v2 <= v1)%Re /\ ((/ 2 ^ 52 <= sd2 0%R 0%R)%Re -> (v2 < 0)%Re).
Proof. exact epi_crowding. Qed.
Print Assumptions C91_crowding.
Theorem C91_correlations : forall d (lo hi : 'rV[R]_d) nh nl (o o' : hk d) (Xh : 'M[R]_(nh, d)) (Yh : 'cV[R]_nh) (Xl : 'M[R]_(nl, d)) (Yl : 'cV[R]_nl) sl sh,
  hk_train lo hi o Xh Yh Xl Yl sl sh = Ok o' -> correlates (hk_surrogate lo hi o' Xh Xl).
Proof. exact hk_correlates. Qed.
Print Assumptions C91_correlations.
Example C91_ok : exists o', surrogate_answers (hk_surrogate ex_lo ex_hi o' ex_X ex_X) /\ correlates (hk_surrogate ex_lo ex_hi o' ex_X ex_X).
Proof. have [o' E] := ex_hk. exists o'; split; [exact: hk_answers E|exact: hk_correlates E]. Qed.
