(** Theorems about acquisition functions in other units (C123), in exact arithmetic.  Every response y becomes
    a y + b with a > 0 ([shifted]); [rescaled] is a surrogate whose means are a mean + b and whose standard
    deviations are multiplied by a (AcqUnitsSpec.v); [after r f] applies f to the value of r and keeps
    exceptions. *)
From Coq Require Import Reals Lra List.
From Coquelicot Require Import Coquelicot.
From Verif Require Import Fl Normal AcqSpec.
From mathcomp Require Import all_ssreflect all_algebra.
From Verif Require Import RStruct LinAlg Kernel Krig GP GPSpec MF Acq AcqSpecM AcqFacts AcqUnitsSpec AcqUnits Properties_GP Properties_MF.
Set Implicit Arguments.
Unset Strict Implicit.
Unset Printing Implicit Defensive.
Import GRing.Theory.
Local Open Scope ring_scope.

(** ** C123 acquisition functions in other units *)
(** trained in the other units, the surrogates of the package are the rescaled ones *)
Theorem C123_gaussian_process : forall d p (phi : 'rV[R]_d -> 'rV[R]_p) (lo hi : 'rV[R]_d) n (o o' : gp d p) (X : 'M[R]_(n, d)) (Y : 'cV[R]_n) s a b, (0 < a)%Re ->
  gp_train phi lo hi o X Y s = Ok o' ->
  exists o2, gp_train phi lo hi (MkGP (omap (Rmult a) (gp_noise o)) (gp_restart o) (gp_kernel o) (gp_model o)) X (shifted a b Y) s = Ok o2 /\
  forall m (x : 'M[R]_(m, d)), gp_predict_std phi lo hi o2 x = rescaled a b (fun m => @gp_predict_std d p phi lo hi m o') x.
Proof. exact gp_rescaled. Qed.
Print Assumptions C123_gaussian_process.
Theorem C123_hierarchical : forall d (lo hi : 'rV[R]_d) nh nl (o o' : hk d) (Xh : 'M[R]_(nh, d)) (Yh : 'cV[R]_nh) (Xl : 'M[R]_(nl, d)) (Yl : 'cV[R]_nl) sl sh a b, (0 < a)%Re ->
  hk_train lo hi o Xh Yh Xl Yl sl sh = Ok o' ->
  exists o2, hk_train lo hi (MkHK (omap (Rmult a) (hk_noise o)) (hk_restart o) (hk_kernel o)
        (MkGP (omap (Rmult a) (gp_noise (hk_lf o))) (gp_restart (hk_lf o)) (gp_kernel (hk_lf o)) (gp_model (hk_lf o))) (hk_model o))
      Xh (shifted a b Yh) Xl (shifted a b Yl) sl sh = Ok o2 /\
  hk_surrogate lo hi o2 Xh Xl = rescaled_surrogate a b (hk_surrogate lo hi o' Xh Xl).
Proof. exact hk_rescaled. Qed.
Print Assumptions C123_hierarchical.
(** the confidence bounds follow the units *)
Theorem C123_lcb : forall d m (predict : predictor d) k0 k1 (x : 'M[R]_(m, d)) a b,
  lcb_eval (rescaled a b predict) k0 k1 x = after (lcb_eval predict k0 k1 x) (fun v => shifted a (Rmult k0 b) v).
Proof. exact lcb_units. Qed.
Print Assumptions C123_lcb.
Theorem C123_vflcb : forall d m (s : surrogate d) k0 k1 cr fid (x : 'M[R]_(m, d)) a b,
  vflcb_eval (rescaled_surrogate a b s) k0 k1 cr fid x = after (vflcb_eval s k0 k1 cr fid x) (fun v => shifted a (Rmult k0 b) v).
Proof. exact vflcb_units. Qed.
Print Assumptions C123_vflcb.
(** adding a constant changes neither the expected improvement nor the constrained one *)
Theorem C123_ei_origin : forall d n m (predict : predictor d) (y : 'cV[R]_n) (x : 'M[R]_(m, d)) b,
  ei_eval (rescaled 1 b predict) (shifted 1 b y) x = ei_eval predict y x.
Proof. exact ei_origin. Qed.
Print Assumptions C123_ei_origin.
Theorem C123_cei_origin : forall d n m (predict : predictor d) (y : 'cV[R]_n) cons (x : 'M[R]_(m, d)) b,
  cei_eval (rescaled 1 b predict) (shifted 1 b y) cons x = cei_eval predict y cons x.
Proof. exact cei_origin. Qed.
Print Assumptions C123_cei_origin.
(** the expected improvement is multiplied by a, up to (1 + a) 5e-10 *)
Theorem C123_ei : forall d n m (predict : predictor d) (y : 'cV[R]_n.+1) (x : 'M[R]_(m, d)) a b, (0 < a)%Re -> answers predict ->
  exists V V', ei_eval predict y x = Ok V /\ ei_eval (rescaled a b predict) (shifted a b y) x = Ok V' /\
  forall j, (Rabs (V' j 0%R - a * V j 0%R) <= (1 + a) * (/ 10 ^ 9 / 2))%Re.
Proof. exact ei_units. Qed.
Print Assumptions C123_ei.
(** variable-fidelity expected improvement, likewise *)
Theorem C123_vfei_origin : forall d m (s : surrogate d) fmin fid (x : 'M[R]_(m, d)) b,
  vfei_eval (rescaled_surrogate 1 b s) (Rplus fmin b) fid x = vfei_eval s fmin fid x.
Proof. exact vfei_origin. Qed.
Print Assumptions C123_vfei_origin.
Theorem C123_vfei : forall d m (s : surrogate d) fmin (x : 'M[R]_(m, d)) a b, (0 < a)%Re -> surrogate_answers s -> su_hierarchical s -> spread a s x ->
  exists V V', vfei_eval s fmin 0 x = Ok V /\ vfei_eval (rescaled_surrogate a b s) (Rplus (Rmult a fmin) b) 0 x = Ok V' /\
  forall j, (Rabs (V' j 0%R - a * V j 0%R) <= (1 + a) * (/ 10 ^ 8 / 2))%Re.
Proof. exact vfei_units. Qed.
Print Assumptions C123_vfei.
(** the probability of improvement is the one for standard deviations that are 1e-9 / a larger, instead of 1e-9
    (C59); it is not the same number *)
Theorem C123_pi : forall d n m (predict : predictor d) (y : 'cV[R]_n) (x : 'M[R]_(m, d)) a b V f mu sd, (0 < a)%Re ->
  pi_eval (rescaled a b predict) (shifted a b y) x = Ok V -> least y f -> predict m x = Ok (mu, sd) -> (forall j, (0 <= sd j 0%R)%Re) ->
  forall j, prob_below (mu j 0) (Rplus (sd j 0) (Rdiv (/ 10 ^ 9) a)) f (Ropp (V j 0)).
Proof. exact pi_units. Qed.
Print Assumptions C123_pi.
Theorem C123_pi_refuted : exists (predict : predictor 1) (y : 'cV[R]_1) (x : 'M[R]_(1, 1)) V V', answers predict /\
  pi_eval predict y x = Ok V /\ pi_eval (rescaled 2 0 predict) (shifted 2 0 y) x = Ok V' /\ V' <> V.
Proof. exact pi_changes. Qed.
Print Assumptions C123_pi_refuted.
(** augmented expected improvement is multiplied by a and the extended probability of improvement stays, where no
    standard deviation is below 2^-52 in either unit *)
Theorem C123_aei : forall d m (s : surrogate d) cr fid (x : 'M[R]_(m, d)) a b, (0 < a)%Re -> spread a s x ->
  aei_eval (rescaled_surrogate a b s) cr fid x = after (aei_eval s cr fid x) (fun A j => omap (Rmult a) (A j)).
Proof. exact aei_units. Qed.
Print Assumptions C123_aei.
Theorem C123_epi : forall d m (s : surrogate d) fmin cr fid (x : 'M[R]_(m, d)) a b, (0 < a)%Re -> spread a s x ->
  epi_eval (rescaled_surrogate a b s) (Rplus (Rmult a fmin) b) cr fid x = epi_eval s fmin cr fid x.
Proof. exact epi_units. Qed.
Print Assumptions C123_epi.
(** the threshold 2^-52 is absolute: a surrogate with small responses has augmented expected improvement zero
    where the same surrogate in another unit has a positive one *)
Theorem C123_threshold_refuted : exists (s : surrogate 1) (x : 'M[R]_(1, 1)) A A', surrogate_answers s /\
  aei_eval s 1 0 x = Ok A /\ aei_eval (rescaled_surrogate (Rinv 2) 0 s) 1 0 x = Ok A' /\ A' 0 = Some R0 /\ exists v, A 0 = Some v /\ (v < 0)%Re.
Proof. exact aei_changes. Qed.
Print Assumptions C123_threshold_refuted.
Definition ex_flat : surrogate 1 :=
  Surrogate (fun m x => Ok (const_mx 0)) (flat 0 1) (flat 0 1) (const_mx 0 : 'M[R]_(1, 1)) (const_mx 0 : 'M[R]_(1, 1))
            (fun n m _ _ _ => Some (const_mx 1)) true (Ok R1).
Example C123_ok : (0 < 2)%Re /\ spread 2 ex_flat (const_mx 0 : 'M[R]_(3, 1)) /\ answers (flat 0 1) /\ surrogate_answers ex_flat /\ su_hierarchical ex_flat /\ least ex_Y R0 /\
  (exists o', gp_train (@Ordinary 1) ex_lo ex_hi (gp_new 1 1 (Some R0) 0) ex_X ex_Y ex_search = Ok o') /\
  exists o', hk_train ex_lo ex_hi (hk_new 1 (Some R0) 0) ex_X ex_Y ex_X ex_Y ex_search ex_search = Ok o'.
Proof.
split; first lra. split.
  move=> mu sd [_ <-] j; rewrite mxE. have E : (/ 2 ^ 52 <= 1)%Re by rewrite -Rinv_1; apply: Rinv_le_contravar; [lra|apply: pow_R1_Rle; lra].
  split; lra.
have F : answers (flat 0 1) by apply: flat_answers; lra.
split; first exact: F. split.
  split; first exact: F. split; first exact: F. by move=> m x; exists (const_mx 0).
split; first by []. split.
  split; first by exists 0; rewrite mxE. by move=> i; rewrite mxE; exact: pos_INR.
split; first exact: ex_trained. exact: ex_hk.
Qed.
