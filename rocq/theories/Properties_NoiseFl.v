(** C138: signs of the predicted standard deviations in binary64, and the share of the noise in them. *)
From Coq Require Import ZArith Bool List Reals.
From Verif Require Import Fl Spec NpList KernelFlSpec TrainFl CKTrainFl HKTrainFl SKTrainFl StdFlSpec NoiseFlSpec.
From Verif Require Import KernelFlWit TrainFlWit PredFlWit NoiseFlMain NoiseFlWit.
Import ListNotations.
Local Open Scope R_scope.

Section Deviations.
Variables (np_sum : list b64 -> b64) (np_dot : list (b64 * b64) -> b64) (np_exp : b64 -> b64).
Variable np_solve : nat -> nat -> array -> array -> result array.
Variable basis : row -> row.
Variable p : nat.
Variable bounds : box.

(** Whatever the state of the object, the batch and NumPy's results, a standard deviation is never negative. *)
Theorem C138_gaussian_process o X means stds :
  predict_std64 np_sum np_dot np_exp np_solve basis p bounds o X = Ok (means, stds) -> Forall deviation stds.
Proof. exact (gp_deviations np_sum np_dot np_exp np_solve basis p bounds o X means stds). Qed.
Theorem C138_scaled_kriging o X means stds :
  sk_predict_std64 np_sum np_dot np_exp np_solve bounds o X = Ok (means, stds) -> Forall deviation stds.
Proof. exact (sk_deviations np_sum np_dot np_exp np_solve bounds o X means stds). Qed.
(** In hierarchical Kriging it is also at least the noise of the object, up to rounding. *)
Theorem C138_hierarchical_kriging o X means stds :
  hk_predict_std64 np_sum np_dot np_exp np_solve bounds o X = Ok (means, stds) ->
  exists noise, h_noise o = Some noise /\ Forall deviation stds /\
    (isfin noise = true -> / 2 ^ 500 <= Rabs (val noise) -> Forall (covers noise) stds).
Proof. exact (hk_deviations np_sum np_dot np_exp np_solve bounds o X means stds). Qed.
(** In Co-Kriging, at least the noise that the object has after the call (each call multiplies it, see C110). *)
Theorem C138_co_kriging o X o' means stds :
  ck_predict_std64 np_sum np_dot np_exp np_solve bounds o X = (o', Ok (means, stds)) ->
  exists noise, c_noise o' = Some noise /\ Forall deviation stds /\
    (isfin noise = true -> / 2 ^ 500 <= Rabs (val noise) -> Forall (covers noise) stds).
Proof. exact (ck_deviations np_sum np_dot np_exp np_solve bounds o X o' means stds). Qed.
End Deviations.
Print Assumptions C138_gaussian_process.
Print Assumptions C138_scaled_kriging.
Print Assumptions C138_hierarchical_kriging.
Print Assumptions C138_co_kriging.

(** A Gaussian process can predict less than its noise: the variance is cut off at zero after the noise has been
    added.  With two samples and a noise of 2^-20 both deviations are zero. *)
Theorem C138_gaussian_process_noise_refuted :
  (match snd noisy_run with Ok _ => true | Raise _ => false end = true) /\ (isfin small_noise && flt f0 small_noise = true) /\
  (match noisy_std two_x with Ok (_, [u; v]) => isfin u && isfin v && feq u f0 && feq v f0 | _ => false end = true).
Proof. exact (conj noisy_trained (conj noise_positive noisy_zero)). Qed.
Print Assumptions C138_gaussian_process_noise_refuted.

(** Predictions of the other models after a training with the same noise return two finite deviations. *)
Example hierarchical_predicts : all_from small_noise (hk_predict_std64 plain_sum plain_dot quick_exp plain_solve unit1 (fst hk_run) two_x) = true.
Proof. exact hk_std. Qed.
Example co_kriging_predicts : all_from f0 (snd (ck_predict_std64 plain_sum plain_dot quick_exp plain_solve unit1 (fst ck_run) two_x)) = true.
Proof. exact ck_std. Qed.
Example scaled_predicts : all_from f0 (sk_predict_std64 plain_sum plain_dot quick_exp plain_solve unit1 (fst sk_run) two_x) = true.
Proof. exact sk_std. Qed.
