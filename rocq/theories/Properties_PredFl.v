(** C135, C136: predicted means of a Gaussian process in binary64, anywhere and at the samples. *)
From Coq Require Import ZArith Bool List Reals.
From Verif Require Import Fl Spec NpList KernelFl KernelFlSpec CholFl OutputFl OutputFlSpec TrainFl PredFlSpec.
From Verif Require Import KernelFlWit PredFlMain PredFlWit PredFlThms.
Import ListNotations.
Local Open Scope R_scope.

Section Predictions.
Variables (np_sum : list b64 -> b64) (np_dot : list (b64 * b64) -> b64) (np_exp np_log np_pow10 : b64 -> b64).
Variable np_cholesky : nat -> array -> result array.
Variable np_solve : nat -> nat -> array -> array -> result array.
Variables (basis : row -> row) (p : nat).
Variable bounds : box.
Let d := length bounds.
Let train := train64 np_sum np_dot np_exp np_log np_pow10 np_cholesky np_solve basis p bounds.
Let predict := predict64 np_sum np_dot np_exp basis p bounds.
Let unit_rows := map (normalize64 bounds).

(** A model with finite weights predicts finite means at all points of the box, close to the exact prediction with
    these weights, this mean and this standard deviation: the error is a few units 2^-53 per sample, basis function
    and dimension, times the sum of the sizes of all weights. *)
Theorem C135_accurate o X Y Xq beta gamma W M :
  (forall l, sum_of l (np_sum l)) -> (forall l, dot_of l (np_dot l)) -> exp_ok np_exp ->
  (1 <= d)%nat -> 1 <= W -> entry_units d W <= 9000000 -> finite_box bounds -> Forall (inside bounds) X ->
  length X = length Y -> M <= 2 ^ 400 -> responses M Y -> spread Y -> INR p <= 2 ^ 20 -> basis_ok d p basis ->
  g_data o = Some (dataset64 np_sum bounds X Y) -> param_row d W (g_param o) ->
  get_rows (g_attr o abeta) p = Ok beta -> get_rows (g_attr o agamma) (length X) = Ok gamma ->
  finite_weights p beta -> finite_weights (length X) gamma -> mass p beta + mass (length X) gamma <= 2 ^ 500 ->
  exists out, predict o Xq = Ok out /\ length out = length Xq /\
    forall j, (j < length Xq)%nat -> inside bounds (nth j Xq []) ->
      let x := normalize64 bounds (nth j Xq []) in
      isfin (nth j out f0) = true /\
      Rabs (val (nth j out f0) - (val (mean64 np_sum Y) + val (std64 np_sum Y) * latent (g_param o) p (basis x) beta (unit_rows X) gamma j x)) <=
        / 2 ^ 53 * ((INR p + 2 * INR (length X) + entry_units d W + 8) * val (std64 np_sum Y) * (mass p beta + mass (length X) gamma) + 2 * Rabs (val (mean64 np_sum Y))) + / 2 ^ 600.
Proof. exact (fun S D E => predict_near np_sum np_dot np_exp basis p bounds S D E o X Y Xq beta gamma W M). Qed.

(** After a training that returned, a point equal to the [i]-th sample, at position [j] of its batch, is predicted as
    the [i]-th response up to three things: the noise times the weight of the sample, 10^-10 times the difference
    between the weights of the samples [j] and [i], and rounding. *)
Theorem C136_samples eps W M o X Y se o' noise beta gamma Xq out i j :
  (forall l, sum_of l (np_sum l)) -> (forall l, dot_of l (np_dot l)) -> exp_ok np_exp ->
  (forall n A, cholesky64 n A (np_cholesky n A)) -> lower_factor np_cholesky -> backward_stable eps np_solve -> 0 <= eps <= / 10 ->
  (1 <= d)%nat -> 1 <= W -> safe_size (length X) d W -> finite_box bounds -> Forall (inside bounds) X ->
  length X = length Y -> M <= 2 ^ 400 -> responses M Y -> spread Y -> INR p <= 2 ^ 20 -> basis_ok d p basis ->
  train o X Y se = (o', Ok tt) -> param_row d W (g_param o') -> g_noise o' = Some noise ->
  let s := std64 np_sum Y in let ratio := fdiv noise s in let nu := val (fmul ratio ratio) in
  isfin ratio = true -> Rabs (val ratio) <= 2 ^ 100 ->
  g_attr o' abeta = Some (Arr p beta) -> g_attr o' agamma = Some (Arr (length X) gamma) ->
  finite_weights p beta -> finite_weights (length X) gamma -> mass p beta + mass (length X) gamma <= 2 ^ 500 ->
  predict o' Xq = Ok out -> (i < length X)%nat -> (j < length Xq)%nat -> nth j Xq [] = nth i X [] ->
  isfin (nth j out f0) = true /\
  Rabs (val (nth j out f0) - (val (nth i Y f0) + val s *
      (/ 10 ^ 10 * ((if Nat.ltb j (length X) then val (gamma j 0%nat) else 0) - val (gamma i 0%nat)) - nu * val (gamma i 0%nat)))) <=
    val s * (INR (length X) + mass p beta + (1 + nu) * mass (length X) gamma) *
      ((2 * entry_units d W + 5 * INR (length X) + 2 * INR p + 24) * / 2 ^ 53 + 3 * INR (length X) * eps) + / 2 ^ 50 * M + / 2 ^ 350.
Proof.
  exact (fun S D E Ch Lo So e0 d1 W1 SZ Bx FX XY HM HY HS P20 Bo T Pw Hn Fs Bs Hb Hg FB FG AG =>
    interpolates np_sum np_dot np_exp np_log np_pow10 np_cholesky np_solve basis p bounds S D E eps W M o X Y se o' noise beta gamma
      Ch Lo So e0 d1 W1 SZ Bx FX XY HM HY HS P20 Bo T Pw Hn Fs Bs Hb Hg FB FG AG Xq out i j).
Qed.
(** With the noise fixed at zero, predicting all samples in their order gives back all responses, up to rounding. *)
Theorem C136_interpolates eps W M o X Y se o' noise beta gamma :
  (forall l, sum_of l (np_sum l)) -> (forall l, dot_of l (np_dot l)) -> exp_ok np_exp ->
  (forall n A, cholesky64 n A (np_cholesky n A)) -> lower_factor np_cholesky -> backward_stable eps np_solve -> 0 <= eps <= / 10 ->
  (1 <= d)%nat -> 1 <= W -> safe_size (length X) d W -> finite_box bounds -> Forall (inside bounds) X ->
  length X = length Y -> M <= 2 ^ 400 -> responses M Y -> spread Y -> INR p <= 2 ^ 20 -> basis_ok d p basis ->
  train o X Y se = (o', Ok tt) -> param_row d W (g_param o') -> g_noise o = Some noise -> feq noise f0 = true ->
  g_attr o' abeta = Some (Arr p beta) -> g_attr o' agamma = Some (Arr (length X) gamma) ->
  finite_weights p beta -> finite_weights (length X) gamma -> mass p beta + mass (length X) gamma <= 2 ^ 500 ->
  exists out, predict o' X = Ok out /\ forall i, (i < length X)%nat -> isfin (nth i out f0) = true /\
    Rabs (val (nth i out f0) - val (nth i Y f0)) <=
      val (std64 np_sum Y) * (INR (length X) + mass p beta + mass (length X) gamma) *
      ((2 * entry_units d W + 5 * INR (length X) + 2 * INR p + 24) * / 2 ^ 53 + 3 * INR (length X) * eps) + / 2 ^ 50 * M + / 2 ^ 350.
Proof.
  exact (fun S D E => noise_free np_sum np_dot np_exp np_log np_pow10 np_cholesky np_solve basis p bounds S D E eps W M o X Y se o' noise beta gamma).
Qed.
End Predictions.
Print Assumptions C135_accurate.
Print Assumptions C136_samples.
Print Assumptions C136_interpolates.

(** In another order the responses are not given back: two samples 0 and 1 with responses 1 and -1, noise zero.  In
    order they are predicted to within 2^-40; exchanged, both are off by more than 1.5 * 2^-33. *)
Theorem C136_any_order_refuted :
  (match snd two_run with Ok _ => true | Raise _ => false end = true) /\
  (match two_predict two_x with Ok [u; v] => within (fsub f1 eps40) (fadd f1 eps40) u && within (fsub (fopp f1) eps40) (fadd (fopp f1) eps40) v | _ => false end = true) /\
  (match two_predict [[f1]; [f0]] with Ok [u; v] => flt (fadd (fopp f1) (fbin 3 (-34))) u && flt v (fsub f1 (fbin 3 (-34))) | _ => false end = true).
Proof. exact (conj two_ok (conj two_in_order two_reversed)). Qed.
Print Assumptions C136_any_order_refuted.

(** The hypotheses hold for implementations of the NumPy functions and this data set; the bound is below 10^-10. *)
Example two_samples_contracts :
  (forall l, sum_of l (plain_sum l)) /\ (forall l, dot_of l (plain_dot l)) /\ exp_ok quick_exp /\
  (forall n A, cholesky64 n A (low_chol n A)) /\ lower_factor low_chol /\ backward_stable (/ 2 ^ 52) diag_solve.
Proof. exact (conj plain_sum_ok (conj plain_dot_ok (conj quick_exp_ok (conj low_chol_ok (conj low_chol_lower diag_solve_stable))))). Qed.
Example two_samples_interpolated : exists out, two_predict two_x = Ok out /\ forall i, (i < 2)%nat -> isfin (nth i out f0) = true /\
  Rabs (val (nth i out f0) - val (nth i two_y f0)) <= val (std64 plain_sum two_y) * 14 * (52000 * / 2 ^ 53 + 6 * / 2 ^ 52) + / 2 ^ 50 + / 2 ^ 350.
Proof. exact two_interpolates. Qed.
