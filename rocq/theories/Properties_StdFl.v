(** C137: predicted standard deviations of a Gaussian process at its samples, in binary64. *)
From Coq Require Import ZArith Bool List Reals.
From Verif Require Import Fl Spec NpList KernelFl KernelFlSpec CholFl OutputFl OutputFlSpec TrainFl PredFlSpec StdFlSpec.
From Verif Require Import KernelFlWit PredFlWit StdFlMain StdFlWit.
Import ListNotations.
Local Open Scope R_scope.

Section Deviations.
Variables (np_sum : list b64 -> b64) (np_dot : list (b64 * b64) -> b64) (np_exp np_log np_pow10 : b64 -> b64).
Variable np_cholesky : nat -> array -> result array.
Variable np_solve : nat -> nat -> array -> array -> result array.
Variable bounds : box.
Let d := length bounds.
Let train := train64 np_sum np_dot np_exp np_log np_pow10 np_cholesky np_solve constant_basis 1 bounds.
Let predict_std := predict_std64 np_sum np_dot np_exp np_solve constant_basis 1 bounds.

(** Ordinary Kriging with the noise fixed at zero: after a training that returned, a point equal to the [i]-th sample,
    at position [i] of its batch, gets the standard deviation zero, never a positive one, whatever the rounding: the
    10^-10 that the kernel adds there pushes the variance below zero, and it is cut off at zero. *)
Theorem C137_zero eps W M o X Y se o' noise ld sigma2 Xq means stds i :
  (forall l, sum_of l (np_sum l)) -> (forall l, dot_of l (np_dot l)) -> exp_ok np_exp ->
  (forall n A, cholesky64 n A (np_cholesky n A)) -> lower_factor np_cholesky -> backward_stable eps np_solve -> 0 <= eps ->
  (1 <= d)%nat -> 1 <= W -> std_size (length X) d W eps -> finite_box bounds -> Forall (inside bounds) X ->
  length X = length Y -> M <= 2 ^ 400 -> responses M Y -> spread Y ->
  train o X Y se = (o', Ok tt) -> param_row d W (g_param o') -> g_noise o = Some noise -> feq noise f0 = true ->
  g_attr o' ald = Some (Arr 1 ld) -> isfin (ld 0%nat 0%nat) = true ->
  g_attr o' asigma2 = Some (Arr 1 sigma2) -> isfin (sigma2 0%nat 0%nat) = true -> 0 <= val (sigma2 0%nat 0%nat) ->
  predict_std o' Xq = Ok (means, stds) -> (i < length X)%nat -> (i < length Xq)%nat -> nth i Xq [] = nth i X [] ->
  isfin (nth i stds f0) = true -> val (nth i stds f0) = 0.
Proof.
  exact (fun S D E Ch Lo So e0 d1 W1 SZ Bx FX XY HM HY HS T Pw Hn Hz Hl Fl Hs Fs S0 =>
    std_zero np_sum np_dot np_exp np_log np_pow10 np_cholesky np_solve bounds S D E eps W M o X Y se o' noise
      Ch Lo So e0 d1 W1 SZ Bx FX XY HM HY HS T Pw Hn Hz sigma2 Hs Fs S0 ld Hl Fl Xq means stds i).
Qed.

(** With a numpy.linalg.solve that raises rather than return a NaN or an infinity, the deviation is never a NaN either:
    it is finite, and zero. *)
Theorem C137_finite eps W M o X Y se o' noise sigma2 Xq means stds i :
  (forall l, sum_of l (np_sum l)) -> (forall l, dot_of l (np_dot l)) -> exp_ok np_exp ->
  (forall n A, cholesky64 n A (np_cholesky n A)) -> lower_factor np_cholesky -> backward_stable eps np_solve -> 0 <= eps -> finite_solutions np_solve ->
  (1 <= d)%nat -> 1 <= W -> std_size (length X) d W eps -> finite_box bounds -> Forall (inside bounds) X ->
  length X = length Y -> M <= 2 ^ 400 -> responses M Y -> spread Y ->
  train o X Y se = (o', Ok tt) -> param_row d W (g_param o') -> g_noise o = Some noise -> feq noise f0 = true ->
  g_attr o' asigma2 = Some (Arr 1 sigma2) -> isfin (sigma2 0%nat 0%nat) = true -> 0 <= val (sigma2 0%nat 0%nat) <= 2 ^ 900 ->
  predict_std o' Xq = Ok (means, stds) -> (i < length X)%nat -> (i < length Xq)%nat -> nth i Xq [] = nth i X [] ->
  isfin (nth i stds f0) = true /\ val (nth i stds f0) = 0.
Proof.
  exact (fun S D E Ch Lo So e0 FS d1 W1 SZ Bx FX XY HM HY HS T Pw Hn Hz Hs Fs S0 =>
    std_finite np_sum np_dot np_exp np_log np_pow10 np_cholesky np_solve bounds S D E eps W M o X Y se o' noise
      Ch Lo So e0 d1 W1 SZ Bx FX XY HM HY HS T Pw Hn Hz sigma2 Hs Fs (proj1 S0) FS (proj2 S0) Xq means stds i).
Qed.
End Deviations.
Print Assumptions C137_zero.
Print Assumptions C137_finite.

(** In another order the deviations are not zero: two samples 0 and 1 with responses 1 and -1, noise zero.  In order
    both deviations are zero; exchanged, both are above 2^-17. *)
Theorem C137_any_order_refuted :
  (match snd two_run with Ok _ => true | Raise _ => false end = true) /\
  (match two_std two_x with Ok (_, [u; v]) => isfin u && isfin v && feq u f0 && feq v f0 | _ => false end = true) /\
  (match two_std [[f1]; [f0]] with Ok (_, [u; v]) => flt (fbin 1 (-17)) u && flt (fbin 1 (-17)) v && isfin u && isfin v | _ => false end = true).
Proof. exact (conj two_ok (conj two_std_in_order two_std_exchanged)). Qed.
Print Assumptions C137_any_order_refuted.

(** The hypotheses hold for the implementations of Properties_PredFl.v and this data set. *)
Example two_samples_size : std_size 2 1 1024 (/ 2 ^ 52).
Proof. exact two_std_size. Qed.
Example two_samples_deviations means stds i : two_std two_x = Ok (means, stds) -> (i < 2)%nat -> isfin (nth i stds f0) = true -> val (nth i stds f0) = 0.
Proof. exact (two_std_zero means stds i). Qed.
Example careful_solver : backward_stable (/ 2 ^ 52) careful_solve /\ finite_solutions careful_solve.
Proof. exact (conj careful_stable careful_finite). Qed.
Example careful_deviations : exists means stds, careful_std two_x = Ok (means, stds) /\ forall i, (i < 2)%nat -> isfin (nth i stds f0) = true /\ val (nth i stds f0) = 0.
Proof. exact careful_zero. Qed.
