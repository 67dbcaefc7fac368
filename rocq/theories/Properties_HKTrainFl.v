(** C130: training Hierarchical Kriging on constant, non-finite or overflowing responses, in binary64 (Model: HKTrainFl.v;
    vocabulary: TrainFlSpec.v).  Which responses have a standard deviation of zero or NaN, or an infinite one: C127_flat,
    C127_single, C127_not_finite, C129_spread, C129_infinite. *)
From Coq Require Import ZArith Bool List Reals.
From Verif Require Import Fl Spec NpList KernelFl CholFl OutputFl TrainFl TrainFlSpec CKTrainFl HKTrainFl.
From Verif Require Import KernelFlWit TrainFlWit WideFl HKTrainFlMain.
Import ListNotations.

Section C130.
Variables (np_sum : list b64 -> b64) (np_dot : list (b64 * b64) -> b64) (np_exp np_log np_pow10 : b64 -> b64).
Variable np_cholesky : nat -> array -> result array.
Variable np_solve : nat -> nat -> array -> array -> result array.
Variable bounds : box.
Let train := hk_train64 np_sum np_dot np_exp np_log np_pow10 np_cholesky np_solve bounds.
Let predict := hk_predict64 np_sum np_dot np_exp bounds.
Let predict_std := hk_predict_std64 np_sum np_dot np_exp np_solve bounds.
Let train_low := lf64_train np_sum np_dot np_exp np_log np_pow10 np_cholesky np_solve bounds.
Let dataset := dataset64 np_sum bounds.
Let after calls o := fold_left (fun a c => match c with (Xh, Yh, Xl, Yl, sl, s) => fst (train a Xh Yh Xl Yl sl s) end) calls o.

(** Training on any responses returns or raises one of two exceptions. *)
Theorem C130_exceptions o Xh Yh Xl Yl sl s e : (forall n A, only_linalg (np_cholesky n A)) -> (forall n m A B, only_linalg (np_solve n m A B)) ->
  snd (train o Xh Yh Xl Yl sl s) = Raise e -> e = LinAlgError \/ e = UnboundLocalError.
Proof. exact (hk_exn np_sum np_dot np_exp np_log np_pow10 np_cholesky np_solve bounds o Xh Yh Xl Yl sl s e). Qed.

(** With a factorisation that stops at a pivot that is not positive, training always raises if the standard deviation of
    the high-fidelity responses is zero (as for a single sample), NaN or infinite. *)
Theorem C130_high_raises o Xh Yh Xl Yl sl s : (forall l, dot_of l (np_dot l)) -> (forall n A, cholesky64 n A (np_cholesky n A)) ->
  (forall n m A B, only_linalg (np_solve n m A B)) -> solve_one np_solve -> Xh <> [] -> feq (std64 np_sum Yh) f0 = true \/ isfin (std64 np_sum Yh) = false ->
  exists e, snd (train o Xh Yh Xl Yl sl s) = Raise e /\ (e = LinAlgError \/ e = UnboundLocalError).
Proof. exact (fun H1 H2 H3 H4 HX H => hk_always np_sum np_dot np_exp np_log np_pow10 np_cholesky np_solve bounds H1 H2 H3 H4 o Xh Yh Xl Yl sl s HX (or_ind (fun A => or_introl (or_introl A)) (fun A => or_intror A) H)). Qed.
(** It raises as soon as the likelihood is evaluated, with the noise and the hyperparameters untouched, unless the standard
    deviation is zero and the noise is to be learned.  The low-fidelity model and the data are the new ones then. *)
Theorem C130_high_stops o Xh Yh Xl Yl sl s : (forall l, dot_of l (np_dot l)) -> (forall n A, cholesky64 n A (np_cholesky n A)) ->
  (forall n m A B, only_linalg (np_solve n m A B)) -> solve_one np_solve -> snd (train_low (h_lf o) Xl Yl sl) = Ok tt -> Xh <> [] ->
  match s with Lbfgs64 t => tr_queries (t 0%nat) <> [] | Evolution64 qs _ => qs <> [] end ->
  isfin (std64 np_sum Yh) = false \/ (exists v, h_noise o = Some v /\ (feq (std64 np_sum Yh) f0 = true \/ isfin v = false)) ->
  snd (train o Xh Yh Xl Yl sl s) = Raise LinAlgError /\
  exists F, fst (train o Xh Yh Xl Yl sl s) = put_hattr (put_hdata (put_hlf o (fst (train_low (h_lf o) Xl Yl sl))) (dataset Xh Yh)) af (length Xh) F.
Proof. exact (fun H1 H2 H3 H4 => hk_stops np_sum np_dot np_exp np_log np_pow10 np_cholesky np_solve bounds H1 H2 H3 H4 o Xh Yh Xl Yl sl s). Qed.
(** In that case PSO and DE leave a noise of zero, unless an exception came first, ... *)
Theorem C130_learned_zero o Xh Yh Xl Yl sl qs x : h_noise o = None -> isfin (sigma64 x) = true -> feq (std64 np_sum Yh) f0 = true ->
  let r := train o Xh Yh Xl Yl sl (Evolution64 qs x) in
  (h_noise (fst r) = None /\ exists e, snd r = Raise e) \/ (exists v, h_noise (fst r) = Some v /\ feq v f0 = true).
Proof. exact (hk_learned_zero np_sum np_dot np_exp np_log np_pow10 np_cholesky np_solve bounds o Xh Yh Xl Yl sl qs x). Qed.
(** ... and no noise that is there is ever learned again. *)
Theorem C130_kept o v Xh Yh Xl Yl sl s : h_noise o = Some v -> h_noise (fst (train o Xh Yh Xl Yl sl s)) = Some v.
Proof. exact (hk_keeps_noise np_sum np_dot np_exp np_log np_pow10 np_cholesky np_solve bounds o v Xh Yh Xl Yl sl s). Qed.

(** Whatever the factorisation does, and whether training raised or not, once the low-fidelity model has been trained:
    with a standard deviation of zero or NaN every mean predicted later is NaN and every standard deviation is NaN or the
    noise; with one that is not finite no mean is finite. *)
Theorem C130_after o Xh Yh Xl Yl sl s : (forall l, dot_of l (np_dot l)) -> snd (train_low (h_lf o) Xl Yl sl) = Ok tt -> let o' := fst (train o Xh Yh Xl Yl sl s) in
  (useless (std64 np_sum Yh) -> forall Xq ys, predict o' Xq = Ok ys -> Forall (eq fnan) ys) /\
  (useless (std64 np_sum Yh) -> forall Xq ys ss, predict_std o' Xq = Ok (ys, ss) ->
     exists noise, h_noise o' = Some noise /\ Forall (fun w => w = fnan \/ feq w (fsqrt (fmul noise noise)) = true) ss) /\
  (isfin (std64 np_sum Yh) = false -> forall Xq ys, predict o' Xq = Ok ys -> Forall (fun y => isfin y = false) ys).
Proof. exact (fun H => hk_after np_sum np_dot np_exp np_log np_pow10 np_cholesky np_solve bounds H o Xh Yh Xl Yl sl s). Qed.
(** The same of low-fidelity responses: if their standard deviation is not finite no mean predicted later is finite, also
    by a model that was trained before. *)
Theorem C130_low_after o Xh Yh Xl Yl sl s : (forall l, dot_of l (np_dot l)) -> isfin (std64 np_sum Yl) = false ->
  forall Xq ys, predict (fst (train o Xh Yh Xl Yl sl s)) Xq = Ok ys -> Forall (fun y => isfin y = false) ys.
Proof. exact (fun H => hk_low_after np_sum np_dot np_exp np_log np_pow10 np_cholesky np_solve bounds H o Xh Yh Xl Yl sl s). Qed.

(** Low-fidelity responses with a standard deviation of zero or NaN: training raises before anything of the high-fidelity
    part has changed. *)
Theorem C130_low_raises o Xh Yh Xl Yl sl s : (forall l, dot_of l (np_dot l)) -> (forall n A, cholesky64 n A (np_cholesky n A)) ->
  (forall n m A B, only_linalg (np_solve n m A B)) -> solve_one np_solve -> Xl <> [] -> useless (std64 np_sum Yl) ->
  exists e, train o Xh Yh Xl Yl sl s = (put_hlf o (fst (train_low (h_lf o) Xl Yl sl)), Raise e) /\ (e = LinAlgError \/ e = UnboundLocalError).
Proof. exact (fun H1 H2 H3 H4 => hk_low np_sum np_dot np_exp np_log np_pow10 np_cholesky np_solve bounds H1 H2 H3 H4 o Xh Yh Xl Yl sl s). Qed.
(** With PSO or DE it leaves a low-fidelity noise of zero or NaN, unless the search raised, ... *)
Theorem C130_low_learned o Xh Yh Xl Yl qs x s : g_noise (h_lf o) = None -> isfin (sigma64 x) = true ->
  (exists e, train o Xh Yh Xl Yl (Evolution64 qs x) s = (put_hlf o (put_data64 (h_lf o) (dataset Xl Yl)), Raise e)) \/
  (exists v, g_noise (h_lf (fst (train o Xh Yh Xl Yl (Evolution64 qs x) s))) = Some v /\
     (feq (std64 np_sum Yl) f0 = true -> feq v f0 = true) /\ (std64 np_sum Yl = fnan -> v = fnan)).
Proof. exact (hk_low_learned np_sum np_dot np_exp np_log np_pow10 np_cholesky np_solve bounds o Xh Yh Xl Yl qs x s). Qed.
(** ... and if it is not finite no training succeeds any more. *)
Theorem C130_low_ruined o v calls Xh Yh Xl Yl sl s : (forall l, dot_of l (np_dot l)) -> (forall n A, cholesky64 n A (np_cholesky n A)) ->
  (forall n m A B, only_linalg (np_solve n m A B)) -> solve_one np_solve -> g_noise (h_lf o) = Some v -> isfin v = false -> Xl <> [] ->
  exists e, snd (train (after calls o) Xh Yh Xl Yl sl s) = Raise e /\ (e = LinAlgError \/ e = UnboundLocalError).
Proof. exact (fun H1 H2 H3 H4 => hk_low_ruined np_sum np_dot np_exp np_log np_pow10 np_cholesky np_solve bounds H1 H2 H3 H4 o v calls Xh Yh Xl Yl sl s). Qed.
End C130.
Print Assumptions C130_exceptions.
Print Assumptions C130_high_raises.
Print Assumptions C130_high_stops.
Print Assumptions C130_learned_zero.
Print Assumptions C130_kept.
Print Assumptions C130_after.
Print Assumptions C130_low_after.
Print Assumptions C130_low_raises.
Print Assumptions C130_low_learned.
Print Assumptions C130_low_ruined.

(** The assumptions about NumPy can be met together: C127_contracts.  One high-fidelity sample and low-fidelity responses 0,
    0 and 2^600: the low-fidelity model is trained, no prediction is finite. *)
Example C130_example : let train := hk_train64 plain_sum plain_dot (fun x => x) (fun x => x) (fun x => x) (fun n A => Ok A) (fun n m A B => Ok B) [(f0, f1)] in
  let h := Hyper64 [f0] f1 in
  let o := hk_new64 (fun x => x) [(f0, f1)] (Some f0) 5%nat in
  let r := train o [[f0]] [fz 3] [[f0]; [f1]; [f1]] [f0; f0; huge] (Evolution64 [h] h) (Evolution64 [h] h) in
  snd (lf64_train plain_sum plain_dot (fun x => x) (fun x => x) (fun x => x) (fun n A => Ok A) (fun n m A B => Ok B) [(f0, f1)] (h_lf o) [[f0]; [f1]; [f1]] [f0; f0; huge] (Evolution64 [h] h)) = Ok tt /\
  snd r = Ok tt /\ forall Xq ys, hk_predict64 plain_sum plain_dot (fun x => x) [(f0, f1)] (fst r) Xq = Ok ys -> Forall (eq fnan) ys.
Proof.
  cbv zeta. split; [reflexivity|]. split; [reflexivity|].
  refine (proj1 (C130_after plain_sum plain_dot (fun x => x) (fun x => x) (fun x => x) (fun n A => Ok A) (fun n m A B => Ok B) [(f0, f1)] (hk_new64 (fun x => x) [(f0, f1)] (Some f0) 5%nat) [[f0]] [fz 3] [[f0]; [f1]; [f1]] [f0; f0; huge] (Evolution64 [Hyper64 [f0] f1] (Hyper64 [f0] f1)) (Evolution64 [Hyper64 [f0] f1] (Hyper64 [f0] f1)) plain_dot_ok eq_refl) _).
  left. exact (single_std plain_sum plain_sum_ok (fz 3) eq_refl).
Qed.
(** A NaN among the low-fidelity responses, with a noise to be learned: the low-fidelity noise is NaN afterwards. *)
Example C130_low_example : let train := hk_train64 plain_sum plain_dot (fun x => x) (fun x => x) (fun x => x) (fun n A => Ok A) (fun n m A B => Ok B) [(f0, f1)] in
  let h := Hyper64 [f0] f1 in
  g_noise (h_lf (fst (train (hk_new64 (fun x => x) [(f0, f1)] None 5%nat) [[f0]; [f1]] [f0; f1] [[f0]; [f1]] [f0; fnan] (Evolution64 [h] h) (Evolution64 [h] h)))) = Some fnan.
Proof.
  cbv zeta. destruct (C130_low_learned plain_sum plain_dot (fun x => x) (fun x => x) (fun x => x) (fun n A => Ok A) (fun n m A B => Ok B) [(f0, f1)]
    (hk_new64 (fun x => x) [(f0, f1)] None 5%nat) [[f0]; [f1]] [f0; f1] [[f0]; [f1]] [f0; fnan] [Hyper64 [f0] f1] (Hyper64 [f0] f1) (Evolution64 [Hyper64 [f0] f1] (Hyper64 [f0] f1)) eq_refl eq_refl) as [(e & H)|(v & H & _ & N)].
  - apply (f_equal (fun r => g_noise (h_lf (fst r)))) in H. discriminate H.
  - rewrite H. f_equal. apply N. rewrite (poison_std plain_sum plain_sum_ok [f0; fnan]); [reflexivity| |exists fnan; cbn; tauto]. cbn. Lra.lra.
Qed.
