(** C129: responses too far apart to be scaled in binary64 (Models: TrainFl.v, CKTrainFl.v; vocabulary: TrainFlSpec.v, WideFlSpec.v). *)
From Coq Require Import ZArith Bool List Reals.
From Verif Require Import Fl Spec NpList KernelFl CholFl OutputFl TrainFl TrainFlSpec WideFlSpec CKTrainFl.
From Verif Require Import KernelFlWit TrainFlFacts TrainFlWit CKTrainFlMain WideFl WideFlMain.
Import ListNotations.
Local Open Scope R_scope.

(** The standard deviation of finite responses is not finite if two of them differ by 2^513 or more ... *)
Theorem C129_spread np_sum Y : (forall l, sum_of l (np_sum l)) -> INR (length Y) <= 2 ^ 20 -> Forall (fun y => isfin y = true) Y ->
  (exists y1 y2, In y1 Y /\ In y2 Y /\ 2 ^ 513 <= Rabs (val y1 - val y2)) ->
  std64 np_sum Y = finf \/ (std64 np_sum Y = fnan /\ mean64 np_sum Y = fnan).
Proof. exact (fun H => wide_std np_sum H Y). Qed.
Print Assumptions C129_spread.
(** ... and infinite if none of them is above 2^980 in absolute value. *)
Theorem C129_infinite np_sum Y : (forall l, sum_of l (np_sum l)) -> INR (length Y) <= 2 ^ 20 -> Forall (fun y => isfin y = true /\ Rabs (val y) <= 2 ^ 980) Y ->
  (exists y1 y2, In y1 Y /\ In y2 Y /\ 2 ^ 513 <= Rabs (val y1 - val y2)) -> std64 np_sum Y = finf.
Proof. exact (fun H => wide_std_inf np_sum H Y). Qed.
Print Assumptions C129_infinite.

Section GaussianProcess.
Variables (np_sum : list b64 -> b64) (np_dot : list (b64 * b64) -> b64) (np_exp np_log np_pow10 : b64 -> b64).
Variable np_cholesky : nat -> array -> result array.
Variable np_solve : nat -> nat -> array -> array -> result array.
Variables (basis : row -> row) (p : nat).
Variable bounds : box.
Let train := train64 np_sum np_dot np_exp np_log np_pow10 np_cholesky np_solve basis p bounds.
Let predict := predict64 np_sum np_dot np_exp basis p bounds.
Let predict_std := predict_std64 np_sum np_dot np_exp np_solve basis p bounds.
Let new := new64 np_pow10 bounds.
Let dataset := dataset64 np_sum bounds.

(** After training on such responses, whether it raised or not and whatever model was there before, no predicted mean is
    finite, and no standard deviation is both finite and non-zero. *)
Theorem C129_after o X Y s : isfin (std64 np_sum Y) = false -> let o' := fst (train o X Y s) in
  (forall Xq ys, predict o' Xq = Ok ys -> Forall (fun y => isfin y = false) ys) /\
  (forall Xq ys ss, predict_std o' Xq = Ok (ys, ss) -> Forall (fun v => isfin v = false \/ feq v f0 = true) ss).
Proof. exact (after_wide np_sum np_dot np_exp np_log np_pow10 np_cholesky np_solve basis p bounds o X Y s). Qed.
(** With a given noise training does not notice: it returns or raises as with noise 0 and any well-behaved responses at the
    same samples ... *)
Theorem C129_unnoticed o v X Y Y0 s : solve_by_matrix np_solve -> g_noise o = Some v -> isfin v = true -> std64 np_sum Y = finf ->
  isfin (std64 np_sum Y0) = true -> feq (std64 np_sum Y0) f0 = false ->
  snd (train o X Y s) = snd (train (new (Some f0) (g_restart o)) X Y0 s).
Proof. exact (fun H => unnoticed np_sum np_dot np_exp np_log np_pow10 np_cholesky np_solve basis p bounds H o v X Y Y0 s). Qed.
(** ... and once it has returned, all predictions return too, without a finite number. *)
Theorem C129_silent o X Y s : isfin (std64 np_sum Y) = false -> snd (train o X Y s) = Ok tt ->
  forall Xq, exists ys, predict (fst (train o X Y s)) Xq = Ok ys /\ length ys = length Xq /\ Forall (fun y => isfin y = false) ys.
Proof. exact (silent_wide np_sum np_dot np_exp np_log np_pow10 np_cholesky np_solve basis p bounds o X Y s). Qed.
(** A noise to be learned: training always raises with a factorisation that stops at a pivot that is not positive, ... *)
Theorem C129_learned_raises o X Y s : (forall l, dot_of l (np_dot l)) -> (forall n A, cholesky64 n A (np_cholesky n A)) ->
  (forall n m A B, only_linalg (np_solve n m A B)) -> solve_one np_solve -> (forall x, nth 0 (basis x) f0 = f1) -> (0 < p)%nat ->
  g_noise o = None -> isfin (std64 np_sum Y) = false -> X <> [] ->
  exists e, snd (train o X Y s) = Raise e /\ (e = LinAlgError \/ e = UnboundLocalError).
Proof. exact (fun H1 H2 H3 H4 H5 H6 => learned_raises np_sum np_dot np_exp np_log np_pow10 np_cholesky np_solve basis p bounds H1 H2 H3 H4 H5 H6 o X Y s). Qed.
(** ... and unless the search itself raised, it leaves a noise that is not finite, ... *)
Theorem C129_learned_noise o X Y s : g_noise o = None -> isfin (std64 np_sum Y) = false ->
  (exists e, train o X Y s = (put_data64 o (dataset X Y), Raise e)) \/ (exists v, g_noise (fst (train o X Y s)) = Some v /\ isfin v = false).
Proof. exact (learned_wide np_sum np_dot np_exp np_log np_pow10 np_cholesky np_solve basis p bounds o X Y s). Qed.
(** ... with which no later training succeeds, whatever is tried before and whatever the responses are. *)
Theorem C129_learned_ruined o v calls X Y s : (forall l, dot_of l (np_dot l)) -> (forall n A, cholesky64 n A (np_cholesky n A)) ->
  (forall n m A B, only_linalg (np_solve n m A B)) -> solve_one np_solve -> (forall x, nth 0 (basis x) f0 = f1) -> (0 < p)%nat ->
  g_noise o = Some v -> isfin v = false -> X <> [] ->
  exists e, snd (train (fold_left (fun a c => fst (train a (fst (fst c)) (snd (fst c)) (snd c))) calls o) X Y s) = Raise e /\
    (e = LinAlgError \/ e = UnboundLocalError).
Proof. exact (fun H1 H2 H3 H4 H5 H6 => nonfin_forever np_sum np_dot np_exp np_log np_pow10 np_cholesky np_solve basis p bounds H1 H2 H3 H4 H5 H6 o v calls X Y s). Qed.
End GaussianProcess.
Print Assumptions C129_after.
Print Assumptions C129_unnoticed.
Print Assumptions C129_silent.
Print Assumptions C129_learned_raises.
Print Assumptions C129_learned_noise.
Print Assumptions C129_learned_ruined.

Section CoKriging.
Variables (np_sum : list b64 -> b64) (np_dot : list (b64 * b64) -> b64) (np_exp np_log np_pow10 : b64 -> b64).
Variable np_cholesky : nat -> array -> result array.
Variable np_solve : nat -> nat -> array -> array -> result array.
Variable bounds : box.
Let train := ck_train64 np_sum np_dot np_exp np_log np_pow10 np_cholesky np_solve bounds.
Let predict := ck_predict64 np_sum np_dot np_exp np_solve bounds.
Let predict_std := ck_predict_std64 np_sum np_dot np_exp np_solve bounds.
Let after := fold_left (ck_do64 np_sum np_dot np_exp np_log np_pow10 np_cholesky np_solve bounds).

(** Co-Kriging on such high-fidelity responses: no mean predicted later is finite. *)
Theorem C129_ck_after o Xh Yh Xl Yl sl s : isfin (std64 np_sum Yh) = false ->
  forall Xq ys, predict (fst (train o Xh Yh Xl Yl sl s)) Xq = Ok ys -> Forall (fun y => isfin y = false) ys.
Proof. exact (ck_after_wide np_sum np_dot np_exp np_log np_pow10 np_cholesky np_solve bounds o Xh Yh Xl Yl sl s). Qed.
(** A given noise becomes zero, in both models, whether training raises or not, ... *)
Theorem C129_ck_noise o v Xh Yh Xl Yl sl s : c_noise o = Some v -> isfin v = true -> std64 np_sum Yh = finf ->
  exists z, c_noise (fst (train o Xh Yh Xl Yl sl s)) = Some z /\ feq z f0 = true /\ g_noise (c_lf (fst (train o Xh Yh Xl Yl sl s))) = Some z.
Proof. exact (ck_noise_gone np_sum np_dot np_exp np_log np_pow10 np_cholesky np_solve bounds o v Xh Yh Xl Yl sl s). Qed.
(** ... and stays zero through all later trainings on well-behaved responses. *)
Theorem C129_ck_gone o calls z : c_noise o = Some z -> feq z f0 = true ->
  Forall (fun c => match c with CkTrain64 _ Yh _ _ _ _ => isfin (std64 np_sum Yh) = true /\ feq (std64 np_sum Yh) f0 = false | CkPredictStd64 _ => False end) calls ->
  exists z', c_noise (after calls o) = Some z' /\ feq z' f0 = true.
Proof. exact (ck_stays_gone np_sum np_dot np_exp np_log np_pow10 np_cholesky np_solve bounds o calls z). Qed.
(** Asking for standard deviations gives NaN and makes that noise NaN. *)
Theorem C129_ck_std o v Xh Yh Xl Yl sl s Xq ys ss o' : c_noise o = Some v -> isfin v = true -> std64 np_sum Yh = finf ->
  predict_std (fst (train o Xh Yh Xl Yl sl s)) Xq = (o', Ok (ys, ss)) -> Forall (eq fnan) ss /\ c_noise o' = Some fnan.
Proof. exact (ck_std_nan np_sum np_dot np_exp np_log np_pow10 np_cholesky np_solve bounds o v Xh Yh Xl Yl sl s Xq ys ss o'). Qed.
(** After that no training succeeds any more, given or learned noise alike. *)
Theorem C129_ck_ruined o Xh Yh Xl Yl sl s Xq ys ss o' calls : (forall l, dot_of l (np_dot l)) -> (forall n A, cholesky64 n A (np_cholesky n A)) ->
  (forall n m A B, only_linalg (np_solve n m A B)) -> solve_one np_solve -> isfin (std64 np_sum Yh) = false ->
  predict_std (fst (train o Xh Yh Xl Yl sl s)) Xq = (o', Ok (ys, ss)) -> forall Xh' Yh' Xl' Yl' sl' s', Xl' <> [] ->
  exists e, snd (train (after calls o') Xh' Yh' Xl' Yl' sl' s') = Raise e /\ (e = LinAlgError \/ e = UnboundLocalError).
Proof.
  exact (fun H1 H2 H3 H4 HF HP Xh' Yh' Xl' Yl' sl' s' =>
    ruined_forever np_sum np_dot np_exp np_log np_pow10 np_cholesky np_solve bounds H1 H2 H3 H4 o' calls Xh' Yh' Xl' Yl' sl' s'
      (ck_std_ruins np_sum np_dot np_exp np_log np_pow10 np_cholesky np_solve bounds o Xh Yh Xl Yl sl s Xq ys ss o' HF HP)).
Qed.
End CoKriging.
Print Assumptions C129_ck_after.
Print Assumptions C129_ck_noise.
Print Assumptions C129_ck_gone.
Print Assumptions C129_ck_std.
Print Assumptions C129_ck_ruined.

(** The assumptions about NumPy can be met together: C127_contracts, with a solver that never raises. *)
Example C129_contract : solve_by_matrix plain_solve.
Proof. intros n m A B B' e H. discriminate H. Qed.
(** Two ordinary responses and 2^600. *)
Example C129_spread_example : std64 plain_sum [f0; f0; huge] = finf.
Proof. exact (huge_wide plain_sum plain_sum_ok). Qed.
(** Training on them with noise 0 returns, and all predictions return without a finite number. *)
Example C129_silent_example : let train := train64 plain_sum plain_dot (fun x => x) (fun x => x) (fun x => x) (fun n A => Ok A) (fun n m A B => Ok B) (fun _ => [f1]) 1%nat [(f0, f1)] in
  let x := Hyper64 [f0] f1 in
  let r := train (new64 (fun x => x) [(f0, f1)] (Some f0) 5%nat) [[f0]; [f1]; [f1]] [f0; f0; huge] (Evolution64 [x] x) in
  snd r = Ok tt /\ forall Xq, exists ys, predict64 plain_sum plain_dot (fun x => x) (fun _ => [f1]) 1%nat [(f0, f1)] (fst r) Xq = Ok ys /\ length ys = length Xq /\ Forall (fun y => isfin y = false) ys.
Proof.
  cbv zeta. split; [reflexivity|]. intros Xq.
  apply (C129_silent plain_sum plain_dot (fun x => x) (fun x => x) (fun x => x) (fun n A => Ok A) (fun n m A B => Ok B) (fun _ => [f1]) 1%nat [(f0, f1)]); [|reflexivity].
  now rewrite C129_spread_example.
Qed.
(** Co-Kriging with noise 1: it is gone after training on them. *)
Example C129_ck_example : let train := ck_train64 plain_sum plain_dot (fun x => x) (fun x => x) (fun x => x) (fun n A => Ok A) (fun n m A B => Ok B) [(f0, f1)] in
  let h := Hyper64 [f0] f1 in let k := CkHyper64 f1 f1 [f0] in
  exists z, c_noise (fst (train (ck_new64 (fun x => x) [(f0, f1)] (Some f1) 5%nat) [[f0]; [f1]; [f1]] [f0; f0; huge] [[f0]; [f1]] [f0; f1] (Evolution64 [h] h) (CkEvolution64 [k] k))) = Some z /\ feq z f0 = true.
Proof.
  cbv zeta. destruct (C129_ck_noise plain_sum plain_dot (fun x => x) (fun x => x) (fun x => x) (fun n A => Ok A) (fun n m A B => Ok B) [(f0, f1)]
    (ck_new64 (fun x => x) [(f0, f1)] (Some f1) 5%nat) f1 [[f0]; [f1]; [f1]] [f0; f0; huge] [[f0]; [f1]] [f0; f1] (Evolution64 [Hyper64 [f0] f1] (Hyper64 [f0] f1)) (CkEvolution64 [CkHyper64 f1 f1 [f0]] (CkHyper64 f1 f1 [f0]))
    eq_refl eq_refl C129_spread_example) as (z & A & B & _). exists z. exact (conj A B).
Qed.
