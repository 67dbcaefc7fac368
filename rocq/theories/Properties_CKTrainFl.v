(** C128: training Co-Kriging on constant or non-finite responses, in binary64. *)
From Coq Require Import ZArith Bool List Reals.
From Verif Require Import Fl Spec NpList KernelFl CholFl OutputFl TrainFl TrainFlSpec CKTrainFl.
From Verif Require Import KernelFlWit TrainFlFacts TrainFlMain TrainFlWit CKTrainFlMain.
Import ListNotations.

Section C128.
Variables (np_sum : list b64 -> b64) (np_dot : list (b64 * b64) -> b64) (np_exp np_log np_pow10 : b64 -> b64).
Variable np_cholesky : nat -> array -> result array.
Variable np_solve : nat -> nat -> array -> array -> result array.
Variable bounds : box.
Let train := ck_train64 np_sum np_dot np_exp np_log np_pow10 np_cholesky np_solve bounds.
Let predict := ck_predict64 np_sum np_dot np_exp np_solve bounds.
Let predict_std := ck_predict_std64 np_sum np_dot np_exp np_solve bounds.
Let after := fold_left (ck_do64 np_sum np_dot np_exp np_log np_pow10 np_cholesky np_solve bounds).
Let dataset := ck_dataset64 np_sum bounds.

(** The noise of both models is divided by the standard deviation of the high-fidelity responses, whatever training does then. *)
Theorem C128_noise o v Xh Yh Xl Yl sl s : c_noise o = Some v -> let o' := fst (train o Xh Yh Xl Yl sl s) in
  c_noise o' = Some (fdiv v (std64 np_sum Yh)) /\ g_noise (c_lf o') = Some (fdiv v (std64 np_sum Yh)).
Proof. exact (train_noise np_sum np_dot np_exp np_log np_pow10 np_cholesky np_solve bounds o v Xh Yh Xl Yl sl s). Qed.

(** Training raises nothing but LinAlgError and UnboundLocalError, whatever the responses are. *)
Theorem C128_exceptions o Xh Yh Xl Yl sl s e : (forall n A, only_linalg (np_cholesky n A)) -> (forall n m A B, only_linalg (np_solve n m A B)) ->
  snd (train o Xh Yh Xl Yl sl s) = Raise e -> e = LinAlgError \/ e = UnboundLocalError.
Proof. exact (train_exn np_sum np_dot np_exp np_log np_pow10 np_cholesky np_solve bounds o Xh Yh Xl Yl sl s e). Qed.

(** With a factorisation that stops at a pivot that is not positive (NaN is not), training raises if the standard deviation
    of the high-fidelity responses is zero or NaN, and if one low-fidelity response is not finite. *)
Theorem C128_always_raises o Xh Yh Xl Yl sl s : (forall l, dot_of l (np_dot l)) -> (forall n A, cholesky64 n A (np_cholesky n A)) ->
  (forall n m A B, only_linalg (np_solve n m A B)) -> Xh <> [] -> Xl <> [] -> length Yl = length Xl ->
  useless (std64 np_sum Yh) \/ (exists y, In y Yl /\ isfin y = false) ->
  exists e, snd (train o Xh Yh Xl Yl sl s) = Raise e /\ (e = LinAlgError \/ e = UnboundLocalError).
Proof. exact (fun H1 H2 H3 => always_raises np_sum np_dot np_exp np_log np_pow10 np_cholesky np_solve bounds H1 H2 H3 o Xh Yh Xl Yl sl s). Qed.

(** With any factorisation: if training on such high-fidelity responses returns, all means predicted later are NaN. *)
Theorem C128_trained o Xh Yh Xl Yl sl s : (forall l, dot_of l (np_dot l)) -> (forall n A, only_linalg (np_cholesky n A)) ->
  (forall n m A B, only_linalg (np_solve n m A B)) -> solve_keeps np_solve ->
  useless (std64 np_sum Yh) -> Xh <> [] -> length Yh = length Xh -> length Yl = length Xl -> snd (train o Xh Yh Xl Yl sl s) = Ok tt ->
  forall Xq ys, predict (fst (train o Xh Yh Xl Yl sl s)) Xq = Ok ys -> Forall (eq fnan) ys.
Proof. exact (fun H => trained_useless np_sum np_dot np_exp np_log np_pow10 np_cholesky np_solve bounds H o Xh Yh Xl Yl sl s). Qed.

(** Whether training raised or not, and whatever model was there before: a later prediction, if it returns, is NaN or the
    mean high-fidelity response at every point, and its standard deviation is NaN or zero, whatever the noise. *)
Theorem C128_after o Xh Yh Xl Yl sl s : useless (std64 np_sum Yh) -> let o' := fst (train o Xh Yh Xl Yl sl s) in
  (forall Xq ys, predict o' Xq = Ok ys -> Forall (fun y => y = fnan \/ feq y (mean64 np_sum Yh) = true) ys) /\
  (forall Xq ys ss o'', predict_std o' Xq = (o'', Ok (ys, ss)) -> Forall (fun v => v = fnan \/ feq v f0 = true) ss).
Proof. exact (after_training np_sum np_dot np_exp np_log np_pow10 np_cholesky np_solve bounds o Xh Yh Xl Yl sl s). Qed.
(** If there was a noise, given or learned, the standard deviations are NaN, and so is the noise after asking for them. *)
Theorem C128_after_std o v Xh Yh Xl Yl sl s : useless (std64 np_sum Yh) -> c_noise o = Some v -> let o' := fst (train o Xh Yh Xl Yl sl s) in
  forall Xq ys ss o'', predict_std o' Xq = (o'', Ok (ys, ss)) -> Forall (eq fnan) ss /\ c_noise o'' = Some fnan.
Proof. exact (after_std np_sum np_dot np_exp np_log np_pow10 np_cholesky np_solve bounds o v Xh Yh Xl Yl sl s). Qed.

(** The object after such a training: the new data, and a noise that is not finite in both models; nothing else has changed
    (the low-fidelity search evaluates at least one point). *)
Theorem C128_stops o v Xh Yh Xl Yl sl s : (forall l, dot_of l (np_dot l)) -> (forall n A, cholesky64 n A (np_cholesky n A)) ->
  (forall n m A B, only_linalg (np_solve n m A B)) -> solve_one np_solve ->
  c_noise o = Some v -> useless (std64 np_sum Yh) -> Xl <> [] ->
  match sl with Lbfgs64 t => tr_queries (t 0%nat) <> [] | Evolution64 qs _ => qs <> [] end ->
  let d := dataset Xh Yh Xl Yl in
  exists z, isfin z = false /\ train o Xh Yh Xl Yl sl s =
    (put_clf (put_cnoise (put_cdata o d) z) (put_data64 (put_noise64 (c_lf o) z) (Data64 (k_xl_scaled d) (k_xl_scaled d) (k_yl_scaled d) (k_yl_scaled d))), Raise LinAlgError).
Proof. exact (fun H1 H2 H3 H4 => stops np_sum np_dot np_exp np_log np_pow10 np_cholesky np_solve bounds H1 H2 H3 H4 o v Xh Yh Xl Yl sl s). Qed.
(** From then on the object cannot be trained: after any calls of train and predict, every training raises, whatever the
    samples, the responses and the optimisers are. *)
Theorem C128_ruined o v Xh Yh Xl Yl sl s calls : (forall l, dot_of l (np_dot l)) -> (forall n A, cholesky64 n A (np_cholesky n A)) ->
  (forall n m A B, only_linalg (np_solve n m A B)) -> solve_one np_solve ->
  c_noise o = Some v -> useless (std64 np_sum Yh) -> forall Xh' Yh' Xl' Yl' sl' s', Xl' <> [] ->
  exists e, snd (train (after calls (fst (train o Xh Yh Xl Yl sl s))) Xh' Yh' Xl' Yl' sl' s') = Raise e /\ (e = LinAlgError \/ e = UnboundLocalError).
Proof.
  exact (fun H1 H2 H3 H4 Hv HU Xh' Yh' Xl' Yl' sl' s' HX =>
    ruined_forever np_sum np_dot np_exp np_log np_pow10 np_cholesky np_solve bounds H1 H2 H3 H4 _ calls Xh' Yh' Xl' Yl' sl' s'
      (useless_ruins np_sum np_dot np_exp np_log np_pow10 np_cholesky np_solve bounds o v Xh Yh Xl Yl sl s Hv HU) HX).
Qed.
End C128.
Print Assumptions C128_noise.
Print Assumptions C128_exceptions.
Print Assumptions C128_always_raises.
Print Assumptions C128_trained.
Print Assumptions C128_after.
Print Assumptions C128_after_std.
Print Assumptions C128_stops.
Print Assumptions C128_ruined.

(** One high-fidelity sample and noise 0 are enough: the noise is NaN afterwards. *)
Theorem C128_single np_sum np_dot np_exp np_log np_pow10 np_cholesky np_solve bounds restart x y Xl Yl sl s :
  (forall l, sum_of l (np_sum l)) -> isfin y = true ->
  c_noise (fst (ck_train64 np_sum np_dot np_exp np_log np_pow10 np_cholesky np_solve bounds (ck_new64 np_pow10 bounds (Some f0) restart) [x] [y] Xl Yl sl s)) = Some fnan.
Proof. exact (fun H F => single_noise np_sum np_dot np_exp np_log np_pow10 np_cholesky np_solve bounds H restart x y Xl Yl sl s F). Qed.
Print Assumptions C128_single.

(** The assumptions about NumPy can be met together (C127_contracts).  With them: a new object with noise 0, one
    high-fidelity and two low-fidelity samples. *)
Example C128_example : let train := ck_train64 plain_sum plain_dot plain_exp (fun x => x) (fun x => x) (fun n A => plain_chol A n) plain_solve [(f0, f1)] in
  let h := Hyper64 [f0] f1 in let k := CkHyper64 f1 f1 [f0] in
  let once o Yh := train o [[f0]] Yh [[f0]; [f1]] [f0; f1] (Evolution64 [h] h) (CkEvolution64 [k] k) in
  let o := fst (once (ck_new64 (fun x => x) [(f0, f1)] (Some f0) 5%nat) [fz 3]) in
  c_noise o = Some fnan /\
  forall Xh Yh sl s, exists e, snd (train o Xh Yh [[f0]; [f1]] [f0; f1] sl s) = Raise e /\ (e = LinAlgError \/ e = UnboundLocalError).
Proof.
  cbv zeta. split; [exact (C128_single plain_sum plain_dot plain_exp _ _ _ plain_solve _ _ [f0] (fz 3) _ _ _ _ plain_sum_ok eq_refl)|].
  intros Xh Yh sl s.
  apply (C128_ruined plain_sum plain_dot plain_exp (fun x => x) (fun x => x) (fun n A => plain_chol A n) plain_solve [(f0, f1)] (ck_new64 (fun x => x) [(f0, f1)] (Some f0) 5%nat) f0 [[f0]] [fz 3] _ _ _ _ []
    plain_dot_ok plain_chol_ok (fun n m A B => I) plain_solve_one eq_refl); [left; exact (single_std plain_sum plain_sum_ok (fz 3) eq_refl)|discriminate].
Qed.
(** A noise to be learned, and an infinite low-fidelity response. *)
Example C128_low_example : let train := ck_train64 plain_sum plain_dot plain_exp (fun x => x) (fun x => x) (fun n A => plain_chol A n) plain_solve [(f0, f1)] in
  forall sl s, exists e, snd (train (ck_new64 (fun x => x) [(f0, f1)] None 5%nat) [[f0]; [f1]] [f0; f1] [[f0]; [f1]] [f1; finf] sl s) = Raise e /\ (e = LinAlgError \/ e = UnboundLocalError).
Proof.
  intros train sl s. apply (C128_always_raises plain_sum plain_dot plain_exp (fun x => x) (fun x => x) (fun n A => plain_chol A n) plain_solve [(f0, f1)] _ _ _ _ _ _ _
    plain_dot_ok plain_chol_ok (fun n m A B => I)); try discriminate; [reflexivity|]. right. exists finf. split; [right; now left|reflexivity].
Qed.
