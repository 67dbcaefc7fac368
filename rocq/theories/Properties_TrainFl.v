(** C127: training a Gaussian process on constant or non-finite responses, in binary64. *)
From Coq Require Import ZArith Bool List Reals.
From Verif Require Import Fl Spec NpList KernelFl CholFl OutputFl TrainFl TrainFlSpec.
From Verif Require Import KernelFlWit TrainFlFacts TrainFlMain TrainFlWit.
Import ListNotations.
Local Open Scope R_scope.

(** Which responses have a standard deviation of zero or NaN: those that all equal the computed mean, a single one,
    and all sets with a NaN or an infinity. *)
Theorem C127_flat np_sum Y : (forall l, sum_of l (np_sum l)) -> INR (length Y) <= 2 ^ 20 -> (0 < length Y)%nat ->
  isfin (mean64 np_sum Y) = true -> (forall y, In y Y -> isfin y = true /\ val y = val (mean64 np_sum Y)) ->
  feq (std64 np_sum Y) f0 = true.
Proof. exact (fun H => flat_std np_sum H Y). Qed.
Print Assumptions C127_flat.
Theorem C127_single np_sum y : (forall l, sum_of l (np_sum l)) -> isfin y = true -> feq (std64 np_sum [y]) f0 = true.
Proof. exact (fun H => single_std np_sum H y). Qed.
Print Assumptions C127_single.
Theorem C127_not_finite np_sum Y : (forall l, sum_of l (np_sum l)) -> INR (length Y) <= 2 ^ 20 -> (exists y, In y Y /\ isfin y = false) ->
  std64 np_sum Y = fnan.
Proof. exact (fun H => poison_std np_sum H Y). Qed.
Print Assumptions C127_not_finite.

Section C127.
Variables (np_sum : list b64 -> b64) (np_dot : list (b64 * b64) -> b64) (np_exp np_log np_pow10 : b64 -> b64).
Variable np_cholesky : nat -> array -> result array.
Variable np_solve : nat -> nat -> array -> array -> result array.
Variables (basis : row -> row) (p : nat).
Variable bounds : box.
Let train := train64 np_sum np_dot np_exp np_log np_pow10 np_cholesky np_solve basis p bounds.
Let objective := loglik64 np_sum np_dot np_exp np_log np_pow10 np_cholesky np_solve basis p.
Let predict := predict64 np_sum np_dot np_exp basis p bounds.
Let predict_std := predict_std64 np_sum np_dot np_exp np_solve basis p bounds.
Let new := new64 np_pow10 bounds.
Let dataset := dataset64 np_sum bounds.

(** With the default optimiser, training on responses that are scaled to NaN raises and changes nothing but the data,
    whatever the factorisation does with NaN.  A trial returns a point where it evaluated the objective, with its value. *)
Theorem C127_default_raises o X Y t : (forall l, dot_of l (np_dot l)) -> log_keeps np_log ->
  (forall n A, only_linalg (np_cholesky n A)) -> (forall n m A B, only_linalg (np_solve n m A B)) ->
  X <> [] -> Forall (eq fnan) (normalize_output64 np_sum Y) ->
  (forall i, In (tr_x (t i)) (tr_queries (t i)) /\ forall v, objective (g_noise o) (dataset X Y) (tr_x (t i)) = Ok v -> tr_fun (t i) = v) ->
  exists e, train o X Y (Lbfgs64 t) = (put_data64 o (dataset X Y), Raise e) /\ (e = LinAlgError \/ e = UnboundLocalError).
Proof. exact (fun H => default_raises np_sum np_dot np_exp np_log np_pow10 np_cholesky np_solve basis p bounds H o X Y t). Qed.

(** With any optimiser: if training returns, all means and standard deviations predicted later are NaN. *)
Theorem C127_trained o X Y s o' : (forall l, dot_of l (np_dot l)) -> solve_keeps np_solve -> (0 < p)%nat ->
  X <> [] -> length Y = length X -> useless (std64 np_sum Y) -> train o X Y s = (o', Ok tt) ->
  (forall Xq ys, predict o' Xq = Ok ys -> Forall (eq fnan) ys) /\
  (forall Xq ys ss, predict_std o' Xq = Ok (ys, ss) -> Forall (eq fnan) ys /\ Forall (eq fnan) ss).
Proof. exact (fun H => trained_useless np_sum np_dot np_exp np_log np_pow10 np_cholesky np_solve basis p bounds H o X Y s o'). Qed.
(** The means are also not finite if the standard deviation is something else but no scaled response is finite. *)
Theorem C127_trained_means o X Y s o' : (forall l, dot_of l (np_dot l)) -> solve_keeps np_solve -> (0 < p)%nat ->
  X <> [] -> length Y = length X -> Forall (fun y => isfin y = false) (normalize_output64 np_sum Y) -> train o X Y s = (o', Ok tt) ->
  forall Xq ys, predict o' Xq = Ok ys -> Forall (fun y => isfin y = false) ys.
Proof. exact (fun H => trained_means np_sum np_dot np_exp np_log np_pow10 np_cholesky np_solve basis p bounds H o X Y s o'). Qed.

(** Whether training raised or not, and whatever model was there before: a later prediction, if it returns, is NaN or
    the mean response at every point, and its standard deviation is NaN or the noise. *)
Theorem C127_after o X Y s : useless (std64 np_sum Y) -> let o' := fst (train o X Y s) in
  (forall Xq ys, predict o' Xq = Ok ys -> Forall (fun y => y = fnan \/ feq y (mean64 np_sum Y) = true) ys) /\
  (forall Xq ys ss, predict_std o' Xq = Ok (ys, ss) ->
     exists noise, g_noise o' = Some noise /\ Forall (fun v => v = fnan \/ feq v (fsqrt (fmul noise noise)) = true) ss).
Proof. exact (after_training np_sum np_dot np_exp np_log np_pow10 np_cholesky np_solve basis p bounds o X Y s). Qed.

(** With a factorisation that stops at a pivot that is not positive (NaN is not), training always raises. *)
Theorem C127_always_raises o X Y s : (forall l, dot_of l (np_dot l)) -> (forall n A, cholesky64 n A (np_cholesky n A)) ->
  (forall n m A B, only_linalg (np_solve n m A B)) -> solve_one np_solve ->
  (forall x, nth 0 (basis x) f0 = f1) -> (0 < p)%nat -> X <> [] -> useless (std64 np_sum Y) ->
  exists e, snd (train o X Y s) = Raise e /\ (e = LinAlgError \/ e = UnboundLocalError).
Proof. exact (fun H1 H2 H3 H4 H5 H6 => always_raises np_sum np_dot np_exp np_log np_pow10 np_cholesky np_solve basis p bounds H1 H2 H3 H4 H5 H6 o X Y s). Qed.
(** With a given noise only the data have changed then (the search evaluates at least one point). *)
Theorem C127_given_noise o v X Y s : (forall l, dot_of l (np_dot l)) -> (forall n A, cholesky64 n A (np_cholesky n A)) ->
  (forall n m A B, only_linalg (np_solve n m A B)) -> solve_one np_solve ->
  (forall x, nth 0 (basis x) f0 = f1) -> (0 < p)%nat -> g_noise o = Some v -> X <> [] -> useless (std64 np_sum Y) ->
  match s with Lbfgs64 t => tr_queries (t 0%nat) <> [] | Evolution64 qs _ => qs <> [] end ->
  train o X Y s = (put_data64 o (dataset X Y), Raise LinAlgError).
Proof. exact (fun H1 H2 H3 H4 H5 H6 => given_noise np_sum np_dot np_exp np_log np_pow10 np_cholesky np_solve basis p bounds H1 H2 H3 H4 H5 H6 o v X Y s). Qed.

(** With a noise to be learned and PSO or DE, a training whose search came to an end sets the noise: to zero if the
    standard deviation is zero, to NaN if it is NaN; also if it raises afterwards. *)
Theorem C127_learned_noise o X Y qs x : g_noise o = None -> isfin (sigma64 x) = true ->
  (exists e, train o X Y (Evolution64 qs x) = (put_data64 o (dataset X Y), Raise e)) \/
  (exists v, g_noise (fst (train o X Y (Evolution64 qs x))) = Some v /\
     (feq (std64 np_sum Y) f0 = true -> feq v f0 = true) /\ (std64 np_sum Y = fnan -> v = fnan)).
Proof. exact (learned_noise np_sum np_dot np_exp np_log np_pow10 np_cholesky np_solve basis p bounds o X Y qs x). Qed.
(** A noise that is there is never learned again. *)
Theorem C127_kept o X Y s v : g_noise o = Some v -> g_noise (fst (train o X Y s)) = Some v.
Proof. exact (keeps_noise np_sum np_dot np_exp np_log np_pow10 np_cholesky np_solve basis p bounds o X Y s v). Qed.
(** So later trainings are those of an object made with that noise: the same outcome and, on success, the same object. *)
Theorem C127_as_given o v X Y s : g_noise o = Some v -> let fresh := new (Some v) (g_restart o) in
  snd (train o X Y s) = snd (train fresh X Y s) /\
  (snd (train o X Y s) = Ok tt ->
   let a := fst (train o X Y s) in let b := fst (train fresh X Y s) in
   g_noise a = g_noise b /\ g_param a = g_param b /\ g_data a = g_data b /\ g_opt a = g_opt b /\ forall q, g_attr a q = g_attr b q).
Proof. exact (fun H => trained_alike np_sum np_dot np_exp np_log np_pow10 np_cholesky np_solve basis p bounds o (new (Some v) (g_restart o)) X Y s H eq_refl). Qed.
(** And once the noise is NaN no training succeeds any more, whatever is tried before ... *)
Theorem C127_poisoned o calls X Y s : (forall n A, cholesky64 n A (np_cholesky n A)) -> (forall n m A B, only_linalg (np_solve n m A B)) ->
  g_noise o = Some fnan -> X <> [] ->
  exists e, snd (train (fold_left (fun a c => fst (train a (fst (fst c)) (snd (fst c)) (snd c))) calls o) X Y s) = Raise e /\
    (e = LinAlgError \/ e = UnboundLocalError).
Proof. exact (fun H1 H2 H3 => poisoned np_sum np_dot np_exp np_log np_pow10 np_cholesky np_solve basis p bounds H1 H2 o calls H3 X Y s). Qed.
(** ... and every standard deviation is NaN, whatever the factorisation does. *)
Theorem C127_poisoned_std o Xq ys ss : g_noise o = Some fnan -> predict_std o Xq = Ok (ys, ss) -> Forall (eq fnan) ss.
Proof. exact (nan_noise np_sum np_dot np_exp np_solve basis p bounds o Xq ys ss). Qed.
End C127.
Print Assumptions C127_default_raises.
Print Assumptions C127_trained.
Print Assumptions C127_trained_means.
Print Assumptions C127_after.
Print Assumptions C127_always_raises.
Print Assumptions C127_given_noise.
Print Assumptions C127_learned_noise.
Print Assumptions C127_kept.
Print Assumptions C127_as_given.
Print Assumptions C127_poisoned.
Print Assumptions C127_poisoned_std.

(** The assumptions about NumPy can be met together. *)
Example C127_contracts : exists np_sum np_dot np_exp np_log np_cholesky np_solve,
  (forall l, sum_of l (np_sum l)) /\ (forall l, dot_of l (np_dot l)) /\ KernelFlSpec.exp_ok np_exp /\ log_keeps np_log /\
  (forall n A, cholesky64 n A (np_cholesky n A)) /\ (forall n m A B, only_linalg (np_solve n m A B)) /\
  solve_keeps np_solve /\ solve_one np_solve.
Proof.
  exists plain_sum, plain_dot, plain_exp, (fun x => x), (fun n A => plain_chol A n), plain_solve.
  exact (conj plain_sum_ok (conj plain_dot_ok (conj plain_exp_ok (conj eq_refl (conj plain_chol_ok (conj (fun n m A B => I) (conj plain_solve_keeps plain_solve_one))))))).
Qed.

(** One sample with a noise to be learned and a search that evaluates a point and returns it: training gets through
    the search, the noise becomes zero, and no later training learns it. *)
Example C127_example : let train := train64 plain_sum plain_dot (fun x => x) (fun x => x) (fun x => x) (fun n A => Ok A) (fun n m A B => Ok B) (fun _ => [f1]) 1%nat [(f0, f1)] in
  let x := Hyper64 [f0] f1 in
  let o := fst (train (new64 (fun x => x) [(f0, f1)] None 5%nat) [[f0]] [fz 3] (Evolution64 [x] x)) in
  exists v, g_noise o = Some v /\ feq v f0 = true.
Proof.
  cbv zeta. destruct (C127_learned_noise plain_sum plain_dot (fun x => x) (fun x => x) (fun x => x) (fun n A => Ok A) (fun n m A B => Ok B) (fun _ => [f1]) 1%nat [(f0, f1)]
    (new64 (fun x => x) [(f0, f1)] None 5%nat) [[f0]] [fz 3] [Hyper64 [f0] f1] (Hyper64 [f0] f1) eq_refl eq_refl) as [(e & H)|(v & H & Z & _)].
  - discriminate H.
  - exists v. split; [exact H|]. apply Z. exact (C127_single plain_sum (fz 3) plain_sum_ok eq_refl).
Qed.
(** responses with a NaN among them *)
Example C127_nan_example : useless (std64 plain_sum [f1; fnan; fz 3]).
Proof. right. rewrite (C127_not_finite plain_sum [f1; fnan; fz 3] plain_sum_ok); [reflexivity| |exists fnan; cbn; tauto]. cbn. Lra.lra. Qed.
