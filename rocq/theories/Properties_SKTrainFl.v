(** C131: training Scaled Kriging on constant, non-finite or overflowing responses, in binary64 (Model: SKTrainFl.v;
    vocabulary: TrainFlSpec.v).  Which responses have a standard deviation of zero or NaN, or an infinite one: C127_flat,
    C127_single, C127_not_finite, C129_spread, C129_infinite. *)
From Coq Require Import ZArith Bool List Reals.
From Verif Require Import Fl Spec NpList KernelFl CholFl OutputFl TrainFl TrainFlSpec CKTrainFl HKTrainFl SKTrainFl.
From Verif Require Import KernelFlWit TrainFlWit WideFl SKTrainFlMain.
Import ListNotations.
Local Open Scope R_scope.

Section C131.
Variables (np_sum : list b64 -> b64) (np_dot : list (b64 * b64) -> b64) (np_exp np_log np_pow10 : b64 -> b64).
Variable np_cholesky : nat -> array -> result array.
Variable np_solve : nat -> nat -> array -> array -> result array.
Variable bounds : box.
Let train := sk_train64 np_sum np_dot np_exp np_log np_pow10 np_cholesky np_solve bounds.
Let predict := sk_predict64 np_sum np_dot np_exp bounds.
Let train_gp := lf64_train np_sum np_dot np_exp np_log np_pow10 np_cholesky np_solve bounds.
Let predict_gp := lf64_predict np_sum np_dot np_exp bounds.
Let after calls o := fold_left (fun a c => match c with (Xh, Yh, Xl, Yl, sl, sr, sd) => fst (train a Xh Yh Xl Yl sl sr sd) end) calls o.

(** Training on any responses, with any way to choose rho, returns or raises one of two exceptions. *)
Theorem C131_exceptions o Xh Yh Xl Yl sl sr sd e : (forall n A, only_linalg (np_cholesky n A)) -> (forall n m A B, only_linalg (np_solve n m A B)) ->
  snd (train o Xh Yh Xl Yl sl sr sd) = Raise e -> e = LinAlgError \/ e = UnboundLocalError.
Proof. exact (sk_exn np_sum np_dot np_exp np_log np_pow10 np_cholesky np_solve bounds o Xh Yh Xl Yl sl sr sd e). Qed.

(** With a factorisation that stops at a pivot that is not positive: training with a single high-fidelity sample always
    raises, ... *)
Theorem C131_single o x y Xl Yl sl sr sd : (forall l, sum_of l (np_sum l)) -> (forall l, dot_of l (np_dot l)) -> (forall n A, cholesky64 n A (np_cholesky n A)) ->
  (forall n m A B, only_linalg (np_solve n m A B)) -> solve_one np_solve ->
  exists e, snd (train o [x] [y] Xl Yl sl sr sd) = Raise e /\ (e = LinAlgError \/ e = UnboundLocalError).
Proof. exact (fun H1 H2 H3 H4 H5 => sk_single np_sum np_dot np_exp np_log np_pow10 np_cholesky np_solve bounds H1 H2 H3 H4 H5 o x y Xl Yl sl sr sd). Qed.
(** ... with a NaN or an infinity among the high-fidelity responses, or low-fidelity responses whose standard deviation is
    not finite, it always raises, ... *)
Theorem C131_not_finite o Xh Yh Xl Yl sl sr sd : (forall l, sum_of l (np_sum l)) -> (forall l, dot_of l (np_dot l)) -> (forall n A, cholesky64 n A (np_cholesky n A)) ->
  (forall n m A B, only_linalg (np_solve n m A B)) -> solve_one np_solve -> Xh <> [] -> length Yh = length Xh -> INR (length Xh) <= 2 ^ 20 ->
  (exists y, In y Yh /\ isfin y = false) \/ isfin (std64 np_sum Yl) = false ->
  exists e, snd (train o Xh Yh Xl Yl sl sr sd) = Raise e /\ (e = LinAlgError \/ e = UnboundLocalError).
Proof. exact (fun H1 H2 H3 H4 H5 => sk_not_finite np_sum np_dot np_exp np_log np_pow10 np_cholesky np_solve bounds H1 H2 H3 H4 H5 o Xh Yh Xl Yl sl sr sd). Qed.
(** ... and so it does if rho times the low-fidelity prediction is the response at every high-fidelity sample: two levels
    that agree are an error. *)
Theorem C131_agree o Xh Yh Xl Yl sl sr sd v : (forall l, sum_of l (np_sum l)) -> (forall l, dot_of l (np_dot l)) -> (forall n A, cholesky64 n A (np_cholesky n A)) ->
  (forall n m A B, only_linalg (np_solve n m A B)) -> solve_one np_solve -> Xh <> [] -> length Yh = length Xh -> INR (length Xh) <= 2 ^ 20 ->
  predict_gp (fst (train_gp (s_lf o) Xl Yl sl)) Xh = Ok v ->
  (forall y w, In (y, w) (combine Yh v) -> isfin y = true /\ feq y (fmul (s_rho (fst (train o Xh Yh Xl Yl sl sr sd))) w) = true) ->
  exists e, snd (train o Xh Yh Xl Yl sl sr sd) = Raise e /\ (e = LinAlgError \/ e = UnboundLocalError).
Proof. exact (fun H1 H2 H3 H4 H5 => sk_agree np_sum np_dot np_exp np_log np_pow10 np_cholesky np_solve bounds H1 H2 H3 H4 H5 o Xh Yh Xl Yl sl sr sd v). Qed.
(** More generally if all discrepancies equal their computed mean. *)
Theorem C131_flat o Xh Yh Xl Yl sl sr sd v : (forall l, sum_of l (np_sum l)) -> (forall l, dot_of l (np_dot l)) -> (forall n A, cholesky64 n A (np_cholesky n A)) ->
  (forall n m A B, only_linalg (np_solve n m A B)) -> solve_one np_solve -> Xh <> [] -> length Yh = length Xh -> INR (length Xh) <= 2 ^ 20 ->
  predict_gp (fst (train_gp (s_lf o) Xl Yl sl)) Xh = Ok v ->
  let rho := s_rho (fst (train o Xh Yh Xl Yl sl sr sd)) in
  let D := map (fun q => fsub (fst q) (fmul rho (snd q))) (combine Yh v) in
  isfin (mean64 np_sum D) = true -> (forall y, In y D -> isfin y = true /\ val y = val (mean64 np_sum D)) ->
  exists e, snd (train o Xh Yh Xl Yl sl sr sd) = Raise e /\ (e = LinAlgError \/ e = UnboundLocalError).
Proof. exact (fun H1 H2 H3 H4 H5 => sk_flat np_sum np_dot np_exp np_log np_pow10 np_cholesky np_solve bounds H1 H2 H3 H4 H5 o Xh Yh Xl Yl sl sr sd v). Qed.
(** Low-fidelity responses with a standard deviation of zero or NaN: it raises before the discrepancy model, rho or the
    noise have changed. *)
Theorem C131_low o Xh Yh Xl Yl sl sr sd : (forall l, dot_of l (np_dot l)) -> (forall n A, cholesky64 n A (np_cholesky n A)) ->
  (forall n m A B, only_linalg (np_solve n m A B)) -> solve_one np_solve -> Xl <> [] -> useless (std64 np_sum Yl) ->
  exists e, train o Xh Yh Xl Yl sl sr sd = (Sk64 (fst (train_gp (s_lf o) Xl Yl sl)) (s_disc o) (s_rho o) (s_noise o), Raise e) /\ (e = LinAlgError \/ e = UnboundLocalError).
Proof. exact (fun H1 H2 H3 H4 => sk_low np_sum np_dot np_exp np_log np_pow10 np_cholesky np_solve bounds H1 H2 H3 H4 o Xh Yh Xl Yl sl sr sd). Qed.

(** Whatever the factorisation does and whether training raised or not: after high-fidelity responses with a NaN or an
    infinity no mean predicted later is finite, once the low-fidelity model has been trained and for a known rho_method; ... *)
Theorem C131_high_after o Xh Yh Xl Yl sl sr sd : (forall l, sum_of l (np_sum l)) -> snd (train_gp (s_lf o) Xl Yl sl) = Ok tt -> sr <> RhoOther64 ->
  length Yh = length Xh -> INR (length Xh) <= 2 ^ 20 -> (exists y, In y Yh /\ isfin y = false) ->
  forall Xq ys, predict (fst (train o Xh Yh Xl Yl sl sr sd)) Xq = Ok ys -> Forall (fun y => isfin y = false) ys.
Proof. exact (fun H => sk_high_after np_sum np_dot np_exp np_log np_pow10 np_cholesky np_solve bounds H o Xh Yh Xl Yl sl sr sd). Qed.
(** ... after low-fidelity responses whose standard deviation is not finite none is, also by a model that was trained before. *)
Theorem C131_low_after o Xh Yh Xl Yl sl sr sd : isfin (std64 np_sum Yl) = false ->
  forall Xq ys, predict (fst (train o Xh Yh Xl Yl sl sr sd)) Xq = Ok ys -> Forall (fun y => isfin y = false) ys.
Proof. exact (sk_low_after np_sum np_dot np_exp np_log np_pow10 np_cholesky np_solve bounds o Xh Yh Xl Yl sl sr sd). Qed.

(** A noise to be learned from discrepancies with a NaN or an infinity becomes NaN, unless the search raised, ... *)
Theorem C131_learned o Xh Yh Xl Yl sl sr qs x : (forall l, sum_of l (np_sum l)) -> g_noise (s_disc o) = None -> isfin (sigma64 x) = true ->
  snd (train_gp (s_lf o) Xl Yl sl) = Ok tt -> match sr with RhoFixed64 | RhoError64 _ => True | _ => False end ->
  length Yh = length Xh -> INR (length Xh) <= 2 ^ 20 -> (exists y, In y Yh /\ isfin y = false) ->
  let r := train o Xh Yh Xl Yl sl sr (Evolution64 qs x) in
  (g_noise (s_disc (fst r)) = None /\ exists e, snd r = Raise e) \/ g_noise (s_disc (fst r)) = Some fnan.
Proof. exact (fun H => sk_learned np_sum np_dot np_exp np_log np_pow10 np_cholesky np_solve bounds H o Xh Yh Xl Yl sl sr qs x). Qed.
(** ... no training changes a noise of the two models, ... *)
Theorem C131_kept o Xh Yh Xl Yl sl sr sd : let o' := fst (train o Xh Yh Xl Yl sl sr sd) in
  (forall v, g_noise (s_lf o) = Some v -> g_noise (s_lf o') = Some v) /\ (forall v, g_noise (s_disc o) = Some v -> g_noise (s_disc o') = Some v).
Proof. exact (proj2 (sk_keeps np_sum np_dot np_exp np_log np_pow10 np_cholesky np_solve bounds o Xh Yh Xl Yl sl sr sd)). Qed.
(** ... and when one of them is not finite no training succeeds any more. *)
Theorem C131_ruined o calls Xh Yh Xl Yl sl sr sd : (forall l, dot_of l (np_dot l)) -> (forall n A, cholesky64 n A (np_cholesky n A)) ->
  (forall n m A B, only_linalg (np_solve n m A B)) -> solve_one np_solve ->
  (exists v, g_noise (s_lf o) = Some v /\ isfin v = false) \/ (exists v, g_noise (s_disc o) = Some v /\ isfin v = false) -> Xh <> [] -> Xl <> [] ->
  exists e, snd (train (after calls o) Xh Yh Xl Yl sl sr sd) = Raise e /\ (e = LinAlgError \/ e = UnboundLocalError).
Proof. exact (fun H2 H3 H4 H5 => sk_forever np_sum np_dot np_exp np_log np_pow10 np_cholesky np_solve bounds H2 H3 H4 H5 o calls Xh Yh Xl Yl sl sr sd). Qed.
End C131.
Print Assumptions C131_exceptions.
Print Assumptions C131_single.
Print Assumptions C131_not_finite.
Print Assumptions C131_agree.
Print Assumptions C131_flat.
Print Assumptions C131_low.
Print Assumptions C131_high_after.
Print Assumptions C131_low_after.
Print Assumptions C131_learned.
Print Assumptions C131_kept.
Print Assumptions C131_ruined.

(** The assumptions about NumPy can be met together: C127_contracts.  With these functions, two low-fidelity responses, and
    as high-fidelity responses what the low-fidelity model predicts at the same two samples: rho is 1, the levels agree
    and training raises. *)
Example C131_agree_example : let np_cholesky := fun n A => plain_chol A n in
  let train := sk_train64 plain_sum plain_dot (fun _ => f0) (fun x => x) (fun x => x) np_cholesky plain_solve [(f0, f1)] in
  let o := sk_new64 (fun x => x) [(f0, f1)] (Some f1) 5%nat in
  let h := Evolution64 [Hyper64 [f0] f1] (Hyper64 [f0] f1) in
  exists v, lf64_predict plain_sum plain_dot (fun _ => f0) [(f0, f1)]
      (fst (lf64_train plain_sum plain_dot (fun _ => f0) (fun x => x) (fun x => x) np_cholesky plain_solve [(f0, f1)] (s_lf o) [[f0]; [f1]] [fopp f1; f1] h)) [[f0]; [f1]] = Ok v /\
    exists e, snd (train o [[f0]; [f1]] v [[f0]; [f1]] [fopp f1; f1] h RhoFixed64 h) = Raise e.
Proof.
  cbv zeta. set (np_cholesky := fun n A => plain_chol A n). set (h := Evolution64 [Hyper64 [f0] f1] (Hyper64 [f0] f1)).
  set (o := sk_new64 (fun x => x) [(f0, f1)] (Some f1) 5%nat).
  set (lf := fst (lf64_train plain_sum plain_dot (fun _ => f0) (fun x => x) (fun x => x) np_cholesky plain_solve [(f0, f1)] (s_lf o) [[f0]; [f1]] [fopp f1; f1] h)).
  set (u := lf64_predict plain_sum plain_dot (fun _ => f0) [(f0, f1)] lf [[f0]; [f1]]).
  set (v := match u with Ok w => w | Raise _ => [] end).
  assert (U : u = Ok v). { assert (Q : match u with Ok _ => true | Raise _ => false end = true) by reflexivity. unfold v. destruct u; [reflexivity|discriminate Q]. }
  exists v. split; [exact U|].
  assert (L : Nat.eqb (length v) 2 = true) by reflexivity. apply Nat.eqb_eq in L.
  assert (C : forallb (fun q => isfin (fst q) && feq (fst q) (fmul f1 (snd q))) (combine v v) = true) by reflexivity.
  rewrite forallb_forall in C.
  destruct (C131_agree plain_sum plain_dot (fun _ => f0) (fun x => x) (fun x => x) np_cholesky plain_solve [(f0, f1)] o [[f0]; [f1]] v [[f0]; [f1]] [fopp f1; f1] h RhoFixed64 h v
    plain_sum_ok plain_dot_ok plain_chol_ok (fun n m A B => I) plain_solve_one) as (e & E & _); [discriminate|exact L|cbn; Lra.lra|exact U| |exists e; exact E].
  intros y w J. assert (R : s_rho (fst (sk_train64 plain_sum plain_dot (fun _ => f0) (fun x => x) (fun x => x) np_cholesky plain_solve [(f0, f1)] o [[f0]; [f1]] v [[f0]; [f1]] [fopp f1; f1] h RhoFixed64 h)) = f1).
  { exact (sk_fixed plain_sum plain_dot (fun _ => f0) (fun x => x) (fun x => x) np_cholesky plain_solve [(f0, f1)] o [[f0]; [f1]] v [[f0]; [f1]] [fopp f1; f1] h h). }
  rewrite R. specialize (C (y, w) J). apply andb_prop in C. exact C.
Qed.
(** An infinity among the high-fidelity responses, with a noise to be learned: the noise of the discrepancy model is NaN
    afterwards. *)
Example C131_learned_example : let train := sk_train64 plain_sum plain_dot (fun x => x) (fun x => x) (fun x => x) (fun n A => Ok A) (fun n m A B => Ok B) [(f0, f1)] in
  let h := Evolution64 [Hyper64 [f0] f1] (Hyper64 [f0] f1) in
  g_noise (s_disc (fst (train (sk_new64 (fun x => x) [(f0, f1)] None 5%nat) [[f0]; [f1]] [f0; finf] [[f0]; [f1]] [f0; f1] h RhoFixed64 h))) = Some fnan.
Proof.
  cbv zeta. destruct (C131_learned plain_sum plain_dot (fun x => x) (fun x => x) (fun x => x) (fun n A => Ok A) (fun n m A B => Ok B) [(f0, f1)]
    (sk_new64 (fun x => x) [(f0, f1)] None 5%nat) [[f0]; [f1]] [f0; finf] [[f0]; [f1]] [f0; f1] (Evolution64 [Hyper64 [f0] f1] (Hyper64 [f0] f1)) RhoFixed64 [Hyper64 [f0] f1] (Hyper64 [f0] f1)
    plain_sum_ok eq_refl eq_refl eq_refl I eq_refl) as [(_ & e & H)|H]; [cbn; Lra.lra|exists finf; cbn; tauto|discriminate H|exact H].
Qed.
