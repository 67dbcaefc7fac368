(** Vocabulary of the statements about hyper-parameter searches. *)
From Coq Require Import Reals.
From Verif Require Import Fl Spec.
From mathcomp Require Import all_ssreflect all_algebra.
From Verif Require Import RStruct Kernel GP.
Set Implicit Arguments.
Unset Strict Implicit.
Unset Printing Implicit Defensive.
Import GRing.Theory.
Local Open Scope ring_scope.

(** trial [i] is the first with the smallest value, and that value is below +inf *)
Definition first_best {A} (t0 : A * b64) (ts : seq (A * b64)) (i : nat) : Prop :=
  (i < size ts)%N /\ flt (nth t0 ts i).2 finf = true /\
  (forall j, (j < size ts)%N -> flt (nth t0 ts j).2 (nth t0 ts i).2 = false) /\
  (forall j, (j < i)%N -> fle (nth t0 ts j).2 (nth t0 ts i).2 = false).
(** the outcomes of the optimizer_restart + 1 trials *)
Definition trials {A} (restart : nat) (oracle : nat -> trial A) : seq (A * b64) :=
  [seq (t_x (oracle i), t_fun (oracle i)) | i <- iota 0 restart.+1].
(** some trial ends with a value below +inf (an optimizer of the package always returns a point) *)
Definition usable {A} (restart : nat) (s : search A) : Prop :=
  match s with
  | Lbfgs oracle => exists i, (i <= restart)%N /\ flt (t_fun (oracle i)) finf = true
  | Evolution _ _ => True
  end.
(** [h] is what one of the trials, or the optimizer, returned *)
Definition result_of {A} (s : search A) (restart : nat) (h : A) : Prop :=
  match s with
  | Lbfgs oracle => exists i, (i <= restart)%N /\ t_x (oracle i) = h
  | Evolution _ best_x => best_x = h
  end.
(** the row an optimizer of the package returns, read as kernel parameters followed by sigma *)
Definition hyper_of_row d (r : seq b64) : hyper d := Hyper (\row_(k < d) Spec.val (List.nth k r f0)) (Spec.val (List.nth d r f0)).
(** the bounds handed to the optimizer: one pair per kernel parameter, and one for sigma when the noise is to be learned *)
Definition searched (noise : option R) (d : nat) (b : seq (b64 * b64)) : Prop :=
  List.length b = (d + (if noise is None then 1 else 0))%N.
(** kernel parameters 10**t with t within the bounds, and a learned noise within its bounds times [ys] *)
Definition hyper_inside {d p} (b : seq (b64 * b64)) (o o' : gp d p) (ys : R) : Prop :=
  (forall k : 'I_d, exists t, rbf_param (gp_kernel o') 0 k = Rpower 10 t /\
     (Spec.val (fst (List.nth k b (f0, f0))) <= t <= Spec.val (snd (List.nth k b (f0, f0))))%Re) /\
  (gp_noise o = None -> exists noise, gp_noise o' = Some noise /\
     (Spec.val (fst (List.nth d b (f0, f0))) * ys <= noise <= Spec.val (snd (List.nth d b (f0, f0))) * ys)%Re).
