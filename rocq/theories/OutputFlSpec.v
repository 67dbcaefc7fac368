(** Vocabulary of the statements about scaled responses.  Nothing here refers to the model. *)
From Coq Require Import ZArith Bool List Reals.
From Verif Require Import Fl Spec.
Import ListNotations.
Local Open Scope R_scope.

(** at least one and at most 2^20 finite responses, none exceeding [M] in absolute value *)
Definition responses (M : R) (Y : list b64) : Prop :=
  (0 < length Y)%nat /\ INR (length Y) <= 2 ^ 20 /\ Forall (fun y => isfin y = true /\ Rabs (val y) <= M) Y.
(** two of the responses differ by at least 2^-400 *)
Definition spread (Y : list b64) : Prop := exists y z, In y Y /\ In z Y /\ / 2 ^ 400 <= val y - val z.
(** the exact sum, mean and standard deviation of the represented reals *)
Definition sum_real (l : list R) : R := fold_right Rplus 0 l.
Definition mean_real (l : list R) : R := sum_real l / INR (length l).
Definition std_real (l : list R) : R := sqrt (mean_real (map (fun r => (r - mean_real l) ^ 2) l)).
