(** Vocabulary of the statements about training on constant and non-finite responses.  Nothing here refers to the model. *)
From Coq Require Import ZArith Bool List.
From Flocq Require Import IEEE754.BinarySingleNaN.
From Verif Require Import Fl.
Import ListNotations.

(** a standard deviation that cannot be divided by: zero or NaN *)
Definition useless (s : b64) : Prop := feq s f0 = true \/ isnan s = true.

(** What is assumed about numpy.linalg.solve: right hand sides without finite entries have solutions without finite
    entries (every entry of a solution is computed from its entry of the right hand side by subtractions and a division) ... *)
Definition solve_keeps (np_solve : nat -> nat -> (nat -> nat -> b64) -> (nat -> nat -> b64) -> result (nat -> nat -> b64)) : Prop :=
  forall n m A B X, np_solve n m A B = Ok X -> forall j, (j < m)%nat ->
    (forall i, (i < n)%nat -> isfin (B i j) = false) -> forall i, (i < n)%nat -> isfin (X i j) = false.
(** ... one equation is solved by a division, or by a multiplication with the reciprocal ... *)
Definition solve_one (np_solve : nat -> nat -> (nat -> nat -> b64) -> (nat -> nat -> b64) -> result (nat -> nat -> b64)) : Prop :=
  forall m A B X, np_solve 1%nat m A B = Ok X -> forall j, (j < m)%nat ->
    X 0%nat j = fdiv (B 0%nat j) (A 0%nat 0%nat) \/ X 0%nat j = fmul (B 0%nat j) (fdiv f1 (A 0%nat 0%nat)).
(** ... and the only exception of the two functions is LinAlgError. *)
Definition only_linalg {A} (r : result A) : Prop := match r with Ok _ => True | Raise e => e = LinAlgError end.
(** np.log of NaN *)
Definition log_keeps (np_log : b64 -> b64) : Prop := np_log fnan = fnan.
