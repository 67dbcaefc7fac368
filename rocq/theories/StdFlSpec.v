(** Vocabulary of the statements about predicted standard deviations in binary64.  Nothing here refers to the model. *)
From Coq Require Import Reals.
From Verif Require Import Fl Spec NpList KernelFlSpec.
Local Open Scope R_scope.

(** data sets of [n] points in [d] dimensions, with parameters up to [W], for which rounding and the error [eps] of
    numpy.linalg.solve are small against 10^-10, the constant added to the diagonal: it is about 900000 units 2^-53 *)
Definition std_size (n d : nat) (W eps : R) : Prop :=
  INR n * (entry_units d W + 2) + (INR n + 2) * (INR n + 6) + INR n * INR n * eps * 2 ^ 53 <= 64000.
(** the constant basis function of Ordinary *)
Definition constant_basis : row -> row := fun _ => cons f1 nil.
(** a numpy.linalg.solve that never returns a NaN or an infinity *)
Definition finite_solutions (np_solve : nat -> nat -> (nat -> nat -> b64) -> (nat -> nat -> b64) -> result (nat -> nat -> b64)) : Prop :=
  forall n m A B X, np_solve n m A B = Ok X -> forall i j, (i < n)%nat -> (j < m)%nat -> isfin (X i j) = true.
