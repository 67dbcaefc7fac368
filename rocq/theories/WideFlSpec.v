(** Vocabulary of the statements about responses too far apart to be scaled.  Nothing here refers to the model. *)
From Coq Require Import Bool List.
From Verif Require Import Fl.

(** What is assumed about numpy.linalg.solve: whether it raises depends on the matrix and not on the right hand sides. *)
Definition solve_by_matrix (np_solve : nat -> nat -> (nat -> nat -> b64) -> (nat -> nat -> b64) -> result (nat -> nat -> b64)) : Prop :=
  forall n m A B B' e, np_solve n m A B = Raise e -> np_solve n m A B' = Raise e.
