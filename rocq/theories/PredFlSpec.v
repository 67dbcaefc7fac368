(** Vocabulary of the statements about predictions in binary64.  Nothing here refers to the model. *)
From Coq Require Import ZArith Bool List Reals.
From Verif Require Import Fl Spec NpList KernelFlSpec.
Import ListNotations.
Local Open Scope R_scope.

(** a box with finite bounds and widths, and a point of it *)
Definition finite_box (b : box) : Prop :=
  Forall (fun lh => isfin (fst lh) = true /\ isfin (snd lh) = true /\ val (fst lh) < val (snd lh) /\ isfin (fsub (snd lh) (fst lh)) = true) b.
Definition inside (b : box) (x : row) : Prop := Forall2 (fun lh v => isfin v = true /\ val (fst lh) <= val v <= val (snd lh)) b x.
(** basis functions with [p] finite values of size at most one at every scaled point *)
Definition basis_ok (d p : nat) (basis : row -> row) : Prop :=
  forall x, scaled_row d x -> forall k, (k < p)%nat -> isfin (nth k (basis x) f0) = true /\ Rabs (val (nth k (basis x) f0)) <= 1.
(** a column of [n] weights: all finite; the sum of their sizes *)
Definition finite_weights (n : nat) (c : nat -> nat -> b64) : Prop := forall i, (i < n)%nat -> isfin (c i 0%nat) = true.
Definition mass (n : nat) (c : nat -> nat -> b64) : R := total n (fun i => Rabs (val (c i 0%nat))).
(** The prediction before it is scaled back, in exact arithmetic: basis functions [f] at the point [x] with weights
    [beta], plus correlations with the samples [X] with weights [gamma].  The point is the [j]-th of its batch, and the
    kernel adds 10^-10 to its correlation with the [j]-th sample. *)
Definition latent (w : row) (p : nat) (f : row) (beta : nat -> nat -> b64) (X : mat) (gamma : nat -> nat -> b64) (j : nat) (x : row) : R :=
  total p (fun k => val (nth k f f0) * val (beta k 0%nat)) +
  total (length X) (fun i => (exp (- wdist64 w (nth i X []) x) + if Nat.eqb i j then / 10 ^ 10 else 0) * val (gamma i 0%nat)).

(** What is assumed about numpy.linalg.solve: for a finite matrix with entries up to [a], a finite solution solves the
    system up to [eps] times [a] times the sum of the sizes of its entries, besides underflow; and a right hand side
    with a finite solution is finite. *)
Definition backward_stable (eps : R) (np_solve : nat -> nat -> (nat -> nat -> b64) -> (nat -> nat -> b64) -> result (nat -> nat -> b64)) : Prop :=
  forall n m A B X a j, np_solve n m A B = Ok X -> (j < m)%nat ->
    (forall i k, (i < n)%nat -> (k < n)%nat -> isfin (A i k) = true /\ Rabs (val (A i k)) <= a) ->
    (forall i, (i < n)%nat -> isfin (X i j) = true) -> forall i, (i < n)%nat ->
    isfin (B i j) = true /\
    Rabs (total n (fun k => val (A i k) * val (X k j)) - val (B i j)) <= eps * a * total n (fun k => Rabs (val (X k j))) + (1 + a) * / 2 ^ 1000.
(** numpy.linalg.cholesky returns zeros above the diagonal *)
Definition lower_factor (np_cholesky : nat -> (nat -> nat -> b64) -> result (nat -> nat -> b64)) : Prop :=
  forall n A L, np_cholesky n A = Ok L -> forall i j, (i < j < n)%nat -> L i j = f0.
