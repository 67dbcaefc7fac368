(** [numpy.linalg.cholesky] in binary64 (gaussian_process.py 235 and 279).  The function belongs to LAPACK; the
    model says which results it allows.  Every entry is reduced by the products of the entries already
    computed, in any order of summation and with or without fused multiply-add, so that blocked, recursive and
    vectorised implementations are all covered.  A pivot that is not positive raises LinAlgError. *)
From Coq Require Import ZArith Bool List.
From Verif Require Import Fl NpList KernelFl.
Import ListNotations.

(** entry ([i], [j]) minus the products of the entries of the rows [i] and [j] of L left of column [j] *)
Definition reduced64 (A L : nat -> nat -> b64) (i j : nat) (s : b64) : Prop :=
  dot_of ((A i j, f1) :: map (fun k => (fopp (L i k), L j k)) (seq 0 j)) s.
(** a quotient, or a product with the reciprocal as some triangular solvers compute it *)
Definition quotient64 (s l q : b64) : Prop := q = fdiv s l \/ q = fmul s (fdiv f1 l).
(** column [j] of the factor *)
Definition column64 (n : nat) (A L : nat -> nat -> b64) (j : nat) : Prop :=
  (exists s, reduced64 A L j j s /\ flt f0 s = true /\ L j j = fsqrt s) /\
  (forall i, (j < i < n)%nat -> exists s, reduced64 A L i j s /\ quotient64 s (L j j) (L i j)).
(** the call on the matrix of size [n] whose lower triangle is that of [A] *)
Inductive cholesky64 (n : nat) (A : nat -> nat -> b64) : result (nat -> nat -> b64) -> Prop :=
| chol_done L : (forall j, (j < n)%nat -> column64 n A L j) -> cholesky64 n A (Ok L)
| chol_fail L j s : (j < n)%nat -> (forall k, (k < j)%nat -> column64 n A L k) -> reduced64 A L j j s ->
    flt f0 s = false -> cholesky64 n A (Raise LinAlgError).
