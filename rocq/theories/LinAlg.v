(** Model of the linear algebra the Kriging models use: numpy.linalg.cholesky and numpy.linalg.solve,
    in exact real arithmetic.  [Raise LinAlgError] is NumPy's exception. *)
From Coq Require Import Reals.
From Verif Require Import Fl.
From mathcomp Require Import all_ssreflect all_algebra.
From Verif Require Import RStruct.
Set Implicit Arguments.
Unset Strict Implicit.
Unset Printing Implicit Defensive.
Import GRing.Theory.
Local Open Scope ring_scope.

(** [numpy.linalg.cholesky] (LAPACK potrf): column by column; only the lower triangle is read; fails
    when a pivot is not positive. *)
Fixpoint chol (n : nat) : 'M[R]_n -> result 'M[R]_n :=
  match n with
  | 0 => fun A => Ok A
  | n'.+1 => fun A : 'M[R]_(1 + n') =>
      let a := ulsubmx A 0 0 in
      if Rlt_dec R0 a then
        let l := sqrt a in
        let v := (Rinv l) *: dlsubmx A in
        bind (chol (drsubmx A - v *m v^T)) (fun L => Ok (block_mx (l%:M) 0 v L : 'M[R]_(1 + n')))
      else Raise LinAlgError
  end.

(** [numpy.linalg.solve(A, B)] *)
Definition solve (n m : nat) (A : 'M[R]_n) (B : 'M[R]_(n, m)) : result 'M[R]_(n, m) :=
  if A \in unitmx then Ok (invmx A *m B) else Raise LinAlgError.

(** [solve(L.T, solve(L, B))], the idiom used everywhere in models/ *)
Definition chol_solve (n m : nat) (L : 'M[R]_n) (B : 'M[R]_(n, m)) : result 'M[R]_(n, m) :=
  bind (solve L B) (fun Z => solve L^T Z).
