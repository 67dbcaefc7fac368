(** Vocabulary of the statements about predictions far from all samples.  Nothing here refers to the model. *)
From Coq Require Import Reals.
From mathcomp Require Import all_ssreflect all_algebra.
From Verif Require Import RStruct LinSpec.
Set Implicit Arguments.
Unset Strict Implicit.
Unset Printing Implicit Defensive.
Import GRing.Theory.
Local Open Scope ring_scope.

(** from every sample the point [x] differs by at least [r] in some coordinate *)
Definition away d n (r : R) (X : 'M[R]_(n, d)) (x : 'rV[R]_d) : Prop := forall i, exists k, (r <= Rabs (x 0%R k - X i k))%Re.
(** the correlations of a point with the samples that has none, 1e-10 being added for the sample numbered [j] *)
Definition no_corr n (j : nat) : 'cV[R]_n := \col_i (if (i : nat) == j then Rinv (pow 10 10) else R0).
(** the generalised least squares estimate of a constant: 1'K^-1 Y / 1'K^-1 1 *)
Definition gls_constant n (K : 'M[R]_n) (Y : 'cV[R]_n) : R :=
  Rdiv (((const_mx 1 : 'cV[R]_n)^T *m (invmx K *m Y)) 0 0) (qf (invmx K) (const_mx 1)).
(** [a] is within [e] of [b] *)
Definition close (e a b : R) : Prop := (Rabs (a - b) < e)%Re.
