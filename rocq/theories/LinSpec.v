(** Vocabulary of the statements about kernels, bases and least squares.  Nothing here refers to the
    model. *)
From Coq Require Import Reals.
From Verif Require Import Fl.
From mathcomp Require Import all_ssreflect all_algebra.
From Verif Require Import RStruct.
Set Implicit Arguments.
Unset Strict Implicit.
Unset Printing Implicit Defensive.
Import GRing.Theory.
Local Open Scope ring_scope.

(** the quadratic form x' A x; symmetric positive definite and semidefinite matrices *)
Definition qf n (A : 'M[R]_n) (x : 'cV[R]_n) : R := (x^T *m A *m x) 0 0.
Definition posdef n (A : 'M[R]_n) : Prop := A^T = A /\ forall x, x != 0 -> (0 < qf A x)%Re.
Definition possemi n (A : 'M[R]_n) : Prop := A^T = A /\ forall x, (0 <= qf A x)%Re.
(** full column rank *)
Definition full_rank n p (F : 'M[R]_(n, p)) : Prop := forall x : 'cV[R]_p, F *m x = 0 -> x = 0.
(** the generalised least squares objective (Y - F b)' K^-1 (Y - F b) *)
Definition gls n p (K : 'M[R]_n) (F : 'M[R]_(n, p)) (Y : 'cV[R]_n) (b : 'cV[R]_p) : R := qf (invmx K) (Y - F *m b).

(** the weighted squared distance sum_k w_k (x_k - y_k)^2 *)
Definition wdist d (w x y : 'rV[R]_d) : R := \sum_k w 0 k * (x 0 k - y 0 k) ^+ 2.
Definition positive_params d (w : 'rV[R]_d) : Prop := forall k, (0 < w 0%R k)%Re.
(** the pairs i <= j below d in lexicographic order *)
Definition upper_pairs (d : nat) : seq (nat * nat) := flatten [seq [seq (i, j) | j <- iota i (d - i)] | i <- iota 0 d].
(** a design space: lower bounds below upper bounds *)
Definition space_ok d (lo hi : 'rV[R]_d) : Prop := forall k, (lo 0%R k < hi 0%R k)%Re.
Definition constant n (Y : 'cV[R]_n) : Prop := forall i j, Y i 0 = Y j 0.
(** the best linear unbiased prediction from data (K, F, Y) with trend b: c are the correlations of the new
    point with the data, f its basis functions; and its variance in units of the process variance *)
Definition blup_mean n p (K : 'M[R]_n) (F : 'M[R]_(n, p)) (Y : 'cV[R]_n) (b : 'cV[R]_p) (c : 'cV[R]_n) (f : 'rV[R]_p) : R :=
  (f *m b) 0 0 + (c^T *m (invmx K *m (Y - F *m b))) 0 0.
Definition blup_var n p (K : 'M[R]_n) (F : 'M[R]_(n, p)) (c : 'cV[R]_n) (f : 'rV[R]_p) : R :=
  1 - qf (invmx K) c + qf (invmx (F^T *m (invmx K *m F))) (f^T - F^T *m (invmx K *m c)).
