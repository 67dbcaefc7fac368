(** Model of models/kernels.py and models/basis_functions.py in exact real arithmetic.
    A batch of points is a matrix with one point per row. *)
From Coq Require Import Reals.
From mathcomp Require Import all_ssreflect all_algebra.
From Verif Require Import RStruct.
Set Implicit Arguments.
Unset Strict Implicit.
Unset Printing Implicit Defensive.
Import GRing.Theory.
Local Open Scope ring_scope.

(** ** kernels.py *)

(** The state of an RBF object: the attribute [param]. *)
Record rbf d := RBF { rbf_param : 'rV[R]_d }.
(** [10**theta] *)
Definition pow10 d (theta : 'rV[R]_d) : 'rV[R]_d := \row_k Rpower 10 (theta 0 k).
(** 85-108 [RBF.__init__] *)
Definition rbf_new d (theta : 'rV[R]_d) : rbf d := RBF (pow10 theta).
(** 171-175 [set_params] *)
Definition set_params d (k : rbf d) (theta : 'rV[R]_d) : rbf d := RBF (pow10 theta).
(** [np.eye(n1, n2)] *)
Definition eye n m : 'M[R]_(n, m) := \matrix_(i, j) (if (i : nat) == (j : nat) then 1 else 0).
(** [10 ** -10] *)
Definition jitter : R := Rinv (pow 10 10).
(** 129-132 (and 164-167): [X_sq + Y_sq - 2 * XY], one entry *)
Definition rbf_dist d (w x y : 'rV[R]_d) : R :=
  let X_sq := \sum_k Rmult (x 0 k ^+ 2) (w 0 k) in
  let Y_sq := \sum_k Rmult (y 0 k ^+ 2) (w 0 k) in
  let XY := \sum_k Rmult (Rmult (sqrt (w 0 k)) (x 0 k)) (Rmult (sqrt (w 0 k)) (y 0 k)) in
  Rminus (Rplus X_sq Y_sq) (Rmult 2 XY).
(** 110-134 [get_kernel_matrix] *)
Definition get_kernel_matrix d n m (k : rbf d) (X : 'M[R]_(n, d)) (Y : 'M[R]_(m, d)) : 'M[R]_(n, m) :=
  \matrix_(i, j) exp (Ropp (rbf_dist (rbf_param k) (row i X) (row j Y))) + jitter *: eye n m.
(** 136-169 [__call__] *)
Definition kernel_call d n m (k : rbf d) (X : 'M[R]_(n, d)) (Y : 'M[R]_(m, d)) (param : 'rV[R]_d) : 'M[R]_(n, m) :=
  let w := pow10 param in
  \matrix_(i, j) exp (Ropp (rbf_dist w (row i X) (row j Y))) + jitter *: eye n m.

(** ** basis_functions.py, one row of the result *)

(** 10-27 [Ordinary] *)
Definition ordinary_row {T} (one : T) (x : seq T) : seq T := [:: one].
(** 33-50 [Linear] *)
Definition linear_row {T} (one : T) (x : seq T) : seq T := one :: x.
(** 83-86: the loop over [k]; each block is [x_k * x[k:]] *)
Fixpoint quad_blocks {T} (mul : T -> T -> T) (x : seq T) : seq T :=
  if x is xk :: x' then [seq mul xk y | y <- x] ++ quad_blocks mul x' else [::].
(** 57-88 [Quadratic] *)
Definition quadratic_row {T} (one : T) (mul : T -> T -> T) (x : seq T) : seq T :=
  one :: x ++ quad_blocks mul x.

(** A basis as used by the models: every row of the result is computed from the same row of [x]. *)
Definition row_seq d (x : 'rV[R]_d) : seq R := [seq x 0 k | k <- enum 'I_d].
Definition seq_row p (s : seq R) : 'rV[R]_p := \row_j nth 0 s j.
Definition Ordinary d (x : 'rV[R]_d) : 'rV[R]_1 := seq_row 1 (ordinary_row 1 (row_seq x)).
Definition Linear d (x : 'rV[R]_d) : 'rV[R]_(d.+1) := seq_row d.+1 (linear_row 1 (row_seq x)).
Definition Quadratic d (x : 'rV[R]_d) : 'rV[R]_(((d + 1) * (d + 2)) %/ 2) :=
  seq_row _ (quadratic_row 1 Rmult (row_seq x)).
(** [regr(X)] *)
Definition regr_matrix d p n (phi : 'rV[R]_d -> 'rV[R]_p) (X : 'M[R]_(n, d)) : 'M[R]_(n, p) :=
  \matrix_(i, j) phi (row i X) 0 j.
