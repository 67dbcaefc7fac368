(** Vocabulary of the statements about likelihoods and about the order of samples. *)
From Coq Require Import Reals.
From mathcomp Require Import all_ssreflect all_algebra.
From Verif Require Import RStruct LinSpec.
Set Implicit Arguments.
Unset Strict Implicit.
Unset Printing Implicit Defensive.
Import GRing.Theory.
Local Open Scope ring_scope.

(** minus the logarithm of the density at [Y] of the normal distribution with mean [m] and covariance [V] *)
Definition gauss_nll n (V : 'M[R]_n) (m Y : 'cV[R]_n) : R :=
  Rplus (Rplus (Rmult (Rdiv (INR n) 2) (ln (Rmult 2 PI))) (Rdiv (ln (\det V)) 2)) (Rdiv (qf (invmx V) (Y - m)) 2).
(** the Gaussian correlations exp(- sum_k 10^theta_k (x_k - y_k)^2) of the rows of [X], with [nugget] added on
    the diagonal *)
Definition corr_mx d n (theta : 'rV[R]_d) (X : 'M[R]_(n, d)) (nugget : R) : 'M[R]_n :=
  \matrix_(i, j) exp (Ropp (wdist (\row_k Rpower 10 (theta 0 k)) (row i X) (row j X))) + nugget%:M.
(** [Y] is a combination of the columns of [F] *)
Definition in_span n p (F : 'M[R]_(n, p)) (Y : 'cV[R]_n) : Prop := exists b, Y = F *m b.
