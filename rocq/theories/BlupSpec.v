(** Vocabulary of the statements about what a prediction is and how samples change it.  Nothing here refers
    to the model. *)
From Coq Require Import Reals.
From mathcomp Require Import all_ssreflect all_algebra.
From Verif Require Import RStruct LinSpec.
Set Implicit Arguments.
Unset Strict Implicit.
Unset Printing Implicit Defensive.
Import GRing.Theory.
Local Open Scope ring_scope.

(** The variance of z0 - w'z, for a variable z0 of variance [v], data z with covariance matrix [K], and
    covariances [c] between the two. *)
Definition error_var n (v : R) (K : 'M[R]_n) (c w : 'cV[R]_n) : R :=
  Rplus (Rminus v (Rmult 2 (\sum_i Rmult (w i 0) (c i 0)))) (qf K w).
(** The weights [w] predict without bias: w'F = f, whatever the coefficients of the trend, where the trend is
    F b at the data and f b at the new point. *)
Definition unbiased n p (F : 'M[R]_(n, p)) (f : 'rV[R]_p) (w : 'cV[R]_n) : Prop := w^T *m F = f.
(** [w] are the weights of the best linear unbiased predictor, and the only ones *)
Definition best_weights n p (v : R) (K : 'M[R]_n) (F : 'M[R]_(n, p)) (c : 'cV[R]_n) (f : 'rV[R]_p) (w : 'cV[R]_n) : Prop :=
  unbiased F f w /\
  forall w', unbiased F f w' -> (error_var v K c w <= error_var v K c w')%Re /\
                                (error_var v K c w' = error_var v K c w -> w' = w).
(** the correlations of the rows of [X] with the point [x], 1e-10 being added for the row numbered [j] *)
Definition cross_corr d n (theta : 'rV[R]_d) (X : 'M[R]_(n, d)) (x : 'rV[R]_d) (j : nat) : 'cV[R]_n :=
  \col_i Rplus (exp (Ropp (wdist (\row_k Rpower 10 (theta 0 k)) (row i X) x)))
               (if (i : nat) == j then Rinv (pow 10 10) else R0).
(** some combination of the basis functions is the constant 1 *)
Definition has_constant d p (phi : 'rV[R]_d -> 'rV[R]_p) : Prop := exists b : 'cV[R]_p, forall x, phi x *m b = const_mx 1.
