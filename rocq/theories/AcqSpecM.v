(** Vocabulary of the statements about acquisition functions: batches, samples and surrogates. *)
From Coq Require Import Reals.
From Verif Require Import Fl AcqSpec.
From mathcomp Require Import all_ssreflect all_algebra.
From Verif Require Import RStruct Acq.
Set Implicit Arguments.
Unset Strict Implicit.
Unset Printing Implicit Defensive.
Import GRing.Theory.
Local Open Scope ring_scope.

(** [v] is the smallest entry of the column *)
Definition least n (y : 'cV[R]_n) (v : R) : Prop := (exists i, y i 0 = v) /\ forall i, (v <= y i 0%R)%Re.
(** [i] is the first of the positions of the smallest entry *)
Definition first_least n (y : 'cV[R]_n) (i : 'I_n) : Prop :=
  forall k, (y i 0%R <= y k 0%R)%Re /\ ((k < i)%N -> (y i 0%R < y k 0%R)%Re).
(** the surrogate answers for every batch, with standard deviations that are not negative *)
Definition answers d (predict : predictor d) : Prop :=
  forall m (x : 'M[R]_(m, d)), exists mu sd, predict m x = Ok (mu, sd) /\ forall j, (0 <= sd j 0%R)%Re.
Definition surrogate_answers d (s : surrogate d) : Prop :=
  answers (su_predict_std s) /\ answers (su_predict_lf_std s) /\
  forall m (x : 'M[R]_(m, d)), exists mu, su_predict s x = Ok mu.
(** a constraint model says that the constraint holds with probability [p] *)
Definition holds_with d (x : 'M[R]_(1, d)) (predict : predictor d) (p : R) : Prop :=
  exists mu sd, predict 1%N x = Ok (mu, sd) /\ prob_below (mu 0 0) (Rplus (sd 0 0) (/ 10 ^ 9)) 0 p.
(** larger predicted constraint values make the probability smaller *)
Definition constraint_le d (x1 x2 : 'M[R]_(1, d)) (p1 p2 : predictor d) : Prop :=
  exists mu1 mu2 sd1 sd2, p1 1%N x1 = Ok (mu1, sd1) /\ p2 1%N x2 = Ok (mu2, sd2) /\ sd1 0 0 = sd2 0 0 /\ (mu1 0%R 0%R <= mu2 0%R 0%R)%Re.
(** correlations between a point of the batch and the samples of each fidelity *)
Definition correlates d (s : surrogate d) : Prop := forall m (x : 'M[R]_(m, d)),
  (exists c, su_corr s x (su_Xh s) 0 = Some c /\ forall i j, (0 < c i j)%Re) /\
  (exists c, su_corr s x (su_Xl s) 1 = Some c /\ forall i j, (0 < c i j)%Re).
