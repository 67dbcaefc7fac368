(** Vocabulary of the statements about acquisition functions in other units: every response y becomes a y + b. *)
From Coq Require Import Reals.
From Verif Require Import Fl.
From mathcomp Require Import all_ssreflect all_algebra.
From Verif Require Import RStruct Acq.
Set Implicit Arguments.
Unset Strict Implicit.
Unset Printing Implicit Defensive.
Import GRing.Theory.
Local Open Scope ring_scope.

Definition shifted (a b : R) n (u : 'cV[R]_n) : 'cV[R]_n := \col_i Rplus (Rmult a (u i 0)) b.
(** the same change of every value that is returned; exceptions stay as they are *)
Definition after {A B} (r : result A) (f : A -> B) : result B := match r with Ok v => Ok (f v) | Raise e => Raise e end.
(** a surrogate in the other units: means become a mean + b, standard deviations are multiplied by a *)
Definition rescaled d (a b : R) (predict : predictor d) : predictor d :=
  fun m x => after (predict m x) (fun p => (shifted a b p.1, shifted a 0 p.2)).
Definition rescaled_surrogate d (a b : R) (s : surrogate d) : surrogate d :=
  Surrogate (fun m x => after (su_predict s x) (fun u => shifted a b u)) (rescaled a b (su_predict_std s)) (rescaled a b (su_predict_lf_std s))
            (su_Xh s) (su_Xl s) (su_corr s) (su_hierarchical s) (su_beta s).
(** no standard deviation of the batch is below 2^-52, in either unit *)
Definition spread d m (a : R) (s : surrogate d) (x : 'M[R]_(m, d)) : Prop :=
  forall mu sd, su_predict_std s x = Ok (mu, sd) -> forall j, (/ 2 ^ 52 <= sd j 0%R)%Re /\ (/ 2 ^ 52 <= a * sd j 0%R)%Re.
