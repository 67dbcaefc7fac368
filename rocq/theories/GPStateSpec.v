(** Vocabulary of the statements about failed trainings. *)
From Coq Require Import Reals.
From Verif Require Import Fl.
From mathcomp Require Import all_ssreflect all_algebra.
From Verif Require Import RStruct LinAlg LinSpec Kernel Krig GP GPSpec GPMain GPState.
Set Implicit Arguments.
Unset Strict Implicit.
Unset Printing Implicit Defensive.
Import GRing.Theory.
Local Open Scope ring_scope.

(** every point a search returns is one it evaluated *)
Definition evaluated A (s : search A) : Prop :=
  match s with
  | Lbfgs oracle => forall i, List.In (t_x (oracle i)) (t_queries (oracle i))
  | Evolution queries best_x => List.In best_x queries
  end.
(** a training call: responses that are not all equal, and such a search *)
Definition call_ok d (c : call d) : Prop := ~ constant (c_Y c) /\ evaluated (c_search c).

Section Histories.
Variables (d p : nat) (phi : 'rV[R]_d -> 'rV[R]_p) (lo hi : 'rV[R]_d).
Definition attempt (o : attrs d p) (c : call d) := train_attrs phi lo hi o (c_X c) (c_Y c) (c_search c).
(** the object after a list of calls whose exceptions the caller catches *)
Definition attempts (o : attrs d p) (cs : seq (call d)) : attrs d p := foldl (fun o c => (attempt o c).1) o cs.
(** the calls of that list that raised nothing *)
Fixpoint succeeded (o : attrs d p) (cs : seq (call d)) : seq (call d) :=
  if cs is c :: cs' then
    let rest := succeeded (attempt o c).1 cs' in
    if (attempt o c).2 is Ok _ then c :: rest else rest
  else [::].
(** the object of GP.v with the same configuration *)
Definition plain (o : attrs d p) : gp d p := MkGP (a_noise o) (a_restart o) (a_kernel o) None.
(** two objects answer all predictions alike *)
Definition same_answers (o : attrs d p) (g : gp d p) : Prop := forall m (Xq : 'M[R]_(m, d)),
  predict_attrs phi lo hi o Xq = gp_predict phi lo hi g Xq /\ predict_std_attrs phi lo hi o Xq = gp_predict_std phi lo hi g Xq.
End Histories.
