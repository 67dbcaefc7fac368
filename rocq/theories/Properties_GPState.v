(** Theorems about failed trainings of the Gaussian process (C106, C107).
    GPState.v models the object attribute by attribute; a training that raises returns the object it
    leaves behind.  [attempts] applies a list of training calls and catches their exceptions,
    [succeeded] are the calls that raised nothing, [call_ok] asks for responses that are not all equal
    and for a search that returns only points it evaluated.  [gp_train], [gp_predict] are those of GP.v. *)
From Coq Require Import Reals Lra.
From Verif Require Import Fl.
From mathcomp Require Import all_ssreflect all_algebra.
From Verif Require Import RStruct LinAlg LinSpec Kernel Krig GP GPSpec GPMain GPState GPStateSpec GPStateFacts.
Set Implicit Arguments.
Unset Strict Implicit.
Unset Printing Implicit Defensive.
Import GRing.Theory.
Local Open Scope ring_scope.

(** ** C106 what a failed training leaves behind *)

(** only these exceptions; and the stored data, nothing else, have been replaced *)
Theorem C106_exceptions : forall d p (phi : 'rV[R]_d -> 'rV[R]_p) (lo hi : 'rV[R]_d) (o : attrs d p) n (X : 'M[R]_(n, d)) (Y : 'cV[R]_n) s e,
  ~ constant Y -> (train_attrs phi lo hi o X Y s).2 = Raise e -> e = UnboundLocalError \/ e = LinAlgError.
Proof. exact failed_kinds. Qed.
Print Assumptions C106_exceptions.
Theorem C106_data_replaced : forall d p (phi : 'rV[R]_d -> 'rV[R]_p) (lo hi : 'rV[R]_d) n (o : attrs d p) (X : 'M[R]_(n, d)) (Y : 'cV[R]_n) s e,
  ~ constant Y -> evaluated s -> (train_attrs phi lo hi o X Y s).2 = Raise e ->
  train_attrs phi lo hi o X Y s = (put_data o (Dataset X (normalize_input lo hi X) Y (normalize_output Y)), Raise e).
Proof. exact failed_train. Qed.
Print Assumptions C106_data_replaced.
(** before any success: no prediction *)
Theorem C106_never_trained : forall d p (phi : 'rV[R]_d -> 'rV[R]_p) (lo hi : 'rV[R]_d) noise r cs m (Xq : 'M[R]_(m, d)),
  List.Forall (@call_ok d) cs -> succeeded phi lo hi (attrs_new d p noise r) cs = [::] ->
  let o := attempts phi lo hi (attrs_new d p noise r) cs in
  predict_attrs phi lo hi o Xq = Raise AttributeError /\ predict_std_attrs phi lo hi o Xq = Raise AttributeError.
Proof. exact fresh_predict. Qed.
Print Assumptions C106_never_trained.
(** after a success: no prediction if the last failed call had another number of samples *)
Theorem C106_other_size : forall d p (phi : 'rV[R]_d -> 'rV[R]_p) (lo hi : 'rV[R]_d) (o : attrs d p) c cs c' m (Xq : 'M[R]_(m, d)),
  (attempt phi lo hi o c).2 = Ok tt -> List.Forall (@call_ok d) (rcons cs c') ->
  succeeded phi lo hi (attempt phi lo hi o c).1 (rcons cs c') = [::] -> c_n c' <> c_n c ->
  let o' := attempts phi lo hi (attempt phi lo hi o c).1 (rcons cs c') in
  predict_attrs phi lo hi o' Xq = Raise ValueError /\ predict_std_attrs phi lo hi o' Xq = Raise ValueError.
Proof. exact stale_sizes. Qed.
Print Assumptions C106_other_size.
(** with the same sites: the old prediction in the units of the new responses *)
Theorem C106_same_sites : forall d p (phi : 'rV[R]_d -> 'rV[R]_p) (lo hi : 'rV[R]_d) (o : attrs d p) n (X : 'M[R]_(n, d)) (Y Y' : 'cV[R]_n) s s' g m (Xq : 'M[R]_(m, d)) mu e,
  gp_train phi lo hi (plain o) X Y s = Ok g -> gp_predict phi lo hi g Xq = Ok mu ->
  ~ constant Y' -> evaluated s' ->
  let o1 := train_attrs phi lo hi o X Y s in
  let o2 := train_attrs phi lo hi o1.1 X Y' s' in
  o2.2 = Raise e ->
  predict_attrs phi lo hi o2.1 Xq = Ok (\col_j Rplus (mean Y') (Rmult (Rdiv (stdev Y') (stdev Y)) (Rminus (mu j 0) (mean Y)))).
Proof. exact stale_mix. Qed.
Print Assumptions C106_same_sites.
Theorem C106_same_sites_std : forall d p (phi : 'rV[R]_d -> 'rV[R]_p) (lo hi : 'rV[R]_d) (o : attrs d p) n (X : 'M[R]_(n, d)) (Y Y' : 'cV[R]_n) s s' g m (Xq : 'M[R]_(m, d)) mu sd e,
  a_noise o = Some R0 ->
  gp_train phi lo hi (plain o) X Y s = Ok g -> gp_predict_std phi lo hi g Xq = Ok (mu, sd) ->
  ~ constant Y' -> evaluated s' ->
  let o1 := train_attrs phi lo hi o X Y s in
  let o2 := train_attrs phi lo hi o1.1 X Y' s' in
  o2.2 = Raise e ->
  exists mu', predict_std_attrs phi lo hi o2.1 Xq = Ok (mu', \col_j Rmult (Rdiv (stdev Y') (stdev Y)) (sd j 0)).
Proof. exact stale_mix_std. Qed.
Print Assumptions C106_same_sites_std.
(** at the samples, without noise *)
Theorem C106_at_samples : forall d p (phi : 'rV[R]_d -> 'rV[R]_p) (lo hi : 'rV[R]_d) (o : attrs d p) n (X : 'M[R]_(n, d)) (Y Y' : 'cV[R]_n) s s' e,
  a_noise o = Some R0 ->
  let o1 := train_attrs phi lo hi o X Y s in
  let o2 := train_attrs phi lo hi o1.1 X Y' s' in
  o1.2 = Ok tt -> ~ constant Y' -> evaluated s' -> o2.2 = Raise e ->
  predict_attrs phi lo hi o1.1 X = Ok Y /\
  predict_attrs phi lo hi o2.1 X = Ok (\col_i Rplus (mean Y') (Rmult (stdev Y') (normalize_output Y i 0))).
Proof. exact stale_sites. Qed.
Print Assumptions C106_at_samples.
(** so a failed training is not undone: afterwards the model reproduces neither the old responses nor the new *)
Theorem C106_rollback_refuted : exists n (X : 'M[R]_(n, 1)) (Y Y' Z : 'cV[R]_n) s s' e (o := attrs_new 1 1 (Some R0) 0),
  call_ok (Call X Y s) /\ call_ok (Call X Y' s') /\
  let o1 := train_attrs (@Ordinary 1) fx_lo fx_hi o X Y s in
  let o2 := train_attrs (@Ordinary 1) fx_lo fx_hi o1.1 X Y' s' in
  o1.2 = Ok tt /\ o2.2 = Raise e /\
  predict_attrs (@Ordinary 1) fx_lo fx_hi o1.1 X = Ok Y /\ predict_attrs (@Ordinary 1) fx_lo fx_hi o2.1 X = Ok Z /\ Z <> Y /\ Z <> Y'.
Proof. exact rollback_refuted. Qed.
Print Assumptions C106_rollback_refuted.
(** a history with one success and one failure, for known and for learned noise *)
Example C106_ok noise : List.Forall (@call_ok 1) [:: Call fx_X fx_Y fx_search; Call fx_X fx_Y' fx_nothing] /\
  succeeded (@Ordinary 1) fx_lo fx_hi (fx_o noise) [:: Call fx_X fx_Y fx_search; Call fx_X fx_Y' fx_nothing] = [:: Call fx_X fx_Y fx_search] /\
  succeeded (@Ordinary 1) fx_lo fx_hi (fx_o noise) [:: Call fx_X fx_Y' fx_nothing] = [::].
Proof.
split; first by constructor; [exact: fx_ok|constructor; [exact: fx_ok'|constructor]].
rewrite /= /attempt /= fx_trained !fx_fails //. exact: (fx_restart noise).
Qed.

(** ** C107 failures do not disturb later trainings *)

(** a training after any history of calls raises exactly what it raises after the successful ones alone *)
Theorem C107_same_outcome : forall d p (phi : 'rV[R]_d -> 'rV[R]_p) (lo hi : 'rV[R]_d) (o : attrs d p) cs c e,
  List.Forall (@call_ok d) cs -> call_ok c ->
  gp_trains phi lo hi (plain o) (rcons (succeeded phi lo hi o cs) c) = Raise e <->
  (attempt phi lo hi (attempts phi lo hi o cs) c).2 = Raise e.
Proof. exact history_raises. Qed.
Print Assumptions C107_same_outcome.
(** and when it succeeds it answers every prediction alike *)
Theorem C107_same_answers : forall d p (phi : 'rV[R]_d -> 'rV[R]_p) (lo hi : 'rV[R]_d) (o : attrs d p) cs c g,
  List.Forall (@call_ok d) cs -> call_ok c ->
  gp_trains phi lo hi (plain o) (rcons (succeeded phi lo hi o cs) c) = Ok g ->
  (attempt phi lo hi (attempts phi lo hi o cs) c).2 = Ok tt /\
  same_answers phi lo hi (attempt phi lo hi (attempts phi lo hi o cs) c).1 g.
Proof. exact history_answers. Qed.
Print Assumptions C107_same_answers.
(** with a given noise the past does not matter at all: a training after any history, whatever its calls
    were, does what the same training does on a new object *)
Theorem C107_forgets : forall d p (phi : 'rV[R]_d -> 'rV[R]_p) (lo hi : 'rV[R]_d) (o : attrs d p) cs c noise, a_noise o = Some noise ->
  match gp_train phi lo hi (gp_new d p (Some noise) (a_restart o)) (c_X c) (c_Y c) (c_search c) with
  | Ok g => (attempt phi lo hi (attempts phi lo hi o cs) c).2 = Ok tt /\
            same_answers phi lo hi (attempt phi lo hi (attempts phi lo hi o cs) c).1 g
  | Raise e => (attempt phi lo hi (attempts phi lo hi o cs) c).2 = Raise e
  end.
Proof. exact history_forgets. Qed.
Print Assumptions C107_forgets.
(** the attribute-level training and that of GP.v agree *)
Theorem C107_agrees : forall d p (phi : 'rV[R]_d -> 'rV[R]_p) (lo hi : 'rV[R]_d) n (o : attrs d p) (X : 'M[R]_(n, d)) (Y : 'cV[R]_n) s g,
  gp_train phi lo hi (plain o) X Y s = Ok g ->
  let o' := train_attrs phi lo hi o X Y s in
  o'.2 = Ok tt /\ same_answers phi lo hi o'.1 g /\
  a_noise o'.1 = gp_noise g /\ a_restart o'.1 = gp_restart g /\ a_kernel o'.1 = gp_kernel g.
Proof. exact train_answers. Qed.
Print Assumptions C107_agrees.
(** success, failure, success *)
Example C107_ok noise : exists g, gp_trains (@Ordinary 1) fx_lo fx_hi (plain (fx_o noise))
  (rcons (succeeded (@Ordinary 1) fx_lo fx_hi (fx_o noise) [:: Call fx_X fx_Y fx_search; Call fx_X fx_Y' fx_nothing]) (Call fx_X fx_Y fx_search)) = Ok g.
Proof.
rewrite (C106_ok noise).2.1 /=.
have U : usable 0 fx_search by exists 0%N.
have [g1 E1] := gp_train_ordinary fx_lo fx_hi (o := plain (fx_o noise)) fx_X fx_varied U. rewrite E1 /=.
have [_ [_ [_ [Er _]]]] := train_answers E1.
have U1 : usable (gp_restart g1) fx_search by rewrite -Er; exists 0%N.
by have [g2 ->] := gp_train_ordinary fx_lo fx_hi (o := g1) fx_X fx_varied U1; exists g2.
Qed.
