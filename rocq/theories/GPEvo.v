(** Hyper-parameter search by PSO and DE: the bounds hold because the optimizers keep them. *)
From Coq Require Import Reals Lra List ZArith.
From Verif Require Import Fl FlFacts Spec EA EASpec EAFacts PSOFacts FlMag PSOFinite DEFacts EvoBridge.
From mathcomp Require Import all_ssreflect all_algebra.
From Verif Require Import RStruct LinAlg LinSpec LinAlgFacts Kernel KernelFacts Krig KrigFacts GP GPSpec GPFacts GPMain.
Set Implicit Arguments.
Unset Strict Implicit.
Unset Printing Implicit Defensive.
Import GRing.Theory.
Local Open Scope ring_scope.

Section Evo.
Variables (d p : nat) (phi : 'rV[R]_d -> 'rV[R]_p) (lo hi : 'rV[R]_d).
Lemma evo_in_bounds n (o o' : gp d p) (X : 'M[R]_(n, d)) (Y : 'cV[R]_n) qs (b : list (b64 * b64)) r :
  (forall k, (k < length b)%coq_nat -> (Spec.val (fst (List.nth k b (f0, f0))) <= Spec.val (List.nth k r f0) <= Spec.val (snd (List.nth k b (f0, f0))))%Re) ->
  searched (gp_noise o) d b ->
  gp_train phi lo hi o X Y (Evolution qs (hyper_of_row d r)) = Ok o' -> hyper_inside b o o' (stdev Y).
Proof.
move=> H Hl Ht.
have Hk k : (k < d)%N -> (k < length b)%coq_nat.
  move=> Hk; apply/ltP; apply: (leq_trans Hk); rewrite Hl; case: (gp_noise o) => *; exact: leq_addr.
have := @gp_in_bounds d p phi lo hi n o o' X Y _ (\row_k Spec.val (fst (List.nth k b (f0, f0)))) (\row_k Spec.val (snd (List.nth k b (f0, f0))))
  (Spec.val (fst (List.nth d b (f0, f0)))) (Spec.val (snd (List.nth d b (f0, f0)))) _ Ht.
have Q : (forall h, result_of (Evolution qs (hyper_of_row d r)) (gp_restart o) h ->
     (forall k, ((\row_k Spec.val (fst (List.nth k b (f0, f0)))) 0%R k <= h_theta h 0%R k <= (\row_k Spec.val (snd (List.nth k b (f0, f0)))) 0%R k)%Re) /\
     (gp_noise o = None -> (Spec.val (fst (List.nth d b (f0, f0))) <= h_sigma h <= Spec.val (snd (List.nth d b (f0, f0))))%Re)).
  move=> h <-; split=> [k|Hn]; first by rewrite !mxE; apply: H; exact: Hk.
  by apply: H; rewrite Hl Hn; apply/ltP; rewrite addn1.
move/(_ Q) => [A B]; split=> // k; have [t [E I]] := A k. by exists t; move: I; rewrite !mxE.
Qed.
Lemma gp_de_bounds n (o o' : gp d p) (X : 'M[R]_(n, d)) (Y : 'cV[R]_n) qs cfg b func rng tr out :
  de_draws_ok cfg b rng -> box_ok b -> isfin (d_F cfg) = true -> searched (gp_noise o) d b ->
  de_run cfg b func rng None = (tr, Ok out) ->
  gp_train phi lo hi o X Y (Evolution qs (hyper_of_row d (o_best_x out))) = Ok o' -> hyper_inside b o o' (stdev Y).
Proof. move=> D B F Hl E; apply: evo_in_bounds => // k Hk. exact (de_best_x_real _ _ _ _ _ _ D B F E k Hk). Qed.
Lemma gp_pso_bounds n (o o' : gp d p) (X : 'M[R]_(n, d)) (Y : 'cV[R]_n) qs cfg b func rng tr out :
  pso_draws_ok cfg b rng -> box_ok b -> pso_moderate cfg b -> searched (gp_noise o) d b ->
  pso_run cfg b func rng None = (tr, Ok out) ->
  gp_train phi lo hi o X Y (Evolution qs (hyper_of_row d (o_best_x out))) = Ok o' -> hyper_inside b o o' (stdev Y).
Proof. move=> D B M Hl E; apply: evo_in_bounds => // k Hk. exact (pso_best_x_real _ _ _ _ _ _ D B M E k Hk). Qed.
End Evo.
