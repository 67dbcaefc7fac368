(** What PSO and DE hand over as results["best_x"] lies in the design space, as real numbers. *)
From Coq Require Import List Reals Lia Lra Bool.
From Flocq Require Import IEEE754.BinarySingleNaN.
From Verif Require Import Fl FlFacts NpList Spec EA EASpec EAFacts PSOFacts FlMag PSOFinite DEFacts.
Import ListNotations.

Lemma in_bounds_real lh x : bounds_ok lh -> in_bounds lh x -> (val (fst lh) <= val x <= val (snd lh))%R.
Proof.
  destruct lh as [l h]; intros (Fl & Fh & _) (A & B); cbn [fst snd].
  assert (Fx : isfin x = true).
  { destruct (isnan x) eqn:N; [rewrite (fle_nan_r _ _ N) in A; discriminate|].
    destruct (fin_or x N) as [?|[->| ->]]; auto.
    - destruct h; try discriminate Fh; cbv in B; discriminate.
    - destruct l; try discriminate Fl; cbv in A; discriminate. }
  split; [apply (fle_finite l x)|apply (fle_finite x h)]; auto.
Qed.
Lemma in_box_real b r : box_ok b -> in_box b r -> forall k, k < length b ->
  (val (fst (nth k b (f0, f0))) <= val (nth k r f0) <= val (snd (nth k b (f0, f0))))%R.
Proof.
  intros B I; induction I as [|lh x b r H I IH]; intros k L; simpl in L; [lia|].
  inversion B; subst. destruct k; simpl; [apply in_bounds_real; auto|apply IH; auto; lia].
Qed.
Lemma de_best_x_real cfg b func rng tr out : de_draws_ok cfg b rng -> box_ok b -> isfin (d_F cfg) = true ->
  de_run cfg b func rng None = (tr, Ok out) -> forall k, k < length b ->
  (val (fst (nth k b (f0, f0))) <= val (nth k (o_best_x out) f0) <= val (snd (nth k b (f0, f0))))%R.
Proof.
  intros D B F E. destruct (de_outputs _ _ _ _ _ _ _ E) as (_ & _ & _ & _ & _ & _ & O).
  destruct (de_stopping _ _ _ _ _ _ _ E) as (_ & [L|(t & C & _)]); [|discriminate].
  rewrite (proj2 (O L)). apply in_box_real; auto.
  apply (proj2 (de_in_space _ _ _ _ _ D B F _ _ E)). reflexivity.
Qed.
Lemma pso_best_x_real cfg b func rng tr out : pso_draws_ok cfg b rng -> box_ok b -> pso_moderate cfg b ->
  pso_run cfg b func rng None = (tr, Ok out) -> forall k, k < length b ->
  (val (fst (nth k b (f0, f0))) <= val (nth k (o_best_x out) f0) <= val (snd (nth k b (f0, f0))))%R.
Proof.
  intros D B (M & Q & M0 & Q0 & MQ & S & C1 & C2 & W & V & V0) E.
  destruct (pso_outputs _ _ _ _ _ _ _ E) as (_ & _ & _ & _ & _ & _ & O).
  destruct (pso_stopping _ _ _ _ _ _ _ E) as (_ & [L|(t & C & _)]); [|discriminate].
  rewrite (proj2 (O L)). apply in_box_real; auto.
  apply (proj2 (pso_no_nan _ _ _ _ _ D B M Q M0 Q0 MQ S C1 C2 W V V0 _ _ E)). reflexivity.
Qed.
