(** Proofs about the PSO model. *)
From Coq Require Import ZArith Reals Bool List Lia Lra.
From Flocq Require Import IEEE754.BinarySingleNaN.
From Verif Require Import Fl FlFacts NpList NpFacts Spec Samplers SamplersSpec SamplersFacts EA EASpec EAFacts.
Import ListNotations.

Section PSO.
Variable cfg : pso_config.
Variable b : box.
Variable func : objective.
Variable rng : pso_draws.
Variable stop : option b64.
Let N := p_gen cfg.
Let pop := p_pop cfg.
Let d := length b.
Let x0 := location_init b (pd_loc rng).
Let init := pso_init cfg b func rng.
Let step := pso_step cfg b func rng.
Notation reach := (reach init step stop N).

Lemma pso_run_eq : pso_run cfg b func rng stop = run init step stop N.
Proof. reflexivity. Qed.

Lemma pso_init_inv tr s : init = (tr, Ok s) -> common_init pop d N x0 tr s /\
  st_v s = pso_velocity_init cfg b rng /\ st_pb s = st_obj s /\ st_pbx s = st_x s.
Proof.
  unfold init, pso_init. fold x0. destruct (evaluate func (p_pop cfg) [] x0) as [t y] eqn:E.
  intros [= <- H]. destruct y as [y|]; cbn [bind] in H; [|discriminate].
  apply evaluate_ok in E as (-> & Ly & _).
  destruct (np_min y) as [m|] eqn:Em; cbn [bind] in H; [|discriminate].
  destruct (np_argmin y) as [k|] eqn:Ek; cbn [bind] in H; [|discriminate].
  injection H as <-. split; [|auto]. exists y, m, k. simpl. repeat split; auto.
Qed.

Lemma pso_step_inv g tr s tr' s' : step g tr s = (tr', Ok s') -> common_step pop g tr s tr' s' /\
  st_v s' = pso_new_v cfg b g s /\ st_x s' = pso_new_x b rng g s (st_v s') /\
  tr' = tr ++ [(st_x s', Ok (st_obj s'))] /\
  st_pb s' = pop_best_value (st_obj s') (st_pb s) /\
  st_pbx s' = pop_best_loc (st_obj s') (st_pb s) (st_x s') (st_pbx s).
Proof.
  unfold step, pso_step. set (v := pso_new_v cfg b g s). set (x := pso_new_x b rng g s v).
  destruct (evaluate func (p_pop cfg) tr x) as [t y] eqn:E.
  intros [= <- H]. destruct y as [y|]; cbn [bind] in H; [|discriminate].
  apply evaluate_ok in E as (-> & Ly & _).
  destruct (update_gen_optimum g x y (st_gb s) (st_gbx s)) as [[gb gbx]|] eqn:Eg; cbn [bind] in H; [|discriminate].
  injection H as <-. simpl. repeat split; auto. exists x, y. simpl. repeat split; auto.
Qed.

Lemma pso_Hinit tr s : init = (tr, Ok s) -> common_init pop d N x0 tr s.
Proof. intros H. now apply pso_init_inv. Qed.
Lemma pso_Hstep g tr s tr' s' : step g tr s = (tr', Ok s') -> common_step pop g tr s tr' s'.
Proof. intros H. now apply pso_step_inv. Qed.

(** the histories record exactly what was evaluated *)
Lemma pso_records G tr s : reach G tr s -> forall k, k <= G ->
  exists x y, called tr k x y /\ length y = pop /\ nth k (st_samples s) [] = x /\ nth k (st_responses s) [] = y.
Proof.
  induction 1 as [tr s H|g tr s tr' s' Hr IH HN Hf Es]; intros k Hk.
  - replace k with 0 by lia. pose proof (reach0 init step stop N _ _ H) as Hr.
    destruct (reach_sizes init step stop N pop d x0 pso_Hinit pso_Hstep _ _ _ Hr) as (_&_&_&_&_&_&_&_&HS&HR).
    destruct (init_best init N pop d x0 pso_Hinit _ _ H) as (y & m & k1 & -> & Ly & Ex & Eo & _).
    exists x0, y. rewrite HS, HR, Ex, Eo. repeat split; auto.
  - assert (Hr' : reach (S g) tr' s') by (eapply reachS; eauto).
    destruct (pso_step_inv _ _ _ _ _ Es) as (Hc & Ev & Ex & Et & _).
    destruct (reach_sizes init step stop N pop d x0 pso_Hinit pso_Hstep _ _ _ Hr) as (L & _).
    destruct (Nat.eq_dec k (S g)) as [->|].
    + destruct (reach_sizes init step stop N pop d x0 pso_Hinit pso_Hstep _ _ _ Hr') as (_&_&_&_&_&_&_&_&HS&HR).
      exists (st_x s'), (st_obj s'). rewrite HS, HR. repeat split; auto.
      * rewrite Et, <- L. apply called_last.
      * destruct Hc as (u & y & Et' & Ly & _). rewrite Et in Et'. apply app_inj_tail in Et' as [_ Et'].
        injection Et' as _ ->. exact Ly.
    + destruct (step_history init step stop N pop pso_Hstep _ _ _ _ _ Hr HN Es k ltac:(lia)) as (_ & _ & -> & ->).
      destruct (IH k ltac:(lia)) as (x & y & C & R). exists x, y. split; auto. rewrite Et. now apply called_app.
Qed.

(** current population and responses are those of the last call *)
Lemma pso_current G tr s : reach G tr s -> called tr G (st_x s) (st_obj s) /\ length (st_obj s) = pop.
Proof.
  intros Hr. destruct (pso_records _ _ _ Hr G (le_n G)) as (x & y & C & Ly & Ex & Ey).
  destruct (reach_sizes init step stop N pop d x0 pso_Hinit pso_Hstep _ _ _ Hr) as (_&_&_&_&_&_&_&_&HS&HR).
  rewrite HS in Ex. rewrite HR in Ey. subst. auto.
Qed.

Section Draws.
Hypothesis Hrng : pso_draws_ok cfg b rng.
Hypothesis Hbox : box_ok b.

Lemma x0_in : length x0 = pop /\ Forall (in_box b) x0.
Proof. destruct Hrng as (A & _). now apply location_init_in. Qed.
Lemma x0_shaped : shaped pop d x0.
Proof. destruct x0_in. now apply in_box_shaped. Qed.

Lemma pso_vmax_length : length (pso_vmax cfg b) = d.
Proof. apply map_length. Qed.
Lemma pso_v0_shaped : shaped pop d (pso_velocity_init cfg b rng).
Proof.
  destruct Hrng as (_ & A & _). apply draw_shaped in A as [L F]. unfold pso_velocity_init. split; [now rewrite map_length|].
  apply Forall_map. eapply Forall_impl; [|exact F]. intros r Hr. rewrite map2_length, pso_vmax_length. unfold row in *. simpl in Hr. unfold d. lia.
Qed.
Lemma new_v_shaped g s : shaped pop d (st_v s) -> shaped pop d (pso_new_v cfg b g s).
Proof. intros H. unfold pso_new_v. now apply (imap2_shaped (fun i j v => vel_clamp (nth j (pso_vmax cfg b) f0)
                       (vel_update cfg v (at2 (st_pbx s) i j) (at2 (st_x s) i j) (at2 (st_gbx s) g j)))). Qed.
Lemma new_x_shaped g s v : shaped pop d (st_x s) -> shaped pop d v -> shaped pop d (pso_new_x b rng g s v).
Proof. intros H1 H2. unfold pso_new_x. apply loc_cons_shaped. now apply map2_shaped. Qed.

Lemma pso_shapes G tr s : reach G tr s -> shaped pop d (st_x s) /\ shaped pop d (st_v s).
Proof.
  induction 1 as [tr s H|g tr s tr' s' Hr IH HN Hf Es].
  - destruct (pso_init_inv _ _ H) as ((y&m&k&_&_&_&_&->&_) & -> & _). split; [apply x0_shaped|apply pso_v0_shaped].
  - destruct (pso_step_inv _ _ _ _ _ Es) as (_ & Ev & Ex & _). destruct IH as [A B].
    assert (C : shaped pop d (st_v s')) by (rewrite Ev; now apply new_v_shaped).
    split; [|exact C]. rewrite Ex. now apply new_x_shaped.
Qed.

Lemma pso_not_outside G tr s : reach G tr s -> length (st_x s) = length (st_obj s) /\ Forall (not_outside_box b) (st_x s).
Proof.
  intros Hr. destruct (pso_current _ _ _ Hr) as [_ Lo]. destruct (pso_shapes _ _ _ Hr) as [[Lx _] _].
  split; [congruence|]. destruct Hr as [tr s H|g tr s tr' s' Hr HN Hf Es].
  - destruct (pso_init_inv _ _ H) as ((y&m&k&_&_&_&_&->&_) & _). eapply Forall_impl; [|apply x0_in].
    intros r Hr. eapply Forall2_impl; [|exact Hr]. apply in_bounds_not_outside.
  - destruct (pso_step_inv _ _ _ _ _ Es) as (_ & Ev & Ex & _). destruct (pso_shapes _ _ _ Hr) as [A B]. rewrite Ex.
    apply (loc_cons_not_outside b _ pop); auto.
    + destruct Hrng as (_ & _ & R). apply R.
    + apply map2_shaped; auto. rewrite Ev. now apply new_v_shaped.
Qed.

Lemma pso_trace_cases trf res (P : mat -> Prop) : run init step stop N = (trf, res) ->
  P x0 ->
  (forall G tr s, reach G tr s -> P (st_x s)) ->
  (forall G tr s, reach G tr s -> P (pso_new_x b rng G s (pso_new_v cfg b G s))) ->
  forall x y, In (x, y) trf -> P x.
Proof.
  intros E P0 PR PN.
  assert (R : forall G tr s, reach G tr s -> forall x y, In (x, y) tr -> P x).
  { induction 1 as [tr s H|g tr s tr' s' Hr IH HN Hf Es]; intros x y Hin.
    - destruct (pso_init_inv _ _ H) as ((y0&m&k&->&_) & _). destruct Hin as [[= <- _]|[]]. exact P0.
    - assert (Hr' : reach (S g) tr' s') by (eapply reachS; eauto).
      destruct (pso_step_inv _ _ _ _ _ Es) as (_ & _ & _ & Et & _). rewrite Et in Hin.
      apply in_app_or in Hin as [Hin|[[= <- _]|[]]]; [eapply IH; eauto|]. eapply PR; eauto. }
  intros x y Hin. destruct (run_spec _ _ _ _ _ _ E) as [(e & Ei & _)|[(G&s&Hr&_)|(G&tr0&s0&e&Hr&HN&_&Es&_)]].
  - unfold init, pso_init in Ei. fold x0 in Ei. destruct (evaluate func (p_pop cfg) [] x0) as [t z] eqn:Ee.
    injection Ei as <- _. unfold evaluate in Ee. injection Ee as <- _. destruct Hin as [[= <- _]|[]]. exact P0.
  - eapply R; eauto.
  - unfold step, pso_step in Es.
    destruct (evaluate func (p_pop cfg) tr0 (pso_new_x b rng G s0 (pso_new_v cfg b G s0))) as [t z] eqn:Ee.
    injection Es as <- _. unfold evaluate in Ee. injection Ee as <- _.
    apply in_app_or in Hin as [Hin|[[= <- _]|[]]]; [eapply R; eauto|]. eapply PN; eauto.
Qed.

Theorem pso_in_space trf res : pso_run cfg b func rng stop = (trf, res) ->
  (forall x y, In (x, y) trf -> length x = p_pop cfg /\ Forall (not_outside_box b) x) /\
  (forall out, res = Ok out -> not_outside_box b (o_location out) /\
     forall g, g < length trf ->
       Forall (not_outside_box b) (nth g (o_samples out) []) /\ not_outside_box b (nth g (o_best_x_hist out) [])).
Proof.
  rewrite pso_run_eq. intros E. split.
  - eapply pso_trace_cases; [exact E| | |].
    + destruct x0_in as [L F]. split; auto. eapply Forall_impl; [|exact F].
      intros r Hr. eapply Forall2_impl; [|exact Hr]. apply in_bounds_not_outside.
    + intros G tr s Hr. destruct (pso_not_outside _ _ _ Hr) as [L F]. destruct (pso_current _ _ _ Hr) as [_ Lo]. split; auto. unfold mat, row in *. rewrite L. exact Lo.
    + intros G tr s Hr. destruct (pso_shapes _ _ _ Hr) as [A B]. split.
      * destruct (new_x_shaped G s _ A (new_v_shaped G s B)) as [L _]. exact L.
      * apply (loc_cons_not_outside b _ pop); auto.
        -- destruct Hrng as (_ & _ & R). apply R.
        -- apply map2_shaped; auto. now apply new_v_shaped.
  - intros out ->. destruct (run_ok _ _ _ _ _ _ E) as (G & s & Hr & HG & _ & ->). simpl.
    pose proof (recorded_Q init step stop N pop d x0 pso_Hinit pso_Hstep (not_outside_box b) pso_not_outside _ _ _ Hr) as R.
    split; [now apply R|]. intros g Hg.
    destruct (reach_sizes init step stop N pop d x0 pso_Hinit pso_Hstep _ _ _ Hr) as (L & _). apply R. lia.
Qed.
End Draws.

(** best-so-far *)
Lemma pso_pop_ok G tr s : (forall G tr s, reach G tr s -> length (st_x s) = pop) ->
  reach G tr s -> nan_free tr -> pop_ok tr G s.
Proof.
  intros HL Hr Hn. destruct (pso_current _ _ _ Hr) as [C Lo]. pose proof (HL _ _ _ Hr) as Lx.
  assert (O : forall i, i < length (st_obj s) -> observed tr G i (nth i (st_x s) []) (nth i (st_obj s) f0)).
  { intros i Hi. exists (st_x s), (st_obj s). split; auto. split; apply nth_error_nth'; auto. congruence. }
  split; [congruence|]. split.
  - intros i Hi. assert (Ni : isnan (nth i (st_obj s) f0) = false) by (eapply Hn; eauto).
    split; auto. exists G, (nth i (st_obj s) f0). repeat split; auto. now apply feq_refl.
  - intros i p w (x & y & C' & Hp & Hw) Nw. destruct (called_fun _ _ _ _ _ _ C C') as [<- <-].
    exists w. split; [eapply nth_error_In; eauto|]. now apply fle_refl.
Qed.
Lemma nan_free_prefix tr c : nan_free (tr ++ [c]) -> nan_free tr.
Proof. intros H k i p v O. eapply H. apply observed_app. exact O. Qed.

Hypothesis Hrng : pso_draws_ok cfg b rng.
Lemma pso_len_x G tr s : reach G tr s -> length (st_x s) = pop.
Proof.
  assert (A : forall G tr s, reach G tr s -> length (st_x s) = pop /\ length (st_v s) = pop).
  { clear G tr s. induction 1 as [tr s H|g tr s tr' s' Hr IH HN Hf Es].
    - destruct (pso_init_inv _ _ H) as ((y&m&k&_&_&_&_&->&_) & -> & _). destruct Hrng as ([L1 _] & [L2 _] & _).
      unfold x0, pso_velocity_init. rewrite location_init_length, map_length. auto.
    - destruct (pso_step_inv _ _ _ _ _ Es) as (_ & Ev & Ex & _). destruct IH as [A B].
      assert (C : length (st_v s') = pop) by (rewrite Ev; unfold pso_new_v; rewrite imap_length; auto).
      split; auto. rewrite Ex. unfold pso_new_x, loc_cons. rewrite imap_length, map2_length. mlia. }
  intros Hr. now apply (A G tr).
Qed.

Theorem pso_best trf out : pso_run cfg b func rng stop = (trf, Ok out) -> nan_free trf ->
  best_observed trf (fun _ => True) (fun _ => True) (o_location out) (o_value out) /\
  forall g, g < length trf ->
    best_observed trf (fun k => k <= g) (fun _ => True) (nth g (o_best_x_hist out) []) (entry g (o_best_y_hist out)).
Proof.
  rewrite pso_run_eq. intros E Hn. destruct (run_ok _ _ _ _ _ _ E) as (G & s & Hr & HG & _ & ->). simpl.
  destruct (reach_sizes init step stop N pop d x0 pso_Hinit pso_Hstep _ _ _ Hr) as (L & _ & Lg & _).
  pose proof (best_history init step stop N pop d x0 pso_Hinit pso_Hstep nan_free
    (fun tr c _ => nan_free_prefix tr c) (fun G tr s => pso_pop_ok G tr s pso_len_x) _ _ _ Hr Hn) as B.
  split.
  - destruct (B G (le_n G)) as (A & k & i & w & Hk & _ & O & F). split.
    + intros k' i' q w' _ _ O' Nw. apply (A k' i' q w'); auto. apply observed_lt in O'. lia.
    + exists k, i, w. auto.
  - intros g Hg. unfold entry. rewrite (nth_indep _ fnan f0) by lia. apply B. lia.
Qed.

(** personal bests *)
Lemma pb_value_nth i new old : length new = length old -> i < length new ->
  nth i (pop_best_value new old) f0 = if fle (nth i new f0) (nth i old f0) then nth i new f0 else nth i old f0.
Proof. intros L Hi. unfold pop_best_value. now rewrite (map2_nth _ _ _ i f0 f0) by lia. Qed.
Lemma pb_loc_nth i new old (x p : mat) : length new = length old -> length x = length new -> length p = length new -> i < length new ->
  nth i (pop_best_loc new old x p) [] = if fle (nth i new f0) (nth i old f0) then nth i x [] else nth i p [].
Proof.
  intros L1 L2 L3 Hi. unfold pop_best_loc.
  unfold mat, row in *. erewrite (map2_nth _ _ _ i (f0, f0) ([], [])) by (rewrite combine_length; lia).
  rewrite !combine_nth by lia. reflexivity.
Qed.

Lemma pso_pb G tr s : reach G tr s -> nan_free tr ->
  length (st_pb s) = pop /\ length (st_pbx s) = pop /\
  forall i, i < pop -> best_observed tr (fun _ => True) (fun j => j = i) (nth i (st_pbx s) []) (nth i (st_pb s) f0).
Proof.
  induction 1 as [tr s H|g tr s tr' s' Hr IH HN Hf Es]; intros Hn.
  - pose proof (reach0 init step stop N _ _ H) as Hr. destruct (pso_current _ _ _ Hr) as [C Lo].
    pose proof (pso_len_x _ _ _ Hr) as Lx.
    destruct (pso_init_inv _ _ H) as (_ & _ & -> & ->). repeat split; auto.
    + intros k j q w _ -> (x & y & C' & Hp & Hw) Nw.
      assert (k = 0). { apply called_lt in C'. destruct (reach_sizes init step stop N pop d x0 pso_Hinit pso_Hstep _ _ _ Hr) as (L & _). lia. }
      subst k. destruct (called_fun _ _ _ _ _ _ C C') as [<- <-]. rewrite (nth_error_nth_eq _ _ _ f0 Hw). now apply fle_refl.
    + exists 0, i, (nth i (st_obj s) f0).
      assert (O : observed tr 0 i (nth i (st_x s) []) (nth i (st_obj s) f0)).
      { exists (st_x s), (st_obj s). split; auto. split; apply nth_error_nth'; auto; mlia. }
      repeat split; auto. apply feq_refl. eapply Hn. exact O.
  - assert (Hr' : reach (S g) tr' s') by (eapply reachS; eauto). destruct (pso_current _ _ _ Hr') as [C Lo].
    pose proof (pso_len_x _ _ _ Hr') as Lx.
    destruct (pso_step_inv _ _ _ _ _ Es) as (_ & _ & _ & Et & -> & ->).
    destruct (reach_sizes init step stop N pop d x0 pso_Hinit pso_Hstep _ _ _ Hr) as (L & _).
    assert (Hn0 : nan_free tr) by (rewrite Et in Hn; now apply nan_free_prefix in Hn).
    destruct (IH Hn0) as (Lb & Lbx & B). split; [|split].
    + unfold pop_best_value. rewrite map2_length. lia.
    + unfold pop_best_loc. rewrite map2_length, !combine_length. mlia.
    + intros i Hi. rewrite pb_value_nth, pb_loc_nth by (unfold pop in *; mlia).
      assert (O : observed tr' (S g) i (nth i (st_x s') []) (nth i (st_obj s') f0)).
      { exists (st_x s'), (st_obj s'). split; auto. split; apply nth_error_nth'; auto; mlia. }
      pose proof (Hn _ _ _ _ O) as Nn.
      assert (Old : forall k j q w, j = i -> observed tr' k j q w -> observed tr k j q w \/ k = S g /\ w = nth i (st_obj s') f0).
      { intros k j q w -> Ho. pose proof (observed_lt _ _ _ _ _ Ho) as Hk. rewrite Et, app_length in Hk. simpl in Hk.
        destruct (Nat.eq_dec k (S g)) as [->|]; [right|left].
        - split; auto. destruct Ho as (x & y & C' & _ & Hw). destruct (called_fun _ _ _ _ _ _ C C') as [<- <-].
          symmetry. now apply nth_error_nth_eq.
        - rewrite Et in Ho. eapply observed_app_inv; [|exact Ho]. lia. }
      destruct (B i Hi) as (A & k & j & w & _ & Hj & Ow & F).
      assert (No : isnan (nth i (st_pb s) f0) = false) by (apply feq_iff in F as [_ F]; now apply fle_nnan_l in F).
      destruct (fle (nth i (st_obj s') f0) (nth i (st_pb s) f0)) eqn:D.
      * split.
        -- intros k' j' q w' _ Hj' Ho Nw. destruct (Old _ _ _ _ Hj' Ho) as [Ho'|[_ ->]].
           ++ eapply fle_trans; [exact D|]. eapply A; eauto.
           ++ now apply fle_refl.
        -- exists (S g), i, (nth i (st_obj s') f0). repeat split; auto. now apply feq_refl.
      * split.
        -- intros k' j' q w' _ Hj' Ho Nw. destruct (Old _ _ _ _ Hj' Ho) as [Ho'|[_ ->]].
           ++ eapply A; eauto.
           ++ apply flt_fle. now apply fle_false.
        -- exists k, j, w. repeat split; auto. rewrite Et. now apply observed_app.
Qed.

Theorem pso_personal_best trf out : pso_run cfg b func rng stop = (trf, Ok out) -> nan_free trf ->
  length (o_pop_best out) = p_pop cfg /\ length (o_pop_best_x out) = p_pop cfg /\
  forall i, i < p_pop cfg ->
    best_observed trf (fun _ => True) (fun j => j = i) (nth i (o_pop_best_x out) []) (entry i (o_pop_best out)).
Proof.
  rewrite pso_run_eq. intros E Hn. destruct (run_ok _ _ _ _ _ _ E) as (G & s & Hr & HG & _ & ->). simpl.
  destruct (pso_pb _ _ _ Hr Hn) as (A & B & C). split; auto. split; auto.
  intros i Hi. unfold entry. rewrite (nth_indep _ fnan f0) by (rewrite A; exact Hi). apply C. exact Hi.
Qed.

Theorem pso_outputs tr out : pso_run cfg b func rng stop = (tr, Ok out) ->
  length (o_best_y_hist out) = S (p_gen cfg) /\ length (o_best_x_hist out) = S (p_gen cfg) /\
  2 <= length tr <= S (p_gen cfg) /\
  o_value out = entry (length tr - 1) (o_best_y_hist out) /\
  o_location out = nth (length tr - 1) (o_best_x_hist out) [] /\
  (length tr < S (p_gen cfg) -> o_best_y out = f0 /\ o_best_x out = repeat f0 (length b)) /\
  (length tr = S (p_gen cfg) -> o_best_y out = o_value out /\ o_best_x out = o_location out).
Proof. rewrite pso_run_eq. exact (outputs init step stop N pop d x0 pso_Hinit pso_Hstep tr out). Qed.

Theorem pso_stopping tr out : pso_run cfg b func rng stop = (tr, Ok out) ->
  (forall g t, stop = Some t -> 1 <= g -> S g < length tr -> flt (entry g (o_best_y_hist out)) t = false) /\
  (length tr = S (p_gen cfg) \/ exists t, stop = Some t /\ flt (entry (length tr - 1) (o_best_y_hist out)) t = true).
Proof. rewrite pso_run_eq. exact (stopping init step stop N pop d x0 pso_Hinit pso_Hstep tr out). Qed.

Lemma x0_length : length x0 = pop.
Proof. destruct Hrng as ([L _] & _). unfold x0. now rewrite location_init_length. Qed.

Theorem pso_monotone tr out : pso_run cfg b func rng stop = (tr, Ok out) -> nan_free_call tr 0 ->
  (forall g, g < length tr -> isnan (entry g (o_best_y_hist out)) = false) /\
  forall g, S g < length tr -> fle (entry (S g) (o_best_y_hist out)) (entry g (o_best_y_hist out)) = true.
Proof. rewrite pso_run_eq. intros E Hn. exact (monotone init step stop N pop d x0 pso_Hinit pso_Hstep tr out E Hn x0_length). Qed.

Theorem pso_poisoned tr out : pso_run cfg b func rng stop = (tr, Ok out) ->
  (exists i p v, observed tr 0 i p v /\ isnan v = true) ->
  (forall g, g < length tr -> isnan (entry g (o_best_y_hist out)) = true) /\ isnan (o_value out) = true /\
  length tr = S (p_gen cfg).
Proof. rewrite pso_run_eq. exact (poisoned init step stop N pop d x0 pso_Hinit pso_Hstep tr out). Qed.

Lemma pso_init_tr : exists x, fst init = [(x, func 0 x)].
Proof. exists x0. reflexivity. Qed.
Lemma pso_step_tr g tr s : fst (step g tr s) = tr \/ exists x, fst (step g tr s) = tr ++ [(x, func (length tr) x)].
Proof. right. eexists. reflexivity. Qed.
Theorem pso_calls tr res : pso_run cfg b func rng stop = (tr, res) -> true_trace func tr /\ 1 <= length tr <= S (p_gen cfg).
Proof.
  rewrite pso_run_eq. intros E. pose proof (honest_run init step stop N func pso_init_tr pso_step_tr) as H.
  rewrite E in H. exact H.
Qed.

Lemma gen_opt_ok g x obj gb gbx : obj <> [] -> exists r, update_gen_optimum g x obj gb gbx = Ok r.
Proof.
  intros H. unfold update_gen_optimum. destruct (np_min_ok obj H) as [m ->]. destruct (np_argmin_ok obj H) as [k ->].
  cbn [bind]. destruct (fge (nth g gb f0) m); eauto.
Qed.
Lemma nonempty (y : list b64) : length y = pop -> 1 <= pop -> y <> [].
Proof. intros L H ->. simpl in L. lia. Qed.

Lemma pso_init_ok : well_behaved func pop -> 1 <= pop -> exists s, init = ([(x0, func 0 x0)], Ok s).
Proof.
  intros Hf Hp. unfold init, pso_init, evaluate. fold x0. cbn [length app].
  destruct (Hf 0 x0 x0_length) as (y & -> & Ly). cbn [bind]. unfold pop in Ly. rewrite Ly, Nat.eqb_refl. cbn [bind].
  assert (y <> []) as Hy by (apply nonempty; auto).
  destruct (np_min_ok y Hy) as [m ->]. destruct (np_argmin_ok y Hy) as [k ->]. cbn [bind]. eauto.
Qed.

Theorem pso_returns : well_behaved func (p_pop cfg) -> 1 <= p_pop cfg -> 1 <= p_gen cfg ->
  exists tr out, pso_run cfg b func rng stop = (tr, Ok out).
Proof.
  rewrite pso_run_eq. intros Hf Hp Hg. destruct (pso_init_ok Hf Hp) as [s0 E0].
  apply (run_total init step stop N) with
    (Inv := fun g (tr : trace) s => length (st_x s) = pop /\ length (st_v s) = pop); auto.
  - exists s0. now rewrite E0.
  - intros tr s H. destruct (pso_init_inv _ _ H) as ((y&m&k&_&_&_&_&->&_) & -> & _). destruct Hrng as ([L1 _] & [L2 _] & _).
    unfold x0, pso_velocity_init. rewrite location_init_length, map_length. auto.
  - intros g tr s [L1 L2] Hgn.
    set (x := pso_new_x b rng g s (pso_new_v cfg b g s)).
    assert (Lx : length x = pop) by (unfold x, pso_new_x, loc_cons, pso_new_v; rewrite imap_length, map2_length, imap_length; mlia).
    destruct (Hf (length tr) x Lx) as (y & Ey & Ly).
    assert (y <> []) as Hy by (apply nonempty; auto).
    destruct (gen_opt_ok g x y (st_gb s) (st_gbx s) Hy) as [r Er].
    unfold step, pso_step, evaluate. fold x. rewrite Ey. cbn [bind]. rewrite Ly, Nat.eqb_refl. cbn [bind]. rewrite Er. cbn [bind].
    do 2 eexists. split; [reflexivity|]. simpl. split; auto. unfold pso_new_v. now rewrite imap_length.
Qed.

Theorem pso_no_generation : well_behaved func (p_pop cfg) -> 1 <= p_pop cfg -> p_gen cfg = 0 ->
  exists x, pso_run cfg b func rng stop = ([(x, func 0 x)], Raise UnboundLocalError).
Proof.
  intros Hf Hp Hg. destruct (pso_init_ok Hf Hp) as [s0 E0]. exists x0. unfold pso_run. fold init. rewrite E0, Hg. reflexivity.
Qed.
End PSO.

Theorem pso_recorded cfg b func rng stop tr out : pso_run cfg b func rng stop = (tr, Ok out) ->
  forall g, g < length tr -> called tr g (nth g (o_samples out) []) (nth g (o_responses out) []).
Proof.
  rewrite pso_run_eq. intros E g Hg. destruct (run_ok _ _ _ _ _ _ E) as (G & s & Hr & HG & _ & ->). simpl.
  destruct (reach_sizes _ _ _ _ _ _ _ (pso_Hinit cfg b func rng) (pso_Hstep cfg b func rng) _ _ _ Hr) as (L & _).
  destruct (pso_records cfg b func rng stop _ _ _ Hr g ltac:(lia)) as (x & y & C & _ & -> & ->). exact C.
Qed.

(** ** velocity clamp in exact arithmetic *)
Local Open Scope R_scope.
Theorem clamp_exact vmax v : 0 <= vmax ->
  Rabs (clampR vmax v) <= vmax /\ (Rabs v <= vmax -> clampR vmax v = v) /\
  (vmax < Rabs v -> Rabs (clampR vmax v) = vmax) /\
  0 <= v * clampR vmax v.
Proof.
  intros H. unfold clampR, clamp. destruct (Rlt_dec vmax (Rabs v)) as [L|L].
  - assert (P : 0 < Rabs v) by lra.
    assert (E : Rabs (v * vmax / Rabs v) = vmax).
    { unfold Rdiv. rewrite !Rabs_mult, Rabs_inv, Rabs_Rabsolu, (Rabs_pos_eq vmax) by auto. field. lra. }
    repeat split; try lra.
    replace (v * (v * vmax / Rabs v)) with ((v * v) * (vmax / Rabs v)) by (field; lra).
    apply Rmult_le_pos; [nra|]. unfold Rdiv. apply Rmult_le_pos; auto. apply Rlt_le. now apply Rinv_0_lt_compat.
  - repeat split; try lra. nra.
Qed.
