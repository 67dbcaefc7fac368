(** PSO never produces a NaN coordinate when the bounds and rates are of moderate size. *)
From Coq Require Import ZArith Reals Bool List Lia Lra.
From Flocq Require Import Core.Zaux Core.Raux Core.Defs IEEE754.BinarySingleNaN.
From Verif Require Import Fl FlFacts FlMag NpList NpFacts Spec Samplers SamplersSpec SamplersFacts EA EASpec EAFacts PSOFacts.
Import ListNotations.

Section PSO.
Variable cfg : pso_config.
Variable b : box.
Variable func : objective.
Variable rng : pso_draws.
Variable stop : option b64.
Let N := p_gen cfg.
Let pop := p_pop cfg.
Let d := length b.
Let x0 := location_init b (pd_loc rng).
Let init := pso_init cfg b func rng.
Let step := pso_step cfg b func rng.
Notation reach := (reach init step stop N).
Hypothesis Hrng : pso_draws_ok cfg b rng.
Hypothesis Hbox : box_ok b.
Variables M Q : Z.
Hypothesis HM : (0 <= M)%Z.
Hypothesis HQ0 : (0 <= Q)%Z.
Hypothesis HMQ : (2 * M + 3 * Q + 4 <= 1023)%Z.
Hypothesis Hmag : Forall (fun lh => mag_le M (fst lh) /\ mag_le M (snd lh)) b.
Hypothesis Hc1 : mag_le Q (p_c1 cfg).
Hypothesis Hc2 : mag_le Q (p_c2 cfg).
Hypothesis Hw : mag_le Q (p_w cfg).
Hypothesis Hv : mag_le Q (p_vrate cfg).
Hypothesis Hv0 : (0 <= B2R (p_vrate cfg))%R.
Let K := (M + 1 + Q)%Z.

Lemma in_mag j x : j < d -> in_bounds (nth j b (f0, f0)) x -> mag_le M x.
Proof.
  intros Hj H. pose proof (Forall_nth' _ _ _ (f0, f0) Hmag Hj) as A. pose proof (Forall_nth' _ _ _ (f0, f0) Hbox Hj) as B.
  destruct (nth j b (f0, f0)) as [lo hi]. destruct A as [[F1 A1] [F2 A2]]. cbn [fst snd] in *. destruct H as [H1 H2].
  assert (Fx : isfin x = true).
  { destruct (fin_or x (fle_nnan_l _ _ H2)) as [|[-> | ->]]; auto; destruct lo, hi; discriminate. }
  split; auto. apply fle_finite in H1; auto. apply fle_finite in H2; auto.
  apply Rabs_le. apply Rabs_le_inv in A1, A2. lra.
Qed.

Lemma vmax_at j : j < d -> mag_le K (nth j (pso_vmax cfg b) f0) /\ (0 <= B2R (nth j (pso_vmax cfg b) f0))%R.
Proof.
  intros Hj. unfold pso_vmax.
  rewrite (nth_indep _ f0 ((fun lh => fmul (fsub (snd lh) (fst lh)) (p_vrate cfg)) (f0, f0))) by (now rewrite map_length).
  rewrite (map_nth (fun lh => fmul (fsub (snd lh) (fst lh)) (p_vrate cfg))).
  pose proof (Forall_nth' _ _ _ (f0, f0) Hmag Hj) as A. pose proof (Forall_nth' _ _ _ (f0, f0) Hbox Hj) as B.
  destruct (nth j b (f0, f0)) as [lo hi]. destruct A as [A1 A2]. cbn [fst snd] in *. destruct B as (B1 & B2 & B3 & B4).
  assert (S : mag_le (M + 1) (fsub hi lo)) by (apply mag_sub; auto; lia).
  assert (P : mag_le K (fmul (fsub hi lo) (p_vrate cfg))) by (apply mag_mul; auto; unfold K; lia).
  split; auto. destruct (fmul_spec (fsub hi lo) (p_vrate cfg)) as [E _]; [apply S|apply Hv| |].
  - eapply Rle_lt_trans; [apply (rnd_abs_le _ K)|apply (bpow_lt_fmax K)]; try (unfold K; lia).
    unfold K. rewrite bpow_plus, Rabs_mult. apply Rmult_le_compat; try apply Rabs_pos; [apply S|apply Hv].
  - rewrite E, <- rnd_0. apply rnd_le. apply Rmult_le_pos; auto. now apply width_nonneg.
Qed.

Lemma clamp_fin vmax v : mag_le K vmax -> (0 <= B2R vmax)%R -> mag_le (Q + K + 2) v -> mag_le K (vel_clamp vmax v).
Proof.
  intros Hm H0 Hvv. unfold vel_clamp, clamp. destruct (flt vmax (fabs v)) eqn:E.
  - apply flt_finite in E; [|apply Hm|apply mag_abs in Hvv; apply Hvv].
    assert (Ha : B2R (fabs v) = Rabs (B2R v)) by (unfold fabs; apply B2R_Babs).
    apply (clamp_mag v vmax (Q + K + 2) K); auto; try (unfold K; lia). lra.
  - apply mag_abs in Hvv as Ha. destruct Hvv as [Fv _].
    apply flt_false in E; [|apply isfin_not_nan; apply Hm|apply isfin_not_nan; apply Ha].
    apply fle_finite in E; [|apply Ha|apply Hm]. unfold fabs in E. rewrite B2R_Babs in E.
    split; auto. eapply Rle_trans; [exact E|]. destruct Hm as [_ Hm]. apply Rabs_le_inv in Hm. lra.
Qed.

Lemma update_fin v pbx x gbx : mag_le K v -> mag_le M pbx -> mag_le M x -> mag_le M gbx ->
  mag_le (Q + K + 2) (vel_update cfg v pbx x gbx).
Proof.
  intros A B C D. unfold vel_update.
  assert (T : forall c p, mag_le Q c -> mag_le M p -> mag_le (Q + K) (fmul c (fsub p x))).
  { intros c p Hc Hp. apply (mag_weaken (Q + (M + 1))); [unfold K; lia|]. apply mag_mul; [unfold K; lia|auto|].
    apply mag_sub; auto. lia. }
  replace (Q + K + 2)%Z with ((Q + K + 1) + 1)%Z by lia. apply mag_add; [unfold K; lia| |].
  - apply mag_add; [unfold K; lia| |]; [apply mag_mul; auto; unfold K; lia|now apply T].
  - eapply mag_weaken; [|apply T; auto]. lia.
Qed.

Lemma v0_at i j : i < pop -> j < d -> mag_le K (at2 (pso_velocity_init cfg b rng) i j).
Proof.
  intros Hi Hj. unfold at2, pso_velocity_init. destruct Hrng as (_ & [L F] & _). fold pop in L. fold d in F.
  rewrite (nth_indep _ [] ((fun r => map2 fmul r (pso_vmax cfg b)) [])) by (rewrite map_length; mlia).
  rewrite (map_nth (fun r => map2 fmul r (pso_vmax cfg b))).
  assert (Hr : unit_row unit_open (length b) (nth i (pd_vel rng) [])) by (apply Forall_nth'; auto; mlia).
  destruct Hr as [Lr Fr]. fold d in Lr. assert (Lv : length (pso_vmax cfg b) = d) by apply map_length.
  rewrite (map2_nth _ _ _ j f0 f0) by (unfold row in *; unfold d in *; lia).
  destruct (vmax_at j Hj) as [Vm _]. assert (U : unit_open (nth j (nth i (pd_vel rng) []) f0)) by (apply Forall_nth'; auto; unfold row in *; unfold d in *; lia).
  replace K with (0 + K)%Z by lia. apply mag_mul; [unfold K; lia| |auto].
  destruct U as [Fu [U1 U2]]. split; auto. unfold val in *. change (bpow radix2 0) with 1%R. apply Rabs_le.
  unfold mat, row in *. lra.
Qed.

Definition fin_inv (G : nat) (s : ea_state) : Prop :=
  Forall (in_box b) (st_x s) /\ (length (st_pbx s) = pop /\ Forall (in_box b) (st_pbx s)) /\ in_box b (nth G (st_gbx s) []) /\
  (forall i j, i < pop -> j < d -> mag_le K (at2 (st_v s) i j)).

Lemma row_at m i j : length m = pop -> Forall (in_box b) m -> i < pop -> j < d -> mag_le M (at2 m i j).
Proof.
  intros L F Hi Hj. apply (in_mag j); auto. unfold at2. apply (Forall2_nth_inv in_bounds b); auto.
  apply (Forall_nth' (in_box b)); auto. mlia.
Qed.

Lemma new_v_at G s i j : shaped pop d (st_x s) -> shaped pop d (st_v s) -> fin_inv G s -> i < pop -> j < d ->
  mag_le K (at2 (pso_new_v cfg b G s) i j).
Proof.
  intros Sx Sv (Fx & [Lp Fp] & Fg & Fv) Hi Hj. unfold pso_new_v.
  rewrite (imap2_at (fun i j v => vel_clamp (nth j (pso_vmax cfg b) f0)
    (vel_update cfg v (at2 (st_pbx s) i j) (at2 (st_x s) i j) (at2 (st_gbx s) G j))) pop d) by auto.
  destruct (vmax_at j Hj). apply clamp_fin; auto. apply update_fin; auto.
  - now apply row_at.
  - apply row_at; auto. apply Sx.
  - apply (in_mag j); auto. unfold at2. now apply (Forall2_nth_inv in_bounds b).
Qed.
Lemma new_x_in G s : shaped pop d (st_x s) -> shaped pop d (st_v s) -> fin_inv G s ->
  Forall (in_box b) (pso_new_x b rng G s (pso_new_v cfg b G s)).
Proof.
  intros Sx Sv I. unfold pso_new_x.
  assert (Sn : shaped pop d (pso_new_v cfg b G s)) by (apply (new_v_shaped cfg b); auto).
  apply (loc_cons_in b _ pop); auto.
  - destruct Hrng as (_ & _ & R). apply R.
  - apply map2_shaped; auto.
  - intros i j Hi Hj. rewrite (map2_at _ pop d) by auto.
    assert (A : mag_le K (at2 (st_x s) i j)).
    { apply (mag_weaken M); [unfold K; lia|]. apply row_at; auto; [apply Sx|apply I]. }
    apply isfin_not_nan. eapply (mag_add K); [unfold K; lia|exact A|]. now apply new_v_at.
Qed.

Lemma pso_fin_inv G tr s : reach G tr s -> fin_inv G s.
Proof.
  induction 1 as [tr s H|g tr s tr' s' Hr IH HN Hf Es].
  - pose proof (reach0 init step stop N _ _ H) as Hr.
    destruct (x0_in cfg b rng Hrng Hbox) as [Lx Fx].
    destruct (init_best init N pop d x0 (pso_Hinit cfg b func rng) _ _ H) as (y & m & k1 & -> & Ly & Ex & Eo & Em & Hk & Hm & _ & Eg).
    destruct (pso_init_inv _ _ _ _ _ _ H) as (_ & Ev & _ & Ep). unfold fin_inv. rewrite Ep, Ev, Eg, Ex.
    split; [exact Fx|]. split; [auto|]. split; [|intros; now apply v0_at].
    apply Forall_nth'; auto. unfold x0. mlia.
  - assert (Hr' : reach (S g) tr' s') by (eapply reachS; eauto).
    destruct (pso_shapes cfg b func rng stop Hrng Hbox _ _ _ Hr) as [Sx Sv].
    destruct (pso_shapes cfg b func rng stop Hrng Hbox _ _ _ Hr') as [Sx' Sv'].
    destruct (pso_current cfg b func rng stop _ _ _ Hr') as [_ Lo'].
    destruct (pso_step_inv _ _ _ _ _ _ _ _ _ Es) as (Hc & Ev & Ex & Et & Ep & Epx).
    assert (Fx : Forall (in_box b) (st_x s')) by (rewrite Ex, Ev; now apply new_x_in).
    assert (IH' := IH). destruct IH as (_ & [Lp Fp] & Fg & Fv). split; [exact Fx|]. split; [|split].
    + assert (Lb : length (st_pb s) = pop).
      { clear - Hr. induction Hr as [tr s H|g tr s tr' s' Hr IH HN Hf Es].
        - pose proof (reach0 init step stop N _ _ H) as Hr. destruct (pso_init_inv _ _ _ _ _ _ H) as (_ & _ & -> & _).
          now destruct (pso_current cfg b func rng stop _ _ _ Hr).
        - assert (Hr' : reach (S g) tr' s') by (eapply reachS; eauto).
          destruct (pso_step_inv _ _ _ _ _ _ _ _ _ Es) as (_ & _ & _ & _ & -> & _).
          destruct (pso_current cfg b func rng stop _ _ _ Hr') as [_ Lo']. unfold pop_best_value. rewrite map2_length.
          fold pop in Lo'. lia. }
      destruct Sx' as [Lx' _].
      assert (Le : length (st_pbx s') = pop) by (rewrite Epx; unfold pop_best_loc; rewrite map2_length, !combine_length; fold pop in Lo'; mlia).
      split; auto. apply Forall_forall. intros r Hin. destruct (In_nth _ _ [] Hin) as (i & Hi & E).
      unfold mat, row in *. rewrite Le in Hi. rewrite <- E, Epx. fold pop in Lo'.
      rewrite (pb_loc_nth cfg b i) by mlia. destruct (fle _ _); apply Forall_nth'; auto; mlia.
    + destruct (step_best init step stop N pop d x0 (pso_Hinit cfg b func rng) (pso_Hstep cfg b func rng) _ _ _ _ _ Hr HN Es) as (m & k & Em & Hk1 & Hm & D).
      destruct D as [(_&_&->)|(_&_&->)]; auto. apply Forall_nth'; auto. destruct Sx' as [Lx' _]. fold pop in Lo'. mlia.
    + intros i j Hi Hj. rewrite Ev. now apply new_v_at.
Qed.

Theorem pso_no_nan trf res : pso_run cfg b func rng stop = (trf, res) ->
  (forall x y, In (x, y) trf -> length x = p_pop cfg /\ Forall (in_box b) x) /\
  (forall out, res = Ok out -> in_box b (o_location out) /\
     forall g, g < length trf ->
       Forall (in_box b) (nth g (o_samples out) []) /\ in_box b (nth g (o_best_x_hist out) [])).
Proof.
  rewrite pso_run_eq. intros E. split.
  - eapply pso_trace_cases; [exact E| | |].
    + apply x0_in; auto.
    + intros G tr s Hr. destruct (pso_shapes cfg b func rng stop Hrng Hbox _ _ _ Hr) as [[L _] _].
      split; auto. eapply pso_fin_inv; eauto.
    + intros G tr s Hr. destruct (pso_shapes cfg b func rng stop Hrng Hbox _ _ _ Hr) as [A B]. split.
      * destruct (new_x_shaped cfg b rng G s _ A (new_v_shaped cfg b G s B)) as [L _]. exact L.
      * apply new_x_in; auto. eapply pso_fin_inv; eauto.
  - intros out ->. destruct (run_ok _ _ _ _ _ _ E) as (G & s & Hr & HG & _ & ->). cbn [o_location o_samples o_best_x_hist].
    assert (HQ : forall G tr s, reach G tr s -> length (st_x s) = length (st_obj s) /\ Forall (in_box b) (st_x s)).
    { intros G' tr' s' Hr'. destruct (pso_not_outside cfg b func rng stop Hrng Hbox _ _ _ Hr') as [L _]. split; auto.
      now apply (pso_fin_inv _ _ _ Hr'). }
    pose proof (recorded_Q init step stop N pop d x0 (pso_Hinit cfg b func rng) (pso_Hstep cfg b func rng) (in_box b) HQ _ _ _ Hr) as R.
    destruct (reach_sizes init step stop N pop d x0 (pso_Hinit cfg b func rng) (pso_Hstep cfg b func rng) _ _ _ Hr) as (L & _).
    unfold ea_finish in *. 
    split; [now apply R|]. intros g Hg. apply R. lia.
Qed.
End PSO.
