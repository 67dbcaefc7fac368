(** Properties C12-C24 and C74: particle swarm optimization and differential evolution. *)
From Coq Require Import ZArith Reals Bool List Lia Lra.
From Verif Require Import Fl NpList Spec Samplers SamplersSpec SamplersFacts EA EASpec EAFacts PSOFacts PSOFinite FlMag DEFacts.
Import ListNotations.

(** Example data: a 2-dimensional space, four individuals, three generations, the sum of the
    coordinates as objective. *)
Definition ex_box : box := [(fz (-5), fz 10); (fz 0, fz 15)].
Definition ex_row (i : nat) : row := [fbin 1 (- Z.of_nat (S i)); fbin 1 (-1)].
Definition ex_arr : mat := map ex_row (seq 0 4).
Definition ex_pso : pso_config :=
  {| p_pop := 4; p_gen := 3; p_c1 := fbin 3 (-1); p_c2 := fbin 3 (-1); p_w := fbin 1 (-1); p_vrate := fbin 1 (-2) |}.
Definition ex_pso_draws : pso_draws := {| pd_loc := ex_arr; pd_vel := ex_arr; pd_rep := fun _ _ => ex_arr |}.
Definition ex_de (s : de_strategy) : de_config :=
  {| d_pop := 4; d_gen := 3; d_F := fbin 1 (-1); d_CR := fbin 1 (-1); d_strategy := s |}.
Definition ex_de_draws (s : de_strategy) : de_draws :=
  {| dd_loc := ex_arr; dd_donors := fun g i => match s with Rand1 => [0; 2; 3] | _ => [1; 2] end;
     dd_dim := fun _ _ => 1; dd_cr := fun _ _ _ => fbin 1 (-2); dd_rep := fun _ _ => ex_arr |}.
Definition ex_func : objective := fun _ x => Ok (map (fun r => fold_left fadd r f0) x).
Example ex_box_ok : box_ok ex_box.
Proof. repeat constructor. Qed.
Example ex_arr_ok : draw_array 4 2 ex_arr.
Proof. apply draw_array_b. reflexivity. Qed.
Example ex_pso_ok : pso_draws_ok ex_pso ex_box ex_pso_draws.
Proof. split; [exact ex_arr_ok|]. split; [exact ex_arr_ok|]. intros. exact ex_arr_ok. Qed.
Example ex_de_ok s : de_draws_ok (ex_de s) ex_box (ex_de_draws s).
Proof.
  split; [exact ex_arr_ok|]. split; [intros; exact ex_arr_ok|]. split; [|split].
  - intros g i _. destruct s; simpl; repeat split; repeat constructor; simpl; lia.
  - intros. simpl. lia.
  - intros. apply unit_open_b. reflexivity.
Qed.
Example ex_func_ok n : well_behaved ex_func n.
Proof. intros k x L. eexists. split; [reflexivity|]. now rewrite map_length. Qed.
(** On these data both optimizers return, and no response is NaN. *)
Example ex_pso_returns : exists tr out, pso_run ex_pso ex_box ex_func ex_pso_draws None = (tr, Ok out).
Proof. apply pso_returns; auto using ex_func_ok; try exact ex_pso_ok; simpl; lia. Qed.
Example ex_de_returns s : s <> OtherStrategy -> exists tr out, de_run (ex_de s) ex_box ex_func (ex_de_draws s) None = (tr, Ok out).
Proof.
  intros H. apply de_returns; auto using ex_func_ok, ex_de_ok; try (simpl; lia). unfold donors_needed. simpl. destruct s; lia.
Qed.
Definition const_func (v : b64) : objective := fun _ x => Ok (map (fun _ => v) x).
Example const_func_ok v n : well_behaved (const_func v) n.
Proof. intros k x L. eexists. split; [reflexivity|]. now rewrite map_length. Qed.
Lemma const_observed v tr : true_trace (const_func v) tr -> forall k i p w, observed tr k i p w -> w = v.
Proof.
  intros T k i p w (x & y & C & _ & H). pose proof (T _ _ _ C) as E. injection E as ->.
  apply nth_error_In in H. apply in_map_iff in H as (_ & <- & _). reflexivity.
Qed.
Example ex_pso_nan_free : exists tr out, pso_run ex_pso ex_box (const_func f1) ex_pso_draws None = (tr, Ok out) /\ nan_free tr.
Proof.
  destruct (pso_returns ex_pso ex_box (const_func f1) ex_pso_draws None) as (tr & out & E); auto using const_func_ok;
    try exact ex_pso_ok; try (simpl; lia).
  exists tr, out. split; auto. apply pso_calls in E as [T _]. intros k i p w O.
  rewrite (const_observed _ _ T _ _ _ _ O). reflexivity.
Qed.
Example ex_de_nan_free s : s <> OtherStrategy -> exists tr out, de_run (ex_de s) ex_box (const_func f1) (ex_de_draws s) None = (tr, Ok out) /\ nan_free_call tr 0.
Proof.
  intros H. destruct (de_returns (ex_de s) ex_box (const_func f1) (ex_de_draws s) None) as (tr & out & E); auto using const_func_ok, ex_de_ok; try (simpl; lia).
  { unfold donors_needed. simpl. destruct s; lia. }
  exists tr, out. split; auto. apply de_calls in E as [T _]. intros i p w O.
  rewrite (const_observed _ _ T _ _ _ _ O). reflexivity.
Qed.

(** ** C12 PSO stays in the design space *)
Theorem C12_pso_in_space : forall cfg b func rng stop, pso_draws_ok cfg b rng -> box_ok b ->
  forall tr res, pso_run cfg b func rng stop = (tr, res) ->
  (forall x y, In (x, y) tr -> length x = p_pop cfg /\ Forall (not_outside_box b) x) /\
  (forall out, res = Ok out -> not_outside_box b (o_location out) /\
     forall g, g < length tr ->
       Forall (not_outside_box b) (nth g (o_samples out) []) /\ not_outside_box b (nth g (o_best_x_hist out) [])).
Proof. exact pso_in_space. Qed.
Print Assumptions C12_pso_in_space.

(** With bounds up to 2^M and rates up to 2^Q no coordinate is NaN either. *)
Theorem C12_pso_no_nan : forall cfg b func rng stop, pso_draws_ok cfg b rng -> box_ok b ->
  forall M Q, (0 <= M)%Z -> (0 <= Q)%Z -> (2 * M + 3 * Q + 4 <= 1023)%Z ->
  Forall (fun lh => size_le M (fst lh) /\ size_le M (snd lh)) b ->
  size_le Q (p_c1 cfg) -> size_le Q (p_c2 cfg) -> size_le Q (p_w cfg) -> size_le Q (p_vrate cfg) -> (0 <= val (p_vrate cfg))%R ->
  forall tr res, pso_run cfg b func rng stop = (tr, res) ->
  (forall x y, In (x, y) tr -> length x = p_pop cfg /\ Forall (in_box b) x) /\
  (forall out, res = Ok out -> in_box b (o_location out) /\
     forall g, g < length tr ->
       Forall (in_box b) (nth g (o_samples out) []) /\ in_box b (nth g (o_best_x_hist out) [])).
Proof. exact pso_no_nan. Qed.
Print Assumptions C12_pso_no_nan.

(** A negative velocity rate makes the clamp divide 0 by 0. *)
Definition nan_pso : pso_config :=
  {| p_pop := 1; p_gen := 1; p_c1 := f1; p_c2 := f1; p_w := f1; p_vrate := fz (-1) |}.
Definition zero_draws : pso_draws := {| pd_loc := [[f0]]; pd_vel := [[f0]]; pd_rep := fun _ _ => [[f0]] |}.
Theorem C12_negative_rate_refuted : exists cfg b func rng tr out, pso_draws_ok cfg b rng /\ box_ok b /\
  pso_run cfg b func rng None = (tr, Ok out) /\ flt (p_vrate cfg) f0 = true /\
  exists x y, In (x, y) tr /\ ~ Forall (in_box b) x.
Proof.
  exists nan_pso, [(f0, f1)], (const_func f1), zero_draws.
  assert (U : draw_array 1 1 [[f0]]) by (apply draw_array_b; reflexivity).
  assert (D : pso_draws_ok nan_pso [(f0, f1)] zero_draws) by (split; [exact U|split; [exact U|intros; exact U]]).
  destruct (pso_returns nan_pso [(f0, f1)] (const_func f1) zero_draws None D) as (tr & out & E);
    auto using const_func_ok; try (simpl; lia).
  exists tr, out. split; auto. split; [repeat constructor|]. split; auto. split; [reflexivity|].
  assert (C : match fst (pso_run nan_pso [(f0, f1)] (const_func f1) zero_draws None) with
     | [_; ([[x]], _)] => isnan x | _ => false end = true) by reflexivity.
  rewrite E in C. cbn [fst] in C.
  destruct tr as [|c1 [|[x y] tl]]; try discriminate.
  destruct x as [|[|v [|]] [|]]; try discriminate. destruct tl; try discriminate.
  exists [[v]], y. split; [simpl; auto|].
  intros F. inversion F as [|? ? F1 _]; subst. inversion F1 as [|? ? ? ? F2 _]; subst. destruct F2 as [_ F2].
  destruct v; discriminate.
Qed.
Print Assumptions C12_negative_rate_refuted.

Example C12_example : pso_draws_ok ex_pso ex_box ex_pso_draws /\ box_ok ex_box /\ (2 * 10 + 3 * 10 + 4 <= 1023)%Z /\
  Forall (fun lh => size_le 10 (fst lh) /\ size_le 10 (snd lh)) ex_box /\
  size_le 10 (p_c1 ex_pso) /\ size_le 10 (p_c2 ex_pso) /\ size_le 10 (p_w ex_pso) /\ size_le 10 (p_vrate ex_pso) /\
  (0 <= val (p_vrate ex_pso))%R.
Proof.
  assert (A : forall x, isfin x && fle (fz (-1024)) x && fle x (fz 1024) = true -> size_le 10 x).
  { intros x H. apply andb_prop in H as [H H3]. apply andb_prop in H as [H1 H2]. split; auto.
    apply FlFacts.fle_finite in H2; auto. apply FlFacts.fle_finite in H3; auto.
    assert (E1 : Flocq.IEEE754.BinarySingleNaN.B2R (fz 1024) = 1024%R) by (unfold Flocq.IEEE754.BinarySingleNaN.B2R, Flocq.Core.Defs.F2R; simpl; lra).
    assert (E2 : Flocq.IEEE754.BinarySingleNaN.B2R (fz (-1024)) = (-1024)%R) by (unfold Flocq.IEEE754.BinarySingleNaN.B2R, Flocq.Core.Defs.F2R; simpl; lra).
    rewrite E1 in H3. rewrite E2 in H2. unfold val. apply Rabs_le. simpl (Flocq.Core.Raux.bpow _ _).
    split; unfold Z.pow_pos; simpl; lra. }
  split; [exact ex_pso_ok|]. split; [exact ex_box_ok|]. split; [lia|].
  split; [apply Forall_cons; [|apply Forall_cons; [|apply Forall_nil]]; split; apply A; reflexivity|].
  repeat (split; [apply A; reflexivity|]).
  assert (H : unit_open (p_vrate ex_pso)) by (apply unit_open_b; reflexivity). destruct H as [_ [H _]]. exact H.
Qed.

Example ex_pso_moderate : pso_moderate ex_pso ex_box.
Proof.
  exists 10%Z, 10%Z. destruct C12_example as (_ & _ & E). repeat (split; [lia|]). exact (proj2 E).
Qed.

(** ** C13 DE stays in the design space *)
Theorem C13_de_in_space : forall cfg b func rng stop, de_draws_ok cfg b rng -> box_ok b -> isfin (d_F cfg) = true ->
  forall tr res, de_run cfg b func rng stop = (tr, res) ->
  (forall x y, In (x, y) tr -> length x = d_pop cfg /\ Forall (in_box b) x) /\
  (forall out, res = Ok out -> in_box b (o_location out) /\
     forall g, g < length tr ->
       Forall (in_box b) (nth g (o_samples out) []) /\ in_box b (nth g (o_best_x_hist out) [])).
Proof. exact de_in_space. Qed.
Print Assumptions C13_de_in_space.
Example C13_example : de_draws_ok (ex_de Rand1) ex_box (ex_de_draws Rand1) /\ box_ok ex_box /\ isfin (d_F (ex_de Rand1)) = true.
Proof. split; [apply ex_de_ok|]. split; [exact ex_box_ok|reflexivity]. Qed.

(** ** C14 best-so-far never gets worse *)
Theorem C14_pso_history : forall cfg b func rng stop, pso_draws_ok cfg b rng ->
  forall tr out, pso_run cfg b func rng stop = (tr, Ok out) -> nan_free_call tr 0 ->
  (forall g, g < length tr -> isnan (entry g (o_best_y_hist out)) = false) /\
  forall g, S g < length tr -> fle (entry (S g) (o_best_y_hist out)) (entry g (o_best_y_hist out)) = true.
Proof. exact pso_monotone. Qed.
Print Assumptions C14_pso_history.
Theorem C14_de_history : forall cfg b func rng stop, de_draws_ok cfg b rng ->
  forall tr out, de_run cfg b func rng stop = (tr, Ok out) -> nan_free_call tr 0 ->
  (forall g, g < length tr -> isnan (entry g (o_best_y_hist out)) = false) /\
  forall g, S g < length tr -> fle (entry (S g) (o_best_y_hist out)) (entry g (o_best_y_hist out)) = true.
Proof. exact de_monotone. Qed.
Print Assumptions C14_de_history.
Example C14_example : (exists tr out, pso_run ex_pso ex_box (const_func f1) ex_pso_draws None = (tr, Ok out) /\ nan_free_call tr 0) /\
  (exists tr out, de_run (ex_de Best1) ex_box (const_func f1) (ex_de_draws Best1) None = (tr, Ok out) /\ nan_free_call tr 0).
Proof.
  split; [|apply ex_de_nan_free; discriminate]. destruct ex_pso_nan_free as (tr & out & E & H). exists tr, out. split; auto.
Qed.

(** ** C15 the returned optimum is the smallest response and is attained where it says *)
Theorem C15_pso_best : forall cfg b func rng stop, pso_draws_ok cfg b rng ->
  forall tr out, pso_run cfg b func rng stop = (tr, Ok out) -> nan_free tr ->
  best_observed tr (fun _ => True) (fun _ => True) (o_location out) (o_value out) /\
  forall g, g < length tr ->
    best_observed tr (fun k => k <= g) (fun _ => True) (nth g (o_best_x_hist out) []) (entry g (o_best_y_hist out)).
Proof. exact pso_best. Qed.
Print Assumptions C15_pso_best.
Theorem C15_de_best : forall cfg b func rng stop, de_draws_ok cfg b rng ->
  forall tr out, de_run cfg b func rng stop = (tr, Ok out) -> nan_free_call tr 0 ->
  best_observed tr (fun _ => True) (fun _ => True) (o_location out) (o_value out) /\
  forall g, g < length tr ->
    best_observed tr (fun k => k <= g) (fun _ => True) (nth g (o_best_x_hist out) []) (entry g (o_best_y_hist out)).
Proof. exact de_best. Qed.
Print Assumptions C15_de_best.

(** In PSO one NaN in a later generation hides what that generation found. *)
Definition hide_pso : pso_config :=
  {| p_pop := 2; p_gen := 1; p_c1 := f1; p_c2 := f1; p_w := f1; p_vrate := fbin 1 (-2) |}.
Definition hide_draws : pso_draws :=
  {| pd_loc := [[f0]; [fbin 1 (-1)]]; pd_vel := [[f0]; [f0]]; pd_rep := fun _ _ => [[f0]; [f0]] |}.
Definition hide_func : objective := fun k _ => Ok (match k with O => [f1; f1] | _ => [fnan; f0] end).
Theorem C15_pso_late_nan_refuted : exists cfg b func rng tr out, pso_draws_ok cfg b rng /\ box_ok b /\
  pso_run cfg b func rng None = (tr, Ok out) /\ nan_free_call tr 0 /\
  exists k i p w, observed tr k i p w /\ isnan w = false /\ flt w (o_value out) = true.
Proof.
  exists hide_pso, [(f0, f1)], hide_func, hide_draws.
  assert (D : pso_draws_ok hide_pso [(f0, f1)] hide_draws).
  { split; [|split; [|intros]]; apply draw_array_b; reflexivity. }
  destruct (pso_returns hide_pso [(f0, f1)] hide_func hide_draws None D) as (tr & out & E); try (simpl; lia).
  { intros k x L. exists (match k with O => [f1; f1] | _ => [fnan; f0] end). split; [reflexivity|]. destruct k; reflexivity. }
  exists tr, out. split; auto. split; [repeat constructor|]. split; auto.
  assert (T := pso_calls _ _ _ _ _ _ _ E). destruct T as [T _].
  split.
  - intros i p v (x & y & C & _ & Hv). apply T in C. injection C as ->. destruct i as [|[|[|]]]; try discriminate; injection Hv as <-; reflexivity.
  - assert (C : match snd (pso_run hide_pso [(f0, f1)] hide_func hide_draws None) with
       | Ok o => flt f0 (o_value o) | _ => false end = true) by reflexivity.
    rewrite E in C. cbn [snd] in C.
    destruct (pso_outputs _ _ _ _ _ _ _ E) as (_ & _ & L & _). simpl in L.
    destruct (pso_in_space _ _ _ _ _ D (ltac:(repeat constructor) : box_ok [(f0, f1)]) _ _ E) as [I _].
    destruct tr as [|c0 [|[x y] [|]]]; simpl in L; try lia.
    destruct (I x y (ltac:(simpl; auto))) as [Lx _]. destruct x as [|p0 [|p1 [|]]]; try discriminate.
    pose proof (T 1 _ _ eq_refl) as Ey. subst y.
    exists 1, 1, p1, f0. split; [|auto]. exists [p0; p1], [fnan; f0]. repeat split.
Qed.
Print Assumptions C15_pso_late_nan_refuted.
Example C15_example : (exists tr out, pso_run ex_pso ex_box (const_func f1) ex_pso_draws None = (tr, Ok out) /\ nan_free tr) /\
  (exists tr out, de_run (ex_de Rand1) ex_box (const_func f1) (ex_de_draws Rand1) None = (tr, Ok out) /\ nan_free_call tr 0).
Proof. split; [exact ex_pso_nan_free|apply ex_de_nan_free; discriminate]. Qed.

(** ** C16 DE selection *)
Theorem C16_de_selection : forall cfg b func rng stop, de_draws_ok cfg b rng ->
  forall tr out, de_run cfg b func rng stop = (tr, Ok out) ->
  (forall g, g < length tr -> length (nth g (o_samples out) []) = d_pop cfg /\ length (nth g (o_responses out) []) = d_pop cfg) /\
  (forall g i, S g < length tr -> i < d_pop cfg ->
     let before := entry i (nth g (o_responses out) []) in let after := entry i (nth (S g) (o_responses out) []) in
     exists u v, observed tr (S g) i u v /\
       ((flt v before = true /\ after = v /\ nth i (nth (S g) (o_samples out) []) [] = u) \/
        (flt v before = false /\ after = before /\ nth i (nth (S g) (o_samples out) []) [] = nth i (nth g (o_samples out) []) []))) /\
  (nan_free_call tr 0 -> forall g i, g < length tr -> i < d_pop cfg ->
     best_observed tr (fun k => k <= g) (fun j => j = i)
       (nth i (nth g (o_samples out) []) []) (entry i (nth g (o_responses out) []))).
Proof. exact de_greedy. Qed.
Print Assumptions C16_de_selection.
Theorem C16_de_never_worse : forall cfg b func rng stop tr out, de_draws_ok cfg b rng ->
  de_run cfg b func rng stop = (tr, Ok out) -> nan_free_call tr 0 ->
  forall g i, S g < length tr -> i < d_pop cfg ->
    fle (entry i (nth (S g) (o_responses out) [])) (entry i (nth g (o_responses out) [])) = true.
Proof. exact de_never_worse. Qed.
Print Assumptions C16_de_never_worse.
Example C16_example : de_draws_ok (ex_de Best1) ex_box (ex_de_draws Best1) /\
  exists tr out, de_run (ex_de Best1) ex_box (const_func f1) (ex_de_draws Best1) None = (tr, Ok out) /\ nan_free_call tr 0.
Proof. split; [apply ex_de_ok|apply ex_de_nan_free; discriminate]. Qed.

(** ** C17 PSO personal bests *)
Theorem C17_pso_personal_best : forall cfg b func rng stop, pso_draws_ok cfg b rng ->
  forall tr out, pso_run cfg b func rng stop = (tr, Ok out) -> nan_free tr ->
  length (o_pop_best out) = p_pop cfg /\ length (o_pop_best_x out) = p_pop cfg /\
  forall i, i < p_pop cfg ->
    best_observed tr (fun _ => True) (fun j => j = i) (nth i (o_pop_best_x out) []) (entry i (o_pop_best out)).
Proof. exact pso_personal_best. Qed.
Print Assumptions C17_pso_personal_best.
Example C17_example : pso_draws_ok ex_pso ex_box ex_pso_draws /\
  exists tr out, pso_run ex_pso ex_box (const_func f1) ex_pso_draws None = (tr, Ok out) /\ nan_free tr.
Proof. split; [exact ex_pso_ok|exact ex_pso_nan_free]. Qed.

(** ** C18 what the outputs mean after an early stop *)
Theorem C18_pso_outputs : forall cfg b func rng stop tr out, pso_run cfg b func rng stop = (tr, Ok out) ->
  length (o_best_y_hist out) = S (p_gen cfg) /\ length (o_best_x_hist out) = S (p_gen cfg) /\
  2 <= length tr <= S (p_gen cfg) /\
  o_value out = entry (length tr - 1) (o_best_y_hist out) /\
  o_location out = nth (length tr - 1) (o_best_x_hist out) [] /\
  (length tr < S (p_gen cfg) -> o_best_y out = f0 /\ o_best_x out = repeat f0 (length b)) /\
  (length tr = S (p_gen cfg) -> o_best_y out = o_value out /\ o_best_x out = o_location out).
Proof. exact pso_outputs. Qed.
Print Assumptions C18_pso_outputs.
Theorem C18_de_outputs : forall cfg b func rng stop tr out, de_run cfg b func rng stop = (tr, Ok out) ->
  length (o_best_y_hist out) = S (d_gen cfg) /\ length (o_best_x_hist out) = S (d_gen cfg) /\
  2 <= length tr <= S (d_gen cfg) /\
  o_value out = entry (length tr - 1) (o_best_y_hist out) /\
  o_location out = nth (length tr - 1) (o_best_x_hist out) [] /\
  (length tr < S (d_gen cfg) -> o_best_y out = f0 /\ o_best_x out = repeat f0 (length b)) /\
  (length tr = S (d_gen cfg) -> o_best_y out = o_value out /\ o_best_x out = o_location out).
Proof. exact de_outputs. Qed.
Print Assumptions C18_de_outputs.
(** An early stop does happen: threshold 2, constant response 1, three generations allowed, one run. *)
Example C18_example : exists tr out, pso_run ex_pso ex_box (const_func f1) ex_pso_draws (Some (fz 2)) = (tr, Ok out) /\
  length tr < S (p_gen ex_pso) /\ feq (o_value out) f1 = true /\ feq (o_best_y out) f0 = true.
Proof.
  destruct (pso_returns ex_pso ex_box (const_func f1) ex_pso_draws (Some (fz 2))) as (tr & out & E);
    auto using const_func_ok; try exact ex_pso_ok; try (simpl; lia).
  exists tr, out. split; auto.
  destruct (pso_outputs _ _ _ _ _ _ _ E) as (Ly & _ & L & Ev & _ & A & _).
  assert (H : length tr < S (p_gen ex_pso)).
  { assert (B : Nat.ltb (length (fst (pso_run ex_pso ex_box (const_func f1) ex_pso_draws (Some (fz 2))))) 4 = true) by reflexivity.
    rewrite E in B. apply Nat.ltb_lt in B. exact B. }
  split; auto. destruct (A H) as [-> _]. split; [|reflexivity].
  assert (B : match snd (pso_run ex_pso ex_box (const_func f1) ex_pso_draws (Some (fz 2))) with Ok o => feq (o_value o) f1 | _ => false end = true) by reflexivity.
  rewrite E in B. exact B.
Qed.

(** ** C19 stopping rule and number of evaluations *)
Theorem C19_pso_stopping : forall cfg b func rng stop tr out, pso_run cfg b func rng stop = (tr, Ok out) ->
  (forall g t, stop = Some t -> 1 <= g -> S g < length tr -> flt (entry g (o_best_y_hist out)) t = false) /\
  (length tr = S (p_gen cfg) \/ exists t, stop = Some t /\ flt (entry (length tr - 1) (o_best_y_hist out)) t = true).
Proof. exact pso_stopping. Qed.
Print Assumptions C19_pso_stopping.
Theorem C19_de_stopping : forall cfg b func rng stop tr out, de_run cfg b func rng stop = (tr, Ok out) ->
  (forall g t, stop = Some t -> 1 <= g -> S g < length tr -> flt (entry g (o_best_y_hist out)) t = false) /\
  (length tr = S (d_gen cfg) \/ exists t, stop = Some t /\ flt (entry (length tr - 1) (o_best_y_hist out)) t = true).
Proof. exact de_stopping. Qed.
Print Assumptions C19_de_stopping.
Theorem C19_pso_calls : forall cfg b func rng stop tr res, pso_run cfg b func rng stop = (tr, res) ->
  true_trace func tr /\ 1 <= length tr <= S (p_gen cfg).
Proof. exact pso_calls. Qed.
Print Assumptions C19_pso_calls.
Theorem C19_de_calls : forall cfg b func rng stop tr res, de_run cfg b func rng stop = (tr, res) ->
  true_trace func tr /\ 1 <= length tr <= S (d_gen cfg).
Proof. exact de_calls. Qed.
Print Assumptions C19_de_calls.
(** Both runs return normally as soon as the objective does. *)
Theorem C19_pso_returns : forall cfg b func rng stop, pso_draws_ok cfg b rng -> well_behaved func (p_pop cfg) ->
  1 <= p_pop cfg -> 1 <= p_gen cfg -> exists tr out, pso_run cfg b func rng stop = (tr, Ok out).
Proof. exact pso_returns. Qed.
Print Assumptions C19_pso_returns.
Theorem C19_de_returns : forall cfg b func rng stop, de_draws_ok cfg b rng -> well_behaved func (d_pop cfg) ->
  donors_needed cfg <= d_pop cfg -> d_strategy cfg <> OtherStrategy -> 1 <= length b -> 1 <= d_gen cfg ->
  exists tr out, de_run cfg b func rng stop = (tr, Ok out).
Proof. exact de_returns. Qed.
Print Assumptions C19_de_returns.
Example C19_example : (exists tr out, pso_run ex_pso ex_box ex_func ex_pso_draws None = (tr, Ok out)) /\
  (exists tr out, de_run (ex_de Rand1) ex_box ex_func (ex_de_draws Rand1) None = (tr, Ok out)).
Proof. split; [exact ex_pso_returns|apply ex_de_returns; discriminate]. Qed.

(** ** C20 DE donors *)
Theorem C20_de_donors : forall cfg b rng g i x gbx, de_draws_ok cfg b rng -> donors_needed cfg <= d_pop cfg -> i < d_pop cfg ->
  exists r, length r = donors_needed cfg /\ Forall (fun k => k < d_pop cfg /\ k <> i) r /\
    (NoDup r <-> ~ (In i (dd_donors rng g i) /\ In (S i mod d_pop cfg) (dd_donors rng g i))) /\
    let at_donor k := nth (nth k r 0) x [] in
    de_mutant cfg rng g i x gbx =
      match d_strategy cfg with
      | Rand1 => map2 fadd (at_donor 0) (map (fmul (d_F cfg)) (map2 fsub (at_donor 1) (at_donor 2)))
      | _ => map2 fadd (nth g gbx []) (map (fmul (d_F cfg)) (map2 fsub (at_donor 0) (at_donor 1)))
      end.
Proof. exact de_donors. Qed.
Print Assumptions C20_de_donors.
(** Both outcomes occur: target 1 with donors 0, 2, 3 keeps them distinct; target 2 repeats 3. *)
Example C20_example : de_draws_ok (ex_de Rand1) ex_box (ex_de_draws Rand1) /\ donors_needed (ex_de Rand1) <= d_pop (ex_de Rand1) /\
  ~ (In 1 (dd_donors (ex_de_draws Rand1) 0 1) /\ In (2 mod 4) (dd_donors (ex_de_draws Rand1) 0 1)) /\
  (In 2 (dd_donors (ex_de_draws Rand1) 0 2) /\ In (3 mod 4) (dd_donors (ex_de_draws Rand1) 0 2)).
Proof. split; [apply ex_de_ok|]. simpl. split; [unfold donors_needed; simpl; lia|]. intuition lia. Qed.

(** ** C21 DE crossover *)
Theorem C21_de_trials : forall cfg b rng g x gbx u, de_draws_ok cfg b rng -> de_new_u cfg b rng g x gbx = Ok u ->
  Forall (fun r => length r = length b) x -> length x = d_pop cfg ->
  exists t, u = loc_cons b (dd_rep rng g) t /\ length t = d_pop cfg /\
  forall i, i < d_pop cfg ->
    let target := nth i x [] in let mutant := de_mutant cfg rng g i x gbx in let trial := nth i t [] in
    length trial = length b /\
    (forall j, j < length b -> nth j trial f0 = nth j mutant f0 \/ nth j trial f0 = nth j target f0) /\
    (exists j, j < length b /\ nth j trial f0 = nth j mutant f0) /\
    (forall j, j < length b -> flt (dd_cr rng g i j) (d_CR cfg) = true -> nth j trial f0 = nth j mutant f0).
Proof. exact de_trials. Qed.
Print Assumptions C21_de_trials.
Example C21_example : Forall (fun r => length r = length ex_box) (location_init ex_box ex_arr) /\
  length (location_init ex_box ex_arr) = d_pop (ex_de Rand1) /\
  exists u, de_new_u (ex_de Rand1) ex_box (ex_de_draws Rand1) 0 (location_init ex_box ex_arr) [] = Ok u.
Proof. split; [repeat constructor|]. split; [reflexivity|]. unfold de_new_u, donors_needed. simpl. eauto. Qed.

(** ** C22 NaN in the first population *)
Theorem C22_pso_poisoned : forall cfg b func rng stop tr out, pso_run cfg b func rng stop = (tr, Ok out) ->
  (exists i p v, observed tr 0 i p v /\ isnan v = true) ->
  (forall g, g < length tr -> isnan (entry g (o_best_y_hist out)) = true) /\ isnan (o_value out) = true /\
  length tr = S (p_gen cfg).
Proof. exact pso_poisoned. Qed.
Print Assumptions C22_pso_poisoned.
Theorem C22_de_poisoned : forall cfg b func rng stop tr out, de_run cfg b func rng stop = (tr, Ok out) ->
  (exists i p v, observed tr 0 i p v /\ isnan v = true) ->
  (forall g, g < length tr -> isnan (entry g (o_best_y_hist out)) = true) /\ isnan (o_value out) = true /\
  length tr = S (d_gen cfg).
Proof. exact de_poisoned. Qed.
Print Assumptions C22_de_poisoned.
(** First response NaN, all later responses 0, stopping threshold 1. *)
Definition nan_first : objective := fun k x => Ok (match k with O => fnan :: map (fun _ => f1) (tl x) | _ => map (fun _ => f0) x end).
Example C22_example : exists tr out, pso_run ex_pso ex_box nan_first ex_pso_draws (Some f1) = (tr, Ok out) /\
  exists i p v, observed tr 0 i p v /\ isnan v = true.
Proof.
  destruct (pso_returns ex_pso ex_box nan_first ex_pso_draws (Some f1)) as (tr & out & E); try exact ex_pso_ok; try (simpl; lia).
  { intros k x L. eexists. split; [reflexivity|]. destruct k; [|now rewrite map_length].
    destruct x; [discriminate|]. simpl. now rewrite map_length. }
  exists tr, out. split; auto.
  destruct (pso_calls _ _ _ _ _ _ _ E) as [T L]. destruct (pso_in_space _ _ _ _ _ ex_pso_ok ex_box_ok _ _ E) as [I _].
  destruct tr as [|[x y] tr]; [simpl in L; lia|]. destruct (I x y (or_introl eq_refl)) as [Lx _].
  destruct x as [|p x]; [discriminate|]. pose proof (T 0 _ _ eq_refl) as ->.
  exists 0, p, fnan. split; [|reflexivity]. eexists _, _. split; [reflexivity|]. split; reflexivity.
Qed.

(** ** C23 velocity clamp *)
Theorem C23_clamp : forall vmax v, (0 <= vmax)%R ->
  (Rabs (clampR vmax v) <= vmax)%R /\ ((Rabs v <= vmax)%R -> clampR vmax v = v) /\
  ((vmax < Rabs v)%R -> Rabs (clampR vmax v) = vmax) /\ (0 <= v * clampR vmax v)%R.
Proof. exact clamp_exact. Qed.
Print Assumptions C23_clamp.
(** In binary64 a clamped velocity can exceed v_max: v = 27.1, v_max = 14.5. *)
Theorem C23_binary64_refuted : exists vmax v, isfin vmax = true /\ isfin v = true /\ flt f0 vmax = true /\
  flt vmax (fabs (vel_clamp vmax v)) = true.
Proof. exists (fbin 29 (-1)), (fbin 0x1b19999999999a (-48)). repeat split. Qed.
Print Assumptions C23_binary64_refuted.
(** ... but never the next power of two. *)
Theorem C23_binary64_bound : forall v vmax e k, (0 <= k < 1024)%Z -> (-1074 <= e + k < 1024)%Z ->
  size_le e v -> size_le k vmax -> (0 < Rabs (val v))%R -> size_le k (fdiv (fmul v vmax) (fabs v)).
Proof. exact clamp_mag. Qed.
Print Assumptions C23_binary64_bound.
Example C23_example : (clampR 1 (-3) = -1)%R.
Proof.
  unfold clampR, clamp. rewrite Rabs_left by lra. replace (- (-3))%R with 3%R by lra. destruct (Rlt_dec 1 3); lra.
Qed.

(** ** C24 degenerate budgets *)
Theorem C24_pso_no_generation : forall cfg b func rng stop, pso_draws_ok cfg b rng -> well_behaved func (p_pop cfg) ->
  1 <= p_pop cfg -> p_gen cfg = 0 ->
  exists x, pso_run cfg b func rng stop = ([(x, func 0 x)], Raise UnboundLocalError).
Proof. exact pso_no_generation. Qed.
Print Assumptions C24_pso_no_generation.
Theorem C24_de_no_generation : forall cfg b func rng stop, de_draws_ok cfg b rng -> well_behaved func (d_pop cfg) ->
  1 <= d_pop cfg -> d_gen cfg = 0 ->
  exists x, de_run cfg b func rng stop = ([(x, func 0 x)], Raise UnboundLocalError).
Proof. exact de_no_generation. Qed.
Print Assumptions C24_de_no_generation.
Theorem C24_de_rejected : forall cfg b func rng stop, de_draws_ok cfg b rng -> well_behaved func (d_pop cfg) ->
  1 <= d_pop cfg -> 1 <= d_gen cfg -> d_strategy cfg = OtherStrategy \/ d_pop cfg < donors_needed cfg ->
  exists x, de_run cfg b func rng stop = ([(x, func 0 x)], Raise ValueError).
Proof. exact de_rejected. Qed.
Print Assumptions C24_de_rejected.
Example C24_example : de_draws_ok (ex_de OtherStrategy) ex_box (ex_de_draws OtherStrategy) /\
  well_behaved ex_func (d_pop (ex_de OtherStrategy)) /\ 1 <= d_gen (ex_de OtherStrategy).
Proof. split; [apply ex_de_ok|]. split; [apply ex_func_ok|simpl; lia]. Qed.

(** ** C74 PSO records what it evaluated *)
Theorem C74_pso_records : forall cfg b func rng stop tr out, pso_run cfg b func rng stop = (tr, Ok out) ->
  forall g, g < length tr -> called tr g (nth g (o_samples out) []) (nth g (o_responses out) []).
Proof. exact pso_recorded. Qed.
Print Assumptions C74_pso_records.
Example C74_example : exists tr out, pso_run ex_pso ex_box ex_func ex_pso_draws None = (tr, Ok out) /\ 0 < length tr.
Proof.
  destruct ex_pso_returns as (tr & out & E). exists tr, out. split; auto. apply pso_calls in E. lia.
Qed.
