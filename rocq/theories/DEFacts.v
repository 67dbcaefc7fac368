(** Proofs about the DE model. *)
From Coq Require Import ZArith Reals Bool List Lia Lra.
From Flocq Require Import IEEE754.BinarySingleNaN.
From Verif Require Import Fl FlFacts FlMag NpList NpFacts Spec Samplers SamplersSpec SamplersFacts EA EASpec EAFacts.
Import ListNotations.

(** ** donors and crossover *)
Lemma fix_donor_valid n i r : 2 <= n -> i < n -> r < n -> fix_donor n i r < n /\ fix_donor n i r <> i.
Proof.
  intros Hn Hi Hr. unfold fix_donor. destruct (Nat.eqb_spec r i); [|auto].
  destruct (Nat.ltb_spec i (n - 1)); lia.
Qed.
(** the index that replaces the target *)
Definition successor (n i : nat) : nat := if Nat.ltb i (n - 1) then S i else 0.
Lemma fix_donor_distinct n i r s : r <> s -> fix_donor n i r = fix_donor n i s <->
  False \/ (r = i /\ s = successor n i) \/ (s = i /\ r = successor n i).
Proof.
  intros H. unfold fix_donor, successor. destruct (Nat.eqb_spec r i), (Nat.eqb_spec s i); subst; try tauto;
  destruct (Nat.ltb_spec i (n - 1)); split; intros; try (destruct H1 as [|[|]]; tauto || intuition lia); intuition lia.
Qed.

Section DE.
Variable cfg : de_config.
Variable b : box.
Variable func : objective.
Variable rng : de_draws.
Variable stop : option b64.
Let N := d_gen cfg.
Let pop := d_pop cfg.
Let d := length b.
Let x0 := location_init b (dd_loc rng).
Let init := de_init cfg b func rng.
Let step := de_step cfg b func rng.
Notation reach := (reach init step stop N).

Lemma de_run_eq : de_run cfg b func rng stop = run init step stop N.
Proof. reflexivity. Qed.

Lemma de_Hinit tr s : init = (tr, Ok s) -> common_init pop d N x0 tr s.
Proof.
  unfold init, de_init. fold x0. destruct (evaluate func (d_pop cfg) [] x0) as [t y] eqn:E.
  intros [= <- H]. destruct y as [y|]; cbn [bind] in H; [|discriminate].
  apply evaluate_ok in E as (-> & Ly & _).
  destruct (np_min y) as [m|] eqn:Em; cbn [bind] in H; [|discriminate].
  destruct (np_argmin y) as [k|] eqn:Ek; cbn [bind] in H; [|discriminate].
  injection H as <-. exists y, m, k. simpl. repeat split; auto.
Qed.

Lemma de_step_inv g tr s tr' s' : step g tr s = (tr', Ok s') -> common_step pop g tr s tr' s' /\
  exists u y, de_new_u cfg b rng g (st_x s) (st_gbx s) = Ok u /\ tr' = tr ++ [(u, Ok y)] /\ length y = pop /\
    st_x s' = de_select_x y (st_obj s) u (st_x s) /\ st_obj s' = de_select_obj y (st_obj s).
Proof.
  unfold step, de_step. destruct (de_new_u cfg b rng g (st_x s) (st_gbx s)) as [u|]; [|discriminate].
  destruct (evaluate func (d_pop cfg) tr u) as [t y] eqn:E.
  intros [= <- H]. destruct y as [y|]; cbn [bind] in H; [|discriminate].
  apply evaluate_ok in E as (-> & Ly & _).
  destruct (update_gen_optimum _ _ _ _ _) as [[gb gbx]|] eqn:Eg; cbn [bind] in H; [|discriminate].
  injection H as <-. simpl. split; [|exists u, y; auto 6]. exists u, y. simpl. repeat split; auto.
Qed.
Lemma de_Hstep g tr s tr' s' : step g tr s = (tr', Ok s') -> common_step pop g tr s tr' s'.
Proof. intros H. now apply de_step_inv. Qed.

Lemma select_obj_nth i new old : length new = length old -> i < length new ->
  nth i (de_select_obj new old) f0 = if flt (nth i new f0) (nth i old f0) then nth i new f0 else nth i old f0.
Proof. intros L Hi. unfold de_select_obj. now rewrite (map2_nth _ _ _ i f0 f0) by lia. Qed.
Lemma select_x_nth i new old (x p : mat) : length new = length old -> length x = length new -> length p = length new -> i < length new ->
  nth i (de_select_x new old x p) [] = if flt (nth i new f0) (nth i old f0) then nth i x [] else nth i p [].
Proof.
  intros L1 L2 L3 Hi. unfold de_select_x.
  unfold mat, row in *. erewrite (map2_nth _ _ _ i (f0, f0) ([], [])) by (rewrite combine_length; lia).
  rewrite !combine_nth by lia. reflexivity.
Qed.

Lemma new_u_length g x gbx u : de_new_u cfg b rng g x gbx = Ok u -> length u = pop.
Proof.
  unfold de_new_u. destruct (d_strategy cfg); try discriminate;
  (destruct (Nat.ltb (d_pop cfg) (donors_needed cfg)); [discriminate|]);
  (destruct (Nat.eqb (length b) 0); [discriminate|]);
  intros [= <-]; unfold loc_cons; now rewrite imap_length, map_length, seq_length.
Qed.

Hypothesis Hrng : de_draws_ok cfg b rng.
Lemma x0_length : length x0 = pop.
Proof. destruct Hrng as ([L _] & _). unfold x0. now rewrite location_init_length. Qed.

Lemma de_lengths G tr s : reach G tr s -> length (st_x s) = pop /\ length (st_obj s) = pop.
Proof.
  induction 1 as [tr s H|g tr s tr' s' Hr IH HN Hf Es].
  - destruct (init_best init N pop d x0 de_Hinit _ _ H) as (y & m & k1 & -> & Ly & -> & -> & _).
    split; auto. apply x0_length.
  - destruct (de_step_inv _ _ _ _ _ Es) as (_ & u & y & Eu & _ & Ly & -> & ->). apply new_u_length in Eu.
    destruct IH as [A B]. unfold de_select_x, de_select_obj. rewrite !map2_length, !combine_length. mlia.
Qed.

(** greedy selection: each individual is its own best observation *)
Lemma de_individuals G tr s : reach G tr s -> nan_free_call tr 0 -> forall i, i < pop ->
  best_observed tr (fun _ => True) (fun j => j = i) (nth i (st_x s) []) (nth i (st_obj s) f0).
Proof.
  induction 1 as [tr s H|g tr s tr' s' Hr IH HN Hf Es]; intros Hn i Hi.
  - destruct (init_best init N pop d x0 de_Hinit _ _ H) as (y & m & k1 & -> & Ly & -> & -> & _).
    pose proof x0_length as Lx.
    assert (O : observed [(x0, Ok y)] 0 i (nth i x0 []) (nth i y f0)).
    { exists x0, y. split; [reflexivity|]. split; apply nth_error_nth'; mlia. }
    split.
    + intros k j q w _ -> (x & y' & C & Hp & Hw) Nw. destruct k as [|[|k]]; try discriminate. injection C as <- <-.
      rewrite (nth_error_nth_eq _ _ _ f0 Hw). now apply fle_refl.
    + exists 0, i, (nth i y f0). repeat split; auto. apply feq_refl. eapply Hn. exact O.
  - destruct (de_step_inv _ _ _ _ _ Es) as (_ & u & y & Eu & Et & Ly & -> & ->). apply new_u_length in Eu.
    destruct (de_lengths _ _ _ Hr) as [Lx Lo].
    destruct (reach_sizes init step stop N pop d x0 de_Hinit de_Hstep _ _ _ Hr) as (L & _).
    rewrite select_obj_nth, select_x_nth by mlia.
    assert (Hn0 : nan_free_call tr 0) by (intros j p v Ho; eapply Hn; rewrite Et; apply observed_app; exact Ho).
    destruct (IH Hn0 i Hi) as (A & k & j & w & _ & Hj & Ow & F).
    assert (No : isnan (nth i (st_obj s) f0) = false) by (apply feq_iff in F as [_ F]; now apply fle_nnan_l in F).
    assert (O : observed tr' (S g) i (nth i u []) (nth i y f0)).
    { exists u, y. split; [rewrite Et, <- L; apply called_last|]. split; apply nth_error_nth'; mlia. }
    assert (Old : forall k j q w, j = i -> observed tr' k j q w -> observed tr k j q w \/ k = S g /\ w = nth i y f0).
    { intros k' j' q w' -> Ho. pose proof (observed_lt _ _ _ _ _ Ho) as Hk. rewrite Et, app_length in Hk. simpl in Hk.
      destruct (Nat.eq_dec k' (S g)) as [->|]; [right|left].
      - split; auto. destruct Ho as (x & y' & C' & _ & Hw). rewrite Et, <- L in C'. apply called_last_inv in C' as [-> ->].
        symmetry. now apply nth_error_nth_eq.
      - rewrite Et in Ho. eapply observed_app_inv; [|exact Ho]. lia. }
    destruct (flt (nth i y f0) (nth i (st_obj s) f0)) eqn:D.
    + split.
      * intros k' j' q w' _ Hj' Ho Nw. destruct (Old _ _ _ _ Hj' Ho) as [Ho'|[_ ->]].
        -- eapply fle_trans; [apply flt_fle; exact D|]. eapply A; eauto.
        -- now apply fle_refl.
      * exists (S g), i, (nth i y f0). repeat split; auto. apply feq_refl. now apply flt_nnan_l in D.
    + split.
      * intros k' j' q w' _ Hj' Ho Nw. destruct (Old _ _ _ _ Hj' Ho) as [Ho'|[_ ->]].
        -- eapply A; eauto.
        -- now apply flt_false.
      * exists k, j, w. repeat split; auto. rewrite Et. now apply observed_app.
Qed.

Lemma de_pop_ok G tr s : reach G tr s -> nan_free_call tr 0 -> pop_ok tr G s.
Proof.
  intros Hr Hn. destruct (de_lengths _ _ _ Hr) as [Lx Lo].
  destruct (reach_sizes init step stop N pop d x0 de_Hinit de_Hstep _ _ _ Hr) as (L & _ & _ & _ & _ & _ & _ & HC & _).
  assert (B := de_individuals _ _ _ Hr Hn).
  split; [mlia|]. split.
  - intros i Hi. rewrite Lo in Hi. destruct (B i Hi) as (_ & k & j & w & _ & -> & Ow & F).
    pose proof (observed_lt _ _ _ _ _ Ow) as Hk.
    assert (No : isnan (nth i (st_obj s) f0) = false) by (apply feq_iff in F as [_ F]; now apply fle_nnan_l in F).
    split; auto. exists k, w. split; [lia|]. auto.
  - intros i p w Ho Nw. destruct Ho as (x & y & C & Hp & Hw). destruct (HC G (le_n G)) as (x' & y' & C' & Ly).
    destruct (called_fun _ _ _ _ _ _ C C') as [<- <-]. pose proof (nth_error_lt _ _ _ Hw) as Hi. rewrite Ly in Hi.
    exists (nth i (st_obj s) f0). split; [apply nth_In; lia|]. destruct (B i Hi) as (A & _).
    apply (A G i p w); auto. exists x, y. auto.
Qed.

Theorem de_best trf out : de_run cfg b func rng stop = (trf, Ok out) -> nan_free_call trf 0 ->
  best_observed trf (fun _ => True) (fun _ => True) (o_location out) (o_value out) /\
  forall g, g < length trf ->
    best_observed trf (fun k => k <= g) (fun _ => True) (nth g (o_best_x_hist out) []) (entry g (o_best_y_hist out)).
Proof.
  rewrite de_run_eq. intros E Hn. destruct (run_ok _ _ _ _ _ _ E) as (G & s & Hr & HG & _ & ->). simpl.
  destruct (reach_sizes init step stop N pop d x0 de_Hinit de_Hstep _ _ _ Hr) as (L & _ & Lg & _).
  assert (HP : forall tr c, tr <> [] -> nan_free_call (tr ++ [c]) 0 -> nan_free_call tr 0).
  { intros tr c Hne H i p v O. eapply H. apply observed_app. exact O. }
  pose proof (best_history init step stop N pop d x0 de_Hinit de_Hstep (fun tr => nan_free_call tr 0)
    HP de_pop_ok _ _ _ Hr Hn) as B.
  split.
  - destruct (B G (le_n G)) as (A & k & i & w & Hk & _ & O & F). split.
    + intros k' i' q w' _ _ O' Nw. apply (A k' i' q w'); auto. apply observed_lt in O'. lia.
    + exists k, i, w. auto.
  - intros g Hg. unfold entry. rewrite (nth_indep _ fnan f0) by lia. apply B. lia.
Qed.

(** recorded generations *)
Lemma best_weaken tr (K K' I : nat -> Prop) p v : (forall k, k < length tr -> K k <-> K' k) ->
  best_observed tr K I p v -> best_observed tr K' I p v.
Proof.
  intros H (A & k & i & w & Kk & Ii & O & F). split.
  - intros k' i' q w' Kk' Ii' O' Nw. apply (A k' i' q w'); auto. apply H; auto. eapply observed_lt; eauto.
  - exists k, i, w. repeat split; auto. apply H; auto. eapply observed_lt; eauto.
Qed.
Lemma de_records G tr s : reach G tr s -> nan_free_call tr 0 -> forall g i, g <= G -> i < pop ->
  best_observed tr (fun k => k <= g) (fun j => j = i) (nth i (nth g (st_samples s) []) []) (nth i (nth g (st_responses s) []) f0).
Proof.
  induction 1 as [tr s H|g tr s tr' s' Hr IH HN Hf Es]; intros Hn g0 i Hg0 Hi.
  - pose proof (reach0 init step stop N _ _ H) as Hr. replace g0 with 0 by lia.
    destruct (reach_sizes init step stop N pop d x0 de_Hinit de_Hstep _ _ _ Hr) as (L&_&_&_&_&_&_&_&HS&HR).
    rewrite HS, HR. apply (best_weaken _ (fun _ => True)); [intros; split; intros; [lia|auto]|eapply de_individuals; eauto].
  - assert (Hr' : reach (S g) tr' s') by (eapply reachS; eauto).
    destruct (Nat.eq_dec g0 (S g)) as [->|].
    + destruct (reach_sizes init step stop N pop d x0 de_Hinit de_Hstep _ _ _ Hr') as (L&_&_&_&_&_&_&_&HS&HR).
      rewrite HS, HR. apply (best_weaken _ (fun _ => True)); [intros; split; intros; [lia|auto]|eapply de_individuals; eauto].
    + destruct (step_history init step stop N pop de_Hstep _ _ _ _ _ Hr HN Es g0 ltac:(lia)) as (_ & _ & -> & ->).
      destruct (reach_sizes init step stop N pop d x0 de_Hinit de_Hstep _ _ _ Hr) as (L & _).
      destruct (de_Hstep _ _ _ _ _ Es) as (u & y & Et & _). rewrite Et.
      apply best_app; [intros; lia|]. apply IH; auto; [|lia].
      intros j p v Ho. eapply Hn. rewrite Et. apply observed_app. exact Ho.
Qed.
Lemma de_record_lengths G tr s : reach G tr s -> forall g, g <= G ->
  length (nth g (st_samples s) []) = pop /\ length (nth g (st_responses s) []) = pop.
Proof.
  induction 1 as [tr s H|g tr s tr' s' Hr IH HN Hf Es]; intros g0 Hg0.
  - pose proof (reach0 init step stop N _ _ H) as Hr. replace g0 with 0 by lia.
    destruct (reach_sizes init step stop N pop d x0 de_Hinit de_Hstep _ _ _ Hr) as (L&_&_&_&_&_&_&_&HS&HR).
    rewrite HS, HR. eapply de_lengths; eauto.
  - assert (Hr' : reach (S g) tr' s') by (eapply reachS; eauto).
    destruct (Nat.eq_dec g0 (S g)) as [->|].
    + destruct (reach_sizes init step stop N pop d x0 de_Hinit de_Hstep _ _ _ Hr') as (L&_&_&_&_&_&_&_&HS&HR).
      rewrite HS, HR. eapply de_lengths; eauto.
    + destruct (step_history init step stop N pop de_Hstep _ _ _ _ _ Hr HN Es g0 ltac:(lia)) as (_ & _ & -> & ->).
      apply IH. lia.
Qed.
(** one generation changes an individual only if its trial is strictly better *)
Lemma de_selection G tr s : reach G tr s -> forall g i, S g <= G -> i < pop ->
  let before := nth g (st_responses s) [] in let after := nth (S g) (st_responses s) [] in
  exists u v, observed tr (S g) i u v /\
  ((flt v (nth i before f0) = true /\ nth i after f0 = v /\ nth i (nth (S g) (st_samples s) []) [] = u) \/
   (flt v (nth i before f0) = false /\ nth i after f0 = nth i before f0 /\
    nth i (nth (S g) (st_samples s) []) [] = nth i (nth g (st_samples s) []) [])).
Proof.
  induction 1 as [tr s H|g tr s tr' s' Hr IH HN Hf Es]; intros g0 i Hg0 Hi; [lia|]. cbv zeta.
  assert (Hr' : reach (S g) tr' s') by (eapply reachS; eauto).
  destruct (de_step_inv _ _ _ _ _ Es) as (_ & u & y & Eu & Et & Ly & Ex & Eo). apply new_u_length in Eu.
  destruct (de_lengths _ _ _ Hr) as [Lx Lo].
  destruct (reach_sizes init step stop N pop d x0 de_Hinit de_Hstep _ _ _ Hr) as (L&_&_&_&_&_&_&_&HS0&HR0).
  destruct (Nat.eq_dec g0 g) as [->|].
  - destruct (reach_sizes init step stop N pop d x0 de_Hinit de_Hstep _ _ _ Hr') as (_&_&_&_&_&_&_&_&HS&HR).
    destruct (step_history init step stop N pop de_Hstep _ _ _ _ _ Hr HN Es g ltac:(lia)) as (_ & _ & -> & ->).
    rewrite HS, HR, HS0, HR0, Ex, Eo. rewrite select_obj_nth, select_x_nth by mlia.
    exists (nth i u []), (nth i y f0). split.
    + exists u, y. split; [rewrite Et, <- L; apply called_last|]. split; apply nth_error_nth'; mlia.
    + destruct (flt (nth i y f0) (nth i (st_obj s) f0)); auto.
  - destruct (step_history init step stop N pop de_Hstep _ _ _ _ _ Hr HN Es g0 ltac:(lia)) as (_ & _ & -> & ->).
    destruct (step_history init step stop N pop de_Hstep _ _ _ _ _ Hr HN Es (S g0) ltac:(lia)) as (_ & _ & -> & ->).
    destruct (IH g0 i ltac:(lia) Hi) as (u' & v' & O & D). exists u', v'. split; auto. rewrite Et. now apply observed_app.
Qed.

Theorem de_greedy trf out : de_run cfg b func rng stop = (trf, Ok out) ->
  (forall g, g < length trf -> length (nth g (o_samples out) []) = d_pop cfg /\ length (nth g (o_responses out) []) = d_pop cfg) /\
  (forall g i, S g < length trf -> i < d_pop cfg ->
     let before := entry i (nth g (o_responses out) []) in let after := entry i (nth (S g) (o_responses out) []) in
     exists u v, observed trf (S g) i u v /\
       ((flt v before = true /\ after = v /\ nth i (nth (S g) (o_samples out) []) [] = u) \/
        (flt v before = false /\ after = before /\ nth i (nth (S g) (o_samples out) []) [] = nth i (nth g (o_samples out) []) []))) /\
  (nan_free_call trf 0 -> forall g i, g < length trf -> i < d_pop cfg ->
     best_observed trf (fun k => k <= g) (fun j => j = i)
       (nth i (nth g (o_samples out) []) []) (entry i (nth g (o_responses out) []))).
Proof.
  rewrite de_run_eq. intros E. destruct (run_ok _ _ _ _ _ _ E) as (G & s & Hr & HG & _ & ->). simpl.
  destruct (reach_sizes init step stop N pop d x0 de_Hinit de_Hstep _ _ _ Hr) as (L & _ & Lg & _).
  pose proof (de_record_lengths _ _ _ Hr) as RL. unfold entry.
  split; [|split].
  - intros g Hg. apply RL. lia.
  - intros g i Hg Hi. cbv zeta. destruct (RL g ltac:(lia)) as [_ A]. destruct (RL (S g) ltac:(lia)) as [_ B].
    rewrite !(nth_indep _ fnan f0) by (rewrite ?A, ?B; exact Hi). apply (de_selection _ _ _ Hr); auto. lia.
  - intros Hn g i Hg Hi. destruct (RL g ltac:(lia)) as [_ A].
    rewrite !(nth_indep _ fnan f0) by (rewrite ?A; exact Hi). apply (de_records _ _ _ Hr); auto. lia.
Qed.

(** ** box containment *)
Section Box.
Hypothesis Hbox : box_ok b.
Hypothesis HF : isfin (d_F cfg) = true.

Lemma x0_in : length x0 = pop /\ Forall (in_box b) x0.
Proof. destruct Hrng as (A & _). now apply location_init_in. Qed.

Lemma in_bounds_fin lh x : bounds_ok lh -> in_bounds lh x ->
  isfin x = true /\ (B2R (fst lh) <= B2R x <= B2R (snd lh))%R.
Proof.
  destruct lh as [lo hi]. intros (A & B & _) [C D]. simpl.
  assert (F : isfin x = true).
  { destruct (fin_or x (fle_nnan_l _ _ D)) as [|[-> | ->]]; auto; destruct lo, hi; discriminate. }
  split; auto. split; apply fle_finite; auto.
Qed.

Lemma mutant_nnan lh x y z : bounds_ok lh -> in_bounds lh x -> in_bounds lh y -> in_bounds lh z ->
  isnan (fadd x (fmul (d_F cfg) (fsub y z))) = false.
Proof.
  intros Hb Hx Hy Hz. destruct (in_bounds_fin _ _ Hb Hx) as [Fx Bx], (in_bounds_fin _ _ Hb Hy) as [Fy By],
    (in_bounds_fin _ _ Hb Hz) as [Fz Bz]. destruct lh as [lo hi]. destruct Hb as (A & B & C & D). simpl in *.
  apply fadd_nnan; auto. apply fmul_nnan; auto. now apply (fsub_within lo hi).
Qed.

Lemma row_comb_nnan (x y z : row) j : in_box b x -> in_box b y -> in_box b z -> j < d ->
  isnan (nth j (map2 fadd x (map (fmul (d_F cfg)) (map2 fsub y z))) f0) = false.
Proof.
  intros Hx Hy Hz Hj.
  assert (Lx : length x = d) by (symmetry; eapply Forall2_len; eauto).
  assert (Ly : length y = d) by (symmetry; eapply Forall2_len; eauto).
  assert (Lz : length z = d) by (symmetry; eapply Forall2_len; eauto).
  rewrite (map2_nth _ _ _ j f0 f0) by (unfold mat, row in *; rewrite ?map_length, ?map2_length; lia).
  rewrite (nth_indep (map (fmul (d_F cfg)) (map2 fsub y z)) f0 (fmul (d_F cfg) f0)) by (unfold mat, row in *; rewrite map_length, map2_length; lia).
  rewrite map_nth. rewrite (map2_nth _ _ _ j f0 f0) by mlia.
  apply (mutant_nnan (nth j b (f0, f0))); [apply Forall_nth'; auto| | |];
    apply (Forall2_nth_inv in_bounds b); auto.
Qed.

Lemma new_u_in g (x gbx : mat) u : de_new_u cfg b rng g x gbx = Ok u -> length x = pop -> Forall (in_box b) x ->
  in_box b (nth g gbx []) -> length u = pop /\ Forall (in_box b) u.
Proof.
  intros E Lx Fx Hg. split; [eapply new_u_length; eauto|].
  assert (E' : donors_needed cfg <= d_pop cfg /\ u = loc_cons b (dd_rep rng g)
    (map (fun ii => de_trial cfg rng g ii x (de_mutant cfg rng g ii x gbx)) (seq 0 (d_pop cfg)))).
  { unfold de_new_u in E. destruct (d_strategy cfg); try discriminate;
    (destruct (Nat.ltb_spec (d_pop cfg) (donors_needed cfg)); [discriminate|]);
    (destruct (Nat.eqb (length b) 0); [discriminate|]); injection E as <-; auto. }
  clear E. destruct E' as [Hd ->].
  destruct Hrng as (_ & Hrep & Hdon & _ & _).
  assert (Hrow : forall i, i < pop -> in_box b (nth i x [])) by (intros; apply Forall_nth'; auto; mlia).
  assert (Hlen : forall i, i < pop -> length (nth i x []) = d) by (intros; symmetry; eapply Forall2_len; apply Hrow; auto).
  assert (Hmut : forall i j, i < pop -> j < d -> isnan (nth j (de_mutant cfg rng g i x gbx) f0) = false).
  { intros i j Hi Hj. destruct (Hdon g i Hd) as (Ld & _ & Fd). unfold de_mutant.
    assert (Hk : forall k, k < donors_needed cfg -> in_box b (nth (nth k (map (fix_donor (d_pop cfg) i) (dd_donors rng g i)) 0) x [])).
    { intros k Hk. apply Hrow. rewrite (nth_indep _ 0 (fix_donor (d_pop cfg) i 0)) by (rewrite map_length; lia).
      rewrite map_nth. apply fix_donor_valid; auto.
      - unfold donors_needed in Hd. destruct (d_strategy cfg); lia.
      - apply Forall_nth'; auto. lia. }
    unfold donors_needed in Hk. destruct (d_strategy cfg); apply row_comb_nnan; auto; apply Hk; lia. }
  apply (loc_cons_in b _ pop); auto.
  - split; [now rewrite map_length, seq_length|]. apply Forall_map. apply Forall_forall. intros i Hi. apply in_seq in Hi.
    unfold de_trial. rewrite imap_length. apply Hlen. unfold pop. lia.
  - intros i j Hi Hj. unfold at2.
    rewrite (nth_indep _ [] (de_trial cfg rng g 0 x (de_mutant cfg rng g 0 x gbx))) by (rewrite map_length, seq_length; auto).
    rewrite (map_nth (fun ii => de_trial cfg rng g ii x (de_mutant cfg rng g ii x gbx))), seq_nth by auto. simpl.
    unfold de_trial. rewrite (imap_nth _ _ j f0) by (rewrite Hlen; auto).
    destruct (_ || _); [now apply Hmut|].
    pose proof (Forall2_nth_inv in_bounds b _ (f0, f0) f0 j (Hrow i Hi) Hj) as H.
    apply in_bounds_fin in H as [H _]; [now apply isfin_not_nan|]. apply Forall_nth'; auto.
Qed.

Lemma select_in (P : row -> Prop) y obj (u x : mat) : length y = pop -> length obj = pop -> length u = pop -> length x = pop ->
  Forall P u -> Forall P x -> Forall P (de_select_x y obj u x).
Proof.
  intros L1 L2 L3 L4 Fu Fx. apply Forall_forall. intros r Hr. destruct (In_nth _ _ [] Hr) as (i & Hi & E).
  assert (Hl : length (de_select_x y obj u x) = pop) by (unfold de_select_x; rewrite map2_length, !combine_length; mlia).
  assert (Hi' : i < pop) by (unfold mat, row in *; rewrite <- Hl; exact Hi).
  rewrite <- E, select_x_nth by mlia. destruct (flt _ _); apply Forall_nth'; auto; mlia.
Qed.

Lemma de_in_box G tr s : reach G tr s ->
  (length (st_x s) = length (st_obj s) /\ Forall (in_box b) (st_x s)) /\ in_box b (nth G (st_gbx s) []).
Proof.
  induction 1 as [tr s H|g tr s tr' s' Hr IH HN Hf Es].
  - pose proof (reach0 init step stop N _ _ H) as Hr. destruct (de_lengths _ _ _ Hr) as [Lx Lo].
    destruct (init_best init N pop d x0 de_Hinit _ _ H) as (y & m & k1 & -> & Ly & Ex & Eo & Em & Hk & Hm & _ & ->).
    destruct x0_in as [L F]. split; [split; [mlia|now rewrite Ex]|]. apply Forall_nth'; auto. mlia.
  - assert (Hr' : reach (S g) tr' s') by (eapply reachS; eauto).
    destruct (de_lengths _ _ _ Hr) as [Lx Lo]. destruct (de_lengths _ _ _ Hr') as [Lx' Lo'].
    destruct IH as [[_ Fx] Fg].
    destruct (de_step_inv _ _ _ _ _ Es) as (_ & u & y & Eu & Et & Ly & Ex & Eo).
    destruct (new_u_in _ _ _ _ Eu Lx Fx Fg) as [Lu Fu].
    assert (F' : Forall (in_box b) (st_x s')) by (rewrite Ex; now apply select_in).
    split; [split; [mlia|exact F']|].
    destruct (step_best init step stop N pop d x0 de_Hinit de_Hstep _ _ _ _ _ Hr HN Es) as (m & k & Em & Hk1 & Hm & D).
    destruct D as [(_&_&->)|(_&_&->)]; auto. apply Forall_nth'; auto. mlia.
Qed.

Theorem de_in_space trf res : de_run cfg b func rng stop = (trf, res) ->
  (forall x y, In (x, y) trf -> length x = d_pop cfg /\ Forall (in_box b) x) /\
  (forall out, res = Ok out -> in_box b (o_location out) /\
     forall g, g < length trf ->
       Forall (in_box b) (nth g (o_samples out) []) /\ in_box b (nth g (o_best_x_hist out) [])).
Proof.
  rewrite de_run_eq. intros E. split.
  - assert (R : forall G tr s, reach G tr s -> forall x y, In (x, y) tr -> length x = pop /\ Forall (in_box b) x).
    { induction 1 as [tr s H|g tr s tr' s' Hr IH HN Hf Es]; intros x y Hin.
      - destruct (de_Hinit _ _ H) as (y0&m&k&->&_). destruct Hin as [[= <- _]|[]]. apply x0_in.
      - destruct (de_step_inv _ _ _ _ _ Es) as (_ & u & y' & Eu & Et & _). rewrite Et in Hin.
        apply in_app_or in Hin as [Hin|[[= <- _]|[]]]; [eapply IH; eauto|].
        destruct (de_in_box _ _ _ Hr) as [[_ Fx] Fg]. destruct (de_lengths _ _ _ Hr) as [Lx Lo].
        eapply new_u_in; eauto. }
    intros x y Hin. destruct (run_spec _ _ _ _ _ _ E) as [(e & Ei & _)|[(G&s&Hr&_)|(G&tr0&s0&e&Hr&HN&_&Es&_)]].
    + unfold init, de_init in Ei. fold x0 in Ei. destruct (evaluate func (d_pop cfg) [] x0) as [t z] eqn:Ee.
      injection Ei as <- _. unfold evaluate in Ee. injection Ee as <- _. destruct Hin as [[= <- _]|[]]. apply x0_in.
    + eapply R; eauto.
    + unfold step, de_step in Es. destruct (de_new_u cfg b rng G (st_x s0) (st_gbx s0)) as [u|] eqn:Eu.
      * destruct (evaluate func (d_pop cfg) tr0 u) as [t z] eqn:Ee.
        injection Es as <- _. unfold evaluate in Ee. injection Ee as <- _.
        apply in_app_or in Hin as [Hin|[[= <- _]|[]]]; [eapply R; eauto|].
        destruct (de_in_box _ _ _ Hr) as [[_ Fx] Fg]. destruct (de_lengths _ _ _ Hr) as [Lx Lo]. eapply new_u_in; eauto.
      * injection Es as <- _. eapply R; eauto.
  - intros out ->. destruct (run_ok _ _ _ _ _ _ E) as (G & s & Hr & HG & _ & ->). simpl.
    pose proof (recorded_Q init step stop N pop d x0 de_Hinit de_Hstep (in_box b)
       (fun G tr s H => proj1 (de_in_box G tr s H)) _ _ _ Hr) as R.
    split; [now apply R|]. intros g Hg.
    destruct (reach_sizes init step stop N pop d x0 de_Hinit de_Hstep _ _ _ Hr) as (L & _). apply R. lia.
Qed.
End Box.

(** ** outputs *)
Theorem de_outputs tr out : de_run cfg b func rng stop = (tr, Ok out) ->
  length (o_best_y_hist out) = S (d_gen cfg) /\ length (o_best_x_hist out) = S (d_gen cfg) /\
  2 <= length tr <= S (d_gen cfg) /\
  o_value out = entry (length tr - 1) (o_best_y_hist out) /\
  o_location out = nth (length tr - 1) (o_best_x_hist out) [] /\
  (length tr < S (d_gen cfg) -> o_best_y out = f0 /\ o_best_x out = repeat f0 (length b)) /\
  (length tr = S (d_gen cfg) -> o_best_y out = o_value out /\ o_best_x out = o_location out).
Proof. rewrite de_run_eq. exact (outputs init step stop N pop d x0 de_Hinit de_Hstep tr out). Qed.
Theorem de_stopping tr out : de_run cfg b func rng stop = (tr, Ok out) ->
  (forall g t, stop = Some t -> 1 <= g -> S g < length tr -> flt (entry g (o_best_y_hist out)) t = false) /\
  (length tr = S (d_gen cfg) \/ exists t, stop = Some t /\ flt (entry (length tr - 1) (o_best_y_hist out)) t = true).
Proof. rewrite de_run_eq. exact (stopping init step stop N pop d x0 de_Hinit de_Hstep tr out). Qed.
Theorem de_monotone tr out : de_run cfg b func rng stop = (tr, Ok out) -> nan_free_call tr 0 ->
  (forall g, g < length tr -> isnan (entry g (o_best_y_hist out)) = false) /\
  forall g, S g < length tr -> fle (entry (S g) (o_best_y_hist out)) (entry g (o_best_y_hist out)) = true.
Proof. rewrite de_run_eq. intros E Hn. exact (monotone init step stop N pop d x0 de_Hinit de_Hstep tr out E Hn x0_length). Qed.
Theorem de_poisoned tr out : de_run cfg b func rng stop = (tr, Ok out) ->
  (exists i p v, observed tr 0 i p v /\ isnan v = true) ->
  (forall g, g < length tr -> isnan (entry g (o_best_y_hist out)) = true) /\ isnan (o_value out) = true /\
  length tr = S (d_gen cfg).
Proof. rewrite de_run_eq. exact (poisoned init step stop N pop d x0 de_Hinit de_Hstep tr out). Qed.

Lemma de_init_tr : exists x, fst init = [(x, func 0 x)].
Proof. exists x0. reflexivity. Qed.
Lemma de_step_tr g tr s : fst (step g tr s) = tr \/ exists x, fst (step g tr s) = tr ++ [(x, func (length tr) x)].
Proof.
  unfold step, de_step. destruct (de_new_u cfg b rng g (st_x s) (st_gbx s)) as [u|]; [right|now left].
  exists u. reflexivity.
Qed.
Theorem de_calls tr res : de_run cfg b func rng stop = (tr, res) -> true_trace func tr /\ 1 <= length tr <= S (d_gen cfg).
Proof.
  rewrite de_run_eq. intros E. pose proof (honest_run init step stop N func de_init_tr de_step_tr) as H.
  rewrite E in H. exact H.
Qed.

Lemma gen_opt_ok g x obj gb gbx : obj <> [] -> exists r, update_gen_optimum g x obj gb gbx = Ok r.
Proof.
  intros H. unfold update_gen_optimum. destruct (np_min_ok obj H) as [m ->]. destruct (np_argmin_ok obj H) as [k ->].
  cbn [bind]. destruct (fge (nth g gb f0) m); eauto.
Qed.
Lemma nonempty (y : list b64) : length y = pop -> 1 <= pop -> y <> [].
Proof. intros L H ->. simpl in L. lia. Qed.
Lemma de_init_ok : well_behaved func pop -> 1 <= pop -> exists s, init = ([(x0, func 0 x0)], Ok s).
Proof.
  intros Hf Hp. unfold init, de_init, evaluate. fold x0. cbn [length app].
  destruct (Hf 0 x0 x0_length) as (y & -> & Ly). cbn [bind]. unfold pop in Ly. rewrite Ly, Nat.eqb_refl. cbn [bind].
  assert (y <> []) as Hy by (apply nonempty; auto).
  destruct (np_min_ok y Hy) as [m ->]. destruct (np_argmin_ok y Hy) as [k ->]. cbn [bind]. eauto.
Qed.

Theorem de_returns : well_behaved func (d_pop cfg) -> donors_needed cfg <= d_pop cfg -> d_strategy cfg <> OtherStrategy ->
  1 <= length b -> 1 <= d_gen cfg -> exists tr out, de_run cfg b func rng stop = (tr, Ok out).
Proof.
  rewrite de_run_eq. intros Hf Hd Hs Hb Hg.
  assert (Hp : 1 <= pop) by (unfold donors_needed, pop in *; destruct (d_strategy cfg); lia).
  destruct (de_init_ok Hf Hp) as [s0 E0].
  apply (run_total init step stop N) with
    (Inv := fun g (tr : trace) s => length (st_obj s) = pop); auto.
  - exists s0. now rewrite E0.
  - intros tr s H. destruct (init_best init N pop d x0 de_Hinit _ _ H) as (y & m & k1 & -> & Ly & _ & -> & _). exact Ly.
  - intros g tr s Lo Hgn.
    assert (Eu : exists u, de_new_u cfg b rng g (st_x s) (st_gbx s) = Ok u).
    { unfold de_new_u. destruct (Nat.ltb_spec (d_pop cfg) (donors_needed cfg)); [lia|].
      destruct (Nat.eqb_spec (length b) 0); [lia|]. destruct (d_strategy cfg); eauto. congruence. }
    destruct Eu as [u Eu]. pose proof (new_u_length _ _ _ _ Eu) as Lu.
    destruct (Hf (length tr) u Lu) as (y & Ey & Ly).
    assert (Hl : length (de_select_obj y (st_obj s)) = pop) by (unfold de_select_obj; rewrite map2_length; lia).
    destruct (gen_opt_ok g (de_select_x y (st_obj s) u (st_x s)) (de_select_obj y (st_obj s)) (st_gb s) (st_gbx s)
                (nonempty _ Hl Hp)) as [r Er].
    unfold step, de_step, evaluate. rewrite Eu, Ey. cbn [bind]. rewrite Ly, Nat.eqb_refl. cbn [bind]. rewrite Er. cbn [bind].
    do 2 eexists. split; [reflexivity|]. exact Hl.
Qed.

Theorem de_no_generation : well_behaved func (d_pop cfg) -> 1 <= d_pop cfg -> d_gen cfg = 0 ->
  exists x, de_run cfg b func rng stop = ([(x, func 0 x)], Raise UnboundLocalError).
Proof.
  intros Hf Hp Hg. destruct (de_init_ok Hf Hp) as [s0 E0]. exists x0. unfold de_run. fold init. rewrite E0, Hg. reflexivity.
Qed.
Theorem de_rejected : well_behaved func (d_pop cfg) -> 1 <= d_pop cfg -> 1 <= d_gen cfg ->
  d_strategy cfg = OtherStrategy \/ d_pop cfg < donors_needed cfg ->
  exists x, de_run cfg b func rng stop = ([(x, func 0 x)], Raise ValueError).
Proof.
  intros Hf Hp Hg D. destruct (de_init_ok Hf Hp) as [s0 E0]. exists x0. unfold de_run. fold init. rewrite E0.
  destruct (d_gen cfg) as [|n]; [lia|]. simpl. unfold de_step.
  assert (E : de_new_u cfg b rng 0 (st_x s0) (st_gbx s0) = Raise ValueError).
  { unfold de_new_u. destruct D as [->|D]; [reflexivity|].
    apply Nat.ltb_lt in D. rewrite D. destruct (d_strategy cfg); reflexivity. }
  rewrite E. reflexivity.
Qed.

(** crossover *)
Theorem de_crossover iter ii (x : mat) (v : row) : dd_dim rng iter ii < length (nth ii x []) ->
  let target := nth ii x [] in let u := de_trial cfg rng iter ii x v in
  length u = length target /\
  (forall j, j < length target -> nth j u f0 = nth j v f0 \/ nth j u f0 = nth j target f0) /\
  (exists j, j < length target /\ nth j u f0 = nth j v f0) /\
  (forall j, j < length target -> nth j u f0 =
     if flt (dd_cr rng iter ii j) (d_CR cfg) || Nat.eqb (dd_dim rng iter ii) j then nth j v f0 else nth j target f0).
Proof.
  intros H. cbv zeta. unfold de_trial. rewrite imap_length. split; [reflexivity|].
  assert (A : forall j, j < length (nth ii x []) -> nth j (imap (fun j xj =>
    if flt (dd_cr rng iter ii j) (d_CR cfg) || Nat.eqb (dd_dim rng iter ii) j then nth j v f0 else xj) (nth ii x [])) f0 =
     if flt (dd_cr rng iter ii j) (d_CR cfg) || Nat.eqb (dd_dim rng iter ii) j then nth j v f0 else nth j (nth ii x []) f0).
  { intros j Hj. now rewrite (imap_nth _ _ j f0) by auto. }
  split; [|split; [|exact A]].
  - intros j Hj. rewrite A by auto. destruct (_ || _); auto.
  - exists (dd_dim rng iter ii). split; auto. rewrite A by auto. now rewrite Nat.eqb_refl, orb_true_r.
Qed.
End DE.

(** ** statements about one generation *)
Lemma successor_mod n i : i < n -> successor n i = S i mod n.
Proof.
  intros H. unfold successor. destruct (Nat.ltb_spec i (n - 1)).
  - symmetry. apply Nat.mod_small. lia.
  - replace (S i) with n by lia. symmetry. apply Nat.mod_same. lia.
Qed.
Lemma NoDup_map_iff {A B} (f : A -> B) l : NoDup l ->
  (NoDup (map f l) <-> forall x y, In x l -> In y l -> x <> y -> f x <> f y).
Proof.
  induction 1 as [|a l Ha Hl IH]; simpl; [split; [contradiction|constructor]|]. split.
  - intros H. inversion H as [|? ? Hn Hd]; subst. rewrite IH in Hd. rewrite in_map_iff in Hn.
    intros x y [->|Hx] [->|Hy] D E; auto; try congruence.
    + apply Hn. exists y. auto.
    + apply Hn. exists x. auto.
    + now apply (Hd x y).
  - intros H. constructor.
    + rewrite in_map_iff. intros (x & E & Hx). apply (H x a); auto. intros ->. contradiction.
    + apply IH. intros x y Hx Hy. apply H; auto.
Qed.
Lemma fix_donors_spec n i ks : 2 <= n -> i < n -> NoDup ks -> Forall (fun k => k < n) ks ->
  Forall (fun k => k < n /\ k <> i) (map (fix_donor n i) ks) /\
  (NoDup (map (fix_donor n i) ks) <-> ~ (In i ks /\ In (S i mod n) ks)).
Proof.
  intros Hn Hi Hd Hk. split.
  - apply Forall_map. eapply Forall_impl; [|exact Hk]. intros k H. now apply fix_donor_valid.
  - rewrite NoDup_map_iff by auto. rewrite <- successor_mod by auto. split.
    + intros H [A B]. assert (D : i <> successor n i) by (unfold successor; destruct (Nat.ltb_spec i (n - 1)); lia).
      apply (H _ _ A B D). apply fix_donor_distinct; auto.
    + intros H x y Hx Hy D E. apply fix_donor_distinct in E as [[]|[[-> ->]|[-> ->]]]; auto.
Qed.
Theorem de_donors cfg b rng g i x gbx : de_draws_ok cfg b rng -> donors_needed cfg <= d_pop cfg -> i < d_pop cfg ->
  exists r, length r = donors_needed cfg /\ Forall (fun k => k < d_pop cfg /\ k <> i) r /\
    (NoDup r <-> ~ (In i (dd_donors rng g i) /\ In (S i mod d_pop cfg) (dd_donors rng g i))) /\
    let at_donor k := nth (nth k r 0) x [] in
    de_mutant cfg rng g i x gbx =
      match d_strategy cfg with
      | Rand1 => map2 fadd (at_donor 0) (map (fmul (d_F cfg)) (map2 fsub (at_donor 1) (at_donor 2)))
      | _ => map2 fadd (nth g gbx []) (map (fmul (d_F cfg)) (map2 fsub (at_donor 0) (at_donor 1)))
      end.
Proof.
  intros (_ & _ & H & _) Hd Hi. destruct (H g i Hd) as (L & ND & F).
  exists (map (fix_donor (d_pop cfg) i) (dd_donors rng g i)).
  assert (2 <= d_pop cfg) by (unfold donors_needed in Hd; destruct (d_strategy cfg); lia).
  destruct (fix_donors_spec (d_pop cfg) i _ H0 Hi ND F) as [A B].
  split; [now rewrite map_length|]. split; auto.
Qed.
Theorem de_trials cfg b rng g x gbx u : de_draws_ok cfg b rng -> de_new_u cfg b rng g x gbx = Ok u ->
  Forall (fun r => length r = length b) x -> length x = d_pop cfg ->
  exists t, u = loc_cons b (dd_rep rng g) t /\ length t = d_pop cfg /\
  forall i, i < d_pop cfg ->
    let target := nth i x [] in let mutant := de_mutant cfg rng g i x gbx in let trial := nth i t [] in
    length trial = length b /\
    (forall j, j < length b -> nth j trial f0 = nth j mutant f0 \/ nth j trial f0 = nth j target f0) /\
    (exists j, j < length b /\ nth j trial f0 = nth j mutant f0) /\
    (forall j, j < length b -> flt (dd_cr rng g i j) (d_CR cfg) = true -> nth j trial f0 = nth j mutant f0).
Proof.
  intros (_ & _ & _ & Hdim & _) E Fx Lx.
  assert (E' : length b <> 0 /\ u = loc_cons b (dd_rep rng g)
    (map (fun ii => de_trial cfg rng g ii x (de_mutant cfg rng g ii x gbx)) (seq 0 (d_pop cfg)))).
  { unfold de_new_u in E. destruct (d_strategy cfg); try discriminate;
    (destruct (Nat.ltb_spec (d_pop cfg) (donors_needed cfg)); [discriminate|]);
    (destruct (Nat.eqb_spec (length b) 0); [discriminate|]); injection E as <-; auto. }
  destruct E' as [Hb ->]. eexists. split; [reflexivity|]. split; [now rewrite map_length, seq_length|].
  intros i Hi. cbv zeta.
  rewrite (nth_indep _ [] (de_trial cfg rng g 0 x (de_mutant cfg rng g 0 x gbx))) by (rewrite map_length, seq_length; auto).
  rewrite (map_nth (fun ii => de_trial cfg rng g ii x (de_mutant cfg rng g ii x gbx))), seq_nth by auto. simpl.
  assert (Lr : length (nth i x []) = length b) by (apply Forall_nth'; auto; mlia).
  destruct (de_crossover cfg rng g i x (de_mutant cfg rng g i x gbx)) as (A & B & C & D); [rewrite Lr; apply Hdim; lia|].
  rewrite Lr in *. split; auto. split; auto. split; auto.
  intros j Hj Hc. rewrite D, Hc by auto. reflexivity.
Qed.
Theorem de_never_worse cfg b func rng stop trf out : de_draws_ok cfg b rng ->
  de_run cfg b func rng stop = (trf, Ok out) -> nan_free_call trf 0 ->
  forall g i, S g < length trf -> i < d_pop cfg ->
    fle (entry i (nth (S g) (o_responses out) [])) (entry i (nth g (o_responses out) [])) = true.
Proof.
  intros Hr E Hn g i Hg Hi. destruct (de_greedy cfg b func rng stop Hr trf out E) as (_ & A & B).
  destruct (A g i Hg Hi) as (u & v & _ & [(F & -> & _)|(_ & -> & _)]); [now apply flt_fle|].
  destruct (B Hn g i ltac:(lia) Hi) as (_ & k & j & w & _ & _ & _ & F).
  apply feq_iff in F as [F _]. apply fle_refl. eapply fle_nnan_r; eauto.
Qed.
