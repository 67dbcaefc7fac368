(** Proofs: interrupted runs, printed lines and plots of PSO and DE. *)
From Coq Require Import ZArith Bool List Lia String.
From Verif Require Import Fl NpList NpFacts Samplers EA EASpec EAFacts PSOFacts DEFacts EAFiles EAFilesSpec.
Import ListNotations.
Local Open Scope list_scope.

Lemma calls_app l m : calls_of (l ++ m) = calls_of l ++ calls_of m. Proof. apply flat_map_app. Qed.
Lemma lines_app l m : lines_of (l ++ m) = lines_of l ++ lines_of m. Proof. apply flat_map_app. Qed.
Lemma dumps_app l m : dumps (l ++ m) = dumps l + dumps m. Proof. unfold dumps. now rewrite flat_map_app, app_length. Qed.
Lemma file_app f l m : file_after f (l ++ m) = file_after (file_after f l) m. Proof. apply fold_left_app. Qed.
(** calls of the objective leave everything else alone *)
Definition quiet (l : list effect) : Prop := lines_of l = [] /\ dumps l = 0 /\ forall f, file_after f l = f.
Lemma quiet_calls (t : trace) : quiet (map (fun c => Called (fst c) (snd c)) t) /\ calls_of (map (fun c => Called (fst c) (snd c)) t) = t.
Proof.
  induction t as [|[x y] t [(A & B & C) D]]; [repeat split|]. split; [split; [|split]|].
  - exact A.
  - exact B.
  - intros f. exact (C f).
  - exact (f_equal (cons (x, y)) D).
Qed.
Lemma since_app tr new : calls_since tr (tr ++ new) = map (fun c => Called (fst c) (snd c)) new.
Proof. unfold calls_since. rewrite skipn_app, Nat.sub_diag, skipn_all. reflexivity. Qed.

(** initial segments *)
Lemma interrupted_app l m h : interrupted (l ++ m) h -> interrupted l h \/ exists h', h = l ++ h' /\ interrupted m h'.
Proof.
  revert h. induction l as [|a l IH]; intros h [r E].
  - right. exists h. split; auto. now exists r.
  - destruct h as [|c h]; [left; now exists (a :: l)|]. injection E as <- E.
    destruct (IH h (ex_intro _ r E)) as [[r' ->]|(h' & -> & I)].
    + left. now exists r'.
    + right. now exists h'.
Qed.
Lemma interrupted_one e h : interrupted [e] h -> h = [] \/ h = [e].
Proof. intros [r E]. destruct h as [|c [|c' h]]; auto; [injection E as -> _; auto|discriminate]. Qed.
Lemma interrupted_nil h : interrupted [] h -> h = [].
Proof. intros [r E]. now destruct h. Qed.

Lemma reach_le init step stop N g tr s : reach init step stop N g tr s -> g <= N. Proof. destruct 1; lia. Qed.
Section Runs.
Variable init : trace * result ea_state.
Variable step : nat -> trace -> ea_state -> trace * result ea_state.
Variable stop : option b64.
Variable N : nat.
Hypothesis Hinit : exists x y, fst init = [(x, y)].
Hypothesis Hgrow : forall it tr s, exists new, fst (step it tr s) = tr ++ new /\ List.length new <= 1.
Hypothesis Hone : forall it tr s tr' s', step it tr s = (tr', Ok s') -> exists c, tr' = tr ++ [c].

Lemma reach_len g tr s : reach init step stop N g tr s -> List.length tr = S g.
Proof.
  induction 1 as [tr s H|g tr s tr' s' Hr IH HN Hf Es].
  - destruct Hinit as (x & y & E). rewrite H in E. cbn [fst] in E. now rewrite E.
  - destruct (Hone _ _ _ _ _ Es) as (c & ->). rewrite app_length. simpl. lia.
Qed.

(** what may have happened when the process is interrupted *)
Definition good (h : list effect) : Prop :=
  let g := dumps h in
  match file_after Earlier h with
  | Earlier => g = 0 /\ List.length (calls_of h) <= 2
  | Partial => List.length (calls_of h) = g + 2
  | Complete r => 1 <= g /\ S g <= List.length (calls_of h) <= g + 2 /\
      exists s, reach init step stop N g (firstn (S g) (calls_of h)) s /\ r = pickled s
  end.
Record state_of (it : nat) (tr : trace) (s : ea_state) (D : list effect) : Prop := {
  so_reach : reach init step stop N it tr s; so_calls : calls_of D = tr; so_dumps : dumps D = it;
  so_file : file_after Earlier D = match it with O => Earlier | S _ => Complete (pickled s) end }.
Lemma state_good it tr s D h : state_of it tr s D -> dumps h = 0 -> (forall f, file_after f h = f) -> List.length (calls_of h) <= 1 -> good (D ++ h).
Proof.
  intros [Hr Hc Hd Hf] Zd Zf Lc. pose proof (reach_len _ _ _ Hr) as L. unfold good.
  rewrite dumps_app, file_app, calls_app, Hd, Zd, Hf, Zf, Hc, app_length, L, Nat.add_0_r. destruct it as [|k]; [split; [auto|lia]|].
  split; [lia|]. split; [lia|]. exists s. split; auto. rewrite firstn_app, L, Nat.sub_diag, app_nil_r, <- L, firstn_all. auto.
Qed.
Lemma loop_good print rem : forall it tr s D h, state_of it tr s D -> (1 <= it -> fired stop it s = false) -> rem + it = N ->
  interrupted (loop_effects step stop print true rem it tr s) h -> good (D ++ h).
Proof.
  induction rem as [|rem IH]; intros it tr s D h Hs Hn HN I.
  - apply interrupted_nil in I. subst h. apply (state_good it tr s); auto.
  - cbn [loop_effects] in I. apply interrupted_app in I as [I|(h' & -> & I)].
    { assert (h = [] \/ exists v x, h = [Printed it v x]) as [->|(v & x & ->)].
      { unfold announce in I. destruct print; [apply interrupted_one in I as [->| ->]; eauto|apply interrupted_nil in I; auto]. }
      - apply (state_good it tr s); auto.
      - apply (state_good it tr s); auto. }
    assert (Hs' : state_of it tr s (D ++ announce print it s)).
    { destruct Hs as [Hr Hc Hd Hf]. split; auto.
      - rewrite calls_app, Hc. unfold announce. destruct print; apply app_nil_r.
      - rewrite dumps_app, Hd. unfold announce. destruct print; apply Nat.add_0_r.
      - rewrite file_app, Hf. unfold announce. now destruct print. }
    rewrite app_assoc. set (D' := D ++ announce print it s) in *. clearbody D'. clear Hs D.
    destruct (Hgrow it tr s) as (new & En & Ln). destruct (step it tr s) as [tr' [s'|e]] eqn:Es; cbn [fst] in En; subst tr'.
    + rewrite since_app in I. destruct (quiet_calls new) as [(Q1 & Q2 & Q3) Q4].
      apply interrupted_app in I as [I|(h & -> & I)].
      { destruct I as [r I]. assert (exists n1 n2, new = n1 ++ n2 /\ h' = map (fun c => Called (fst c) (snd c)) n1) as (n1 & n2 & -> & ->).
        { exists (firstn (List.length h') new), (skipn (List.length h') new). split; [now rewrite firstn_skipn|].
          rewrite <- firstn_map, I, firstn_app, Nat.sub_diag, firstn_all, firstn_O, app_nil_r. reflexivity. }
        destruct (quiet_calls n1) as [(P1 & P2 & P3) P4]. apply (state_good it tr s); auto. rewrite P4. rewrite app_length in Ln. lia. }
      rewrite app_assoc. set (D := D' ++ map (fun c => Called (fst c) (snd c)) new).
      destruct (Hone _ _ _ _ _ Es) as (c & Ec). apply app_inv_head in Ec. subst new.
      assert (Hr' : reach init step stop N (S it) (tr ++ [c]) s').
      { eapply reachS; [exact (so_reach _ _ _ _ Hs')| |exact Hn|exact Es]. lia. }
      pose proof (reach_len _ _ _ (so_reach _ _ _ _ Hs')) as L.
      assert (Cd : calls_of D = tr ++ [c]) by (unfold D; rewrite calls_app, (so_calls _ _ _ _ Hs'), Q4; auto).
      assert (Dd : dumps D = it) by (unfold D; rewrite dumps_app, (so_dumps _ _ _ _ Hs'), Q2; lia).
      assert (Fd : file_after Earlier D = match it with O => Earlier | S _ => Complete (pickled s) end)
        by (unfold D; rewrite file_app, Q3; apply (so_file _ _ _ _ Hs')).
      clearbody D. 
      assert (G0 : good D).
      { unfold good. rewrite Dd, Fd, Cd, app_length, L. destruct it as [|k]; [split; [auto|simpl; lia]|]. split; [lia|]. split; [simpl; lia|].
        exists s. split; auto. rewrite firstn_app, L, Nat.sub_diag, app_nil_r, <- L, firstn_all. apply (so_reach _ _ _ _ Hs'). }
      change (save_step true s') with ([Opened] ++ [Dumped (pickled s')]) in I. rewrite <- app_assoc in I.
      apply interrupted_app in I as [I|(h1 & -> & I)].
      { apply interrupted_one in I as [->| ->]; [now rewrite app_nil_r|].
        unfold good. rewrite dumps_app, file_app, calls_app, Dd, Cd. cbn. rewrite app_nil_r, app_length, L. simpl. lia. }
      assert (Hs2 : state_of (S it) (tr ++ [c]) s' (D ++ [Opened; Dumped (pickled s')])).
      { split; auto; [rewrite calls_app, Cd; apply app_nil_r|rewrite dumps_app, Dd; change (it + 1 = S it); lia|rewrite file_app; reflexivity]. }
      apply interrupted_app in I as [I|(h2 & -> & I)].
      { apply interrupted_one in I as [->| ->].
        - cbn [app]. unfold good. rewrite dumps_app, file_app, calls_app, Dd, Cd. cbn. rewrite app_nil_r, app_length, L. simpl. lia.
        - change (good (D ++ [Opened; Dumped (pickled s')])). rewrite <- (app_nil_r (D ++ _)). apply (state_good (S it) (tr ++ [c]) s'); auto. }
      change (match stop with Some t => flt (nth (S it) (st_gb s') f0) t | None => false end) with (fired stop (S it) s') in I.
      replace (D ++ [Opened] ++ [Dumped (pickled s')] ++ h2) with ((D ++ [Opened; Dumped (pickled s')]) ++ h2) by now rewrite <- app_assoc.
      destruct (fired stop (S it) s') eqn:F.
      * apply interrupted_nil in I. subst h2. apply (state_good (S it) (tr ++ [c]) s'); auto.
      * apply (IH (S it) (tr ++ [c]) s'); auto. lia.
    + rewrite since_app in I. destruct I as [r I].
      assert (exists n1 n2, new = n1 ++ n2 /\ h' = map (fun c => Called (fst c) (snd c)) n1) as (n1 & n2 & -> & ->).
      { exists (firstn (List.length h') new), (skipn (List.length h') new). split; [now rewrite firstn_skipn|].
        rewrite <- firstn_map, I, firstn_app, Nat.sub_diag, firstn_all, firstn_O, app_nil_r. reflexivity. }
      destruct (quiet_calls n1) as [(P1 & P2 & P3) P4]. apply (state_good it tr s); auto. rewrite P4. rewrite app_length in Ln. lia.
Qed.
Lemma run_good print h : interrupted (run_effects init step stop print true N) h -> good h.
Proof.
  pose proof Hinit as (x & y & E). unfold run_effects. case_eq init. intros tr0 [s|e] Ei; rewrite Ei in E; cbn [fst] in E; subst tr0.
  - intros I. change (calls_since [] [(x, y)]) with [Called x y] in I. apply interrupted_app in I as [I|(h' & -> & I)].
    + apply interrupted_one in I as [->| ->]; unfold good; cbn; lia.
    + apply (loop_good print N 0 [(x, y)] s [Called x y]); auto; try lia. split; auto. now apply reach0.
  - intros I. change (calls_since [] [(x, y)]) with [Called x y] in I. apply interrupted_one in I as [->| ->]; unfold good; cbn; lia.
Qed.

(** all calls, whatever is printed and saved *)
Lemma loop_calls print save rem : forall it last tr s, fst (ea_loop step stop rem it last tr s) = tr ++ calls_of (loop_effects step stop print save rem it tr s).
Proof.
  induction rem as [|rem IH]; intros it last tr s; cbn [ea_loop loop_effects]; [now rewrite app_nil_r|].
  rewrite calls_app. replace (calls_of (announce print it s)) with ([] : trace) by (unfold announce; now destruct print). cbn [app].
  destruct (Hgrow it tr s) as (new & En & _). destruct (step it tr s) as [tr' [s'|e]]; cbn [fst] in En; subst tr'; rewrite since_app; destruct (quiet_calls new) as [_ Q].
  - rewrite !calls_app, Q. replace (calls_of (save_step save s')) with ([] : trace) by now destruct save. cbn [app].
    destruct (match stop with None => false | Some t => _ end); [now rewrite app_nil_r|]. rewrite (IH (S it) (Some it)). now rewrite <- app_assoc.
  - cbn [fst]. now rewrite Q.
Qed.
Lemma run_calls print save : calls_of (run_effects init step stop print save N) = fst (run init step stop N).
Proof.
  unfold run_effects, run. pose proof Hinit as (x & y & E). case_eq init. intros tr0 [s|e] Ei; rewrite Ei in E; cbn [fst] in E; subst tr0.
  - rewrite (loop_calls print save). rewrite calls_app. reflexivity.
  - reflexivity.
Qed.
(** a run that was not stopped before *)
Lemma reach_run g tr s : reach init step stop N g tr s -> (1 <= g -> fired stop g s = false) ->
  run init step stop N = ea_loop step stop (N - g) g (last_of g) tr s.
Proof.
  induction 1 as [tr s H|g tr s tr' s' Hr IH HN Hf Es]; intros F.
  - unfold run. rewrite H, Nat.sub_0_r. reflexivity.
  - rewrite IH by auto. replace (N - g) with (S (N - S g)) by lia. cbn [ea_loop]. rewrite Es.
    change (match stop with Some t => flt (nth (S g) (st_gb s') f0) t | None => false end) with (fired stop (S g) s').
    now rewrite F by lia.
Qed.
Lemma reach_end g tr s : 1 <= g -> g = N -> reach init step stop N g tr s -> run init step stop N = (tr, ea_finish s (last_of g)).
Proof.
  intros H1 HN Hr. destruct Hr as [tr s H|g tr s tr' s' Hr HL Hf Es]; [lia|].
  rewrite (reach_run g tr s) by auto. replace (N - g) with 1 by lia. cbn [ea_loop]. rewrite Es.
  now destruct (match stop with None => false | Some t => _ end).
Qed.
End Runs.

(** ** fewer generations *)
Lemma upd_app {A} i (v : A) l m : i < List.length l -> upd i v (l ++ m) = upd i v l ++ m.
Proof. revert i. induction l as [|a l IH]; intros [|i] H; simpl in *; try lia; auto. now rewrite IH by lia. Qed.
Local Arguments upd : simpl never.
Lemma imap_ext {A B} (f g : nat -> A -> B) l : (forall i a, f i a = g i a) -> imap f l = imap g l.
Proof. intros E. unfold imap. generalize (seq 0 (List.length l)) as m. induction l as [|a l IH]; intros [|i m]; auto. cbn [map2]. rewrite E. apply f_equal2; auto. Qed.
Record cut (dim pop g n : nat) (s s' : ea_state) : Prop := {
  c_x : st_x s' = st_x s; c_v : st_v s' = st_v s; c_obj : st_obj s' = st_obj s; c_pb : st_pb s' = st_pb s; c_pbx : st_pbx s' = st_pbx s;
  c_gb : st_gb s = st_gb s' ++ repeat f0 n; c_gbx : st_gbx s = st_gbx s' ++ repeat (repeat f0 dim) n;
  c_samples : st_samples s = st_samples s' ++ repeat (repeat (repeat f0 dim) pop) n;
  c_responses : st_responses s = st_responses s' ++ repeat (repeat f0 pop) n;
  c_l1 : List.length (st_gb s') = S g; c_l2 : List.length (st_gbx s') = S g; c_l3 : List.length (st_samples s') = S g; c_l4 : List.length (st_responses s') = S g }.
Lemma update_cut g it x obj gb gbx n fill : it < g -> List.length gb = S g -> List.length gbx = S g ->
  match update_gen_optimum it x obj gb gbx with
  | Ok r => update_gen_optimum it x obj (gb ++ repeat f0 n) (gbx ++ repeat fill n) = Ok (fst r ++ repeat f0 n, snd r ++ repeat fill n) /\
            List.length (fst r) = S g /\ List.length (snd r) = S g
  | Raise e => update_gen_optimum it x obj (gb ++ repeat f0 n) (gbx ++ repeat fill n) = Raise e end.
Proof.
  intros H L1 L2. unfold update_gen_optimum. destruct (np_min obj) as [m|e]; simpl; auto. destruct (np_argmin obj) as [k|e]; simpl; auto.
  rewrite !app_nth1 by lia. destruct (fge (nth it gb f0) m); rewrite !upd_app by lia; simpl; rewrite !upd_length; auto.
Qed.
Definition cut_step (dim pop g n : nat) (step step' : nat -> trace -> ea_state -> trace * result ea_state) : Prop :=
  forall it tr s s', it < g -> cut dim pop g n s s' ->
  fst (step' it tr s') = fst (step it tr s) /\
  match snd (step it tr s) with Ok t => exists t', snd (step' it tr s') = Ok t' /\ cut dim pop g n t t' | Raise e => snd (step' it tr s') = Raise e end.
Lemma reach_cut dim pop g n N init step init' step' stop : g <= N ->
  (forall tr s, init = (tr, Ok s) -> exists s', init' = (tr, Ok s') /\ cut dim pop g n s s') -> cut_step dim pop g n step step' ->
  forall k tr s, reach init step stop N k tr s -> k <= g -> exists s', reach init' step' stop g k tr s' /\ cut dim pop g n s s'.
Proof.
  intros Hg Hi Hs k tr s Hr. induction Hr as [tr s H|k tr s tr' s' Hr IH HN Hf Es]; intros Hk.
  - destruct (Hi _ _ H) as (s' & E & C). exists s'. split; auto. now apply reach0.
  - destruct (IH ltac:(lia)) as (t & Ht & C). destruct (Hs k tr s t ltac:(lia) C) as [E1 E2]. rewrite Es in E1, E2. cbn [fst snd] in E1, E2.
    destruct E2 as (t' & E2 & C'). exists t'. split; auto.
    assert (step' k tr t = (tr', Ok t')) as E3 by (destruct (step' k tr t); cbn [fst snd] in *; congruence).
    eapply reachS; eauto. intros H1. specialize (Hf H1). unfold fired in *. destruct stop as [z|]; auto. rewrite <- Hf, (c_gb _ _ _ _ _ _ C), app_nth1; auto.
    rewrite (c_l1 _ _ _ _ _ _ C). lia.
Qed.
Lemma cut_holds dim pop g n k s s' o : cut dim pop g n s s' -> ea_finish s' (Some k) = Ok o -> holds dim pop (pickled s) o.
Proof.
  intros C [= <-]. unfold holds, filled, pickled. cbn [sr_best_y_hist sr_best_x_hist sr_samples sr_responses o_best_y_hist o_best_x_hist o_samples o_responses].
  destruct C. repeat split; exists n; auto.
Qed.
Lemma repeat_more {A} (x : A) g n : repeat x (S (g + n)) = repeat x (S g) ++ repeat x n.
Proof. replace (S (g + n)) with (S g + n) by lia. apply repeat_app. Qed.

(** ** PSO *)
Section PSO.
Variables (cfg : pso_config) (b : box) (func : objective) (rng : pso_draws) (stop : option b64).
Lemma pso_grows it tr s : exists new, fst (pso_step cfg b func rng it tr s) = tr ++ new /\ List.length new <= 1.
Proof.
  unfold pso_step. set (x := pso_new_x _ _ _ _ _). pose proof (evaluate_trace func (p_pop cfg) tr x) as E. destruct (evaluate func (p_pop cfg) tr x) as [t y].
  cbn [fst] in *. eexists. split; [exact E|simpl; lia].
Qed.
Lemma pso_starts : exists x y, fst (pso_init cfg b func rng) = [(x, y)].
Proof.
  unfold pso_init. pose proof (evaluate_trace func (p_pop cfg) [] (location_init b (pd_loc rng))) as E. destruct (evaluate func (p_pop cfg) [] (location_init b (pd_loc rng))) as [t y].
  cbn [fst] in *. rewrite E. cbn [app]. eauto.
Qed.
Lemma pso_one it tr s tr' s' : pso_step cfg b func rng it tr s = (tr', Ok s') -> exists c, tr' = tr ++ [c].
Proof. intros E. apply pso_Hstep in E as (u & y & -> & _). eauto. Qed.
Lemma pso_cut_step g n : cut_step (List.length b) (p_pop cfg) g n (pso_step cfg b func rng) (pso_step (pso_generations cfg g) b func rng).
Proof.
  intros it tr s s' Hit []. unfold pso_step, pso_new_x, pso_new_v. rewrite c_x0, c_v0, c_pb0, c_pbx0, c_gb0, c_gbx0, c_samples0, c_responses0.
  change (pso_vmax (pso_generations cfg g) b) with (pso_vmax cfg b). change (p_pop (pso_generations cfg g)) with (p_pop cfg).
  change (vel_update (pso_generations cfg g)) with (vel_update cfg).
  assert (EN : forall j, at2 (st_gbx s' ++ repeat (repeat f0 (List.length b)) n) it j = at2 (st_gbx s') it j) by (intros j; unfold at2; rewrite app_nth1 by lia; auto).
  assert (EV : imap (fun i r => imap (fun j v => vel_clamp (nth j (pso_vmax cfg b) f0) (vel_update cfg v (at2 (st_pbx s) i j) (at2 (st_x s) i j) (at2 (st_gbx s' ++ repeat (repeat f0 (List.length b)) n) it j))) r) (st_v s) =
               imap (fun i r => imap (fun j v => vel_clamp (nth j (pso_vmax cfg b) f0) (vel_update cfg v (at2 (st_pbx s) i j) (at2 (st_x s) i j) (at2 (st_gbx s') it j))) r) (st_v s)).
  { apply imap_ext. intros i r. apply imap_ext. intros j v. now rewrite EN. }
  rewrite EV. match goal with |- context [imap ?f (st_v s)] => set (v := imap f (st_v s)) end. set (x := loc_cons _ _ _).
  destruct (evaluate func (p_pop cfg) tr x) as [t [obj|e]]; cbn [fst snd]; split; auto; simpl; auto.
  pose proof (update_cut g it x obj (st_gb s') (st_gbx s') n (repeat f0 (List.length b)) Hit c_l5 c_l6) as U.
  destruct (update_gen_optimum it x obj (st_gb s') (st_gbx s')) as [r|e].
  - destruct U as (E & L1 & L2). match goal with |- context [update_gen_optimum it x obj ?G ?X] =>
      replace (update_gen_optimum it x obj G X) with (Ok (fst r ++ repeat f0 n, snd r ++ repeat (repeat f0 (List.length b)) n)) by (symmetry; exact E) end. simpl. eexists. split; [reflexivity|].
    split; cbn [st_x st_v st_obj st_pb st_pbx st_gb st_gbx st_samples st_responses]; auto; try (rewrite upd_app by lia; reflexivity); now rewrite upd_length.
  - match goal with |- context [update_gen_optimum it x obj ?G ?X] => replace (update_gen_optimum it x obj G X) with (Raise e : result (list b64 * mat)) by (symmetry; exact U) end. reflexivity.
Qed.
Lemma pso_cut_init g n : p_gen cfg = g + n -> forall tr s, pso_init cfg b func rng = (tr, Ok s) ->
  exists s', pso_init (pso_generations cfg g) b func rng = (tr, Ok s') /\ cut (List.length b) (p_pop cfg) g n s s'.
Proof.
  intros EN tr s. unfold pso_init. change (p_pop (pso_generations cfg g)) with (p_pop cfg). change (p_gen (pso_generations cfg g)) with g.
  change (pso_velocity_init (pso_generations cfg g) b rng) with (pso_velocity_init cfg b rng).
  destruct (evaluate func (p_pop cfg) [] (location_init b (pd_loc rng))) as [t [obj|e]]; simpl; [|discriminate].
  destruct (np_min obj) as [m|e]; simpl; [|discriminate]. destruct (np_argmin obj) as [k|e]; simpl; [|discriminate].
  intros [= <- <-]. eexists. split; [reflexivity|]. rewrite EN. unfold zeros.
  split; cbn [st_x st_v st_obj st_pb st_pbx st_gb st_gbx st_samples st_responses]; auto; first [exact (f_equal (cons _) (repeat_app _ _ _))|exact (f_equal S (repeat_length _ _))].
Qed.
Lemma pso_crash print h : interrupted (pso_effects cfg b func rng stop print true) h ->
  let g := dumps h in
  match file_after Earlier h with
  | Earlier => g = 0 /\ List.length (calls_of h) <= 2
  | Partial => List.length (calls_of h) = g + 2
  | Complete r => 1 <= g <= p_gen cfg /\ S g <= List.length (calls_of h) <= g + 2 /\ sr_best_x r = sr_best_x_hist r /\ sr_best_y r = sr_best_y_hist r /\
      exists o, pso_run (pso_generations cfg g) b func rng stop = (firstn (S g) (calls_of h), Ok o) /\ holds (List.length b) (p_pop cfg) r o
  end.
Proof.
  intros I. apply run_good in I; auto using pso_starts, pso_grows; [|apply pso_one]. unfold good in I. cbv zeta in *.
  destruct (file_after Earlier h) as [| |r]; auto. destruct I as (H1 & H2 & s & Hr & ->).
  assert (HN : dumps h <= p_gen cfg) by exact (reach_le _ _ _ _ _ _ _ Hr).
  split; [split; [exact H1|exact HN]|]. split; [exact H2|]. split; [reflexivity|]. split; [reflexivity|].
  destruct (reach_cut (List.length b) (p_pop cfg) (dumps h) (p_gen cfg - dumps h) (p_gen cfg) _ _
             (pso_init (pso_generations cfg (dumps h)) b func rng) (pso_step (pso_generations cfg (dumps h)) b func rng) stop HN
             (pso_cut_init (dumps h) (p_gen cfg - dumps h) ltac:(lia)) (pso_cut_step _ _) _ _ _ Hr (le_n _)) as (s' & Hr' & C).
  change (pso_run (pso_generations cfg (dumps h)) b func rng stop) with
    (run (pso_init (pso_generations cfg (dumps h)) b func rng) (pso_step (pso_generations cfg (dumps h)) b func rng) stop (dumps h)).
  rewrite (reach_end _ _ _ _ _ _ _ H1 eq_refl Hr'). destruct (dumps h) as [|k]; [lia|]. eexists. split; [reflexivity|].
  eapply cut_holds; [exact C|reflexivity].
Qed.
Lemma pso_same_calls print save : calls_of (pso_effects cfg b func rng stop print save) = fst (pso_run cfg b func rng stop).
Proof. apply run_calls; auto using pso_starts, pso_grows. Qed.
End PSO.

(** ** DE *)
Section DE.
Variables (cfg : de_config) (b : box) (func : objective) (rng : de_draws) (stop : option b64).
Lemma de_grows it tr s : exists new, fst (de_step cfg b func rng it tr s) = tr ++ new /\ List.length new <= 1.
Proof.
  unfold de_step. destruct (de_new_u cfg b rng it (st_x s) (st_gbx s)) as [u|e].
  - pose proof (evaluate_trace func (d_pop cfg) tr u) as E. destruct (evaluate func (d_pop cfg) tr u) as [t y].
    cbn [fst] in *. eexists. split; [exact E|simpl; lia].
  - exists []. cbn [fst]. rewrite app_nil_r. split; auto.
Qed.
Lemma de_starts : exists x y, fst (de_init cfg b func rng) = [(x, y)].
Proof.
  unfold de_init. pose proof (evaluate_trace func (d_pop cfg) [] (location_init b (dd_loc rng))) as E. destruct (evaluate func (d_pop cfg) [] (location_init b (dd_loc rng))) as [t y].
  cbn [fst] in *. rewrite E. cbn [app]. eauto.
Qed.
Lemma de_one it tr s tr' s' : de_step cfg b func rng it tr s = (tr', Ok s') -> exists c, tr' = tr ++ [c].
Proof. intros E. apply de_Hstep in E as (u & y & -> & _). eauto. Qed.
Lemma de_cut_step g n : cut_step (List.length b) (d_pop cfg) g n (de_step cfg b func rng) (de_step (de_generations cfg g) b func rng).
Proof.
  intros it tr s s' Hit []. unfold de_step.
  change (d_pop (de_generations cfg g)) with (d_pop cfg).
  assert (EU : de_new_u (de_generations cfg g) b rng it (st_x s') (st_gbx s') = de_new_u cfg b rng it (st_x s) (st_gbx s)).
  { rewrite c_x0, c_gbx0. unfold de_new_u, de_mutant, donors_needed.
    change (d_pop (de_generations cfg g)) with (d_pop cfg). change (d_strategy (de_generations cfg g)) with (d_strategy cfg).
    change (d_F (de_generations cfg g)) with (d_F cfg). rewrite app_nth1 by lia. reflexivity. }
  rewrite EU. destruct (de_new_u cfg b rng it (st_x s) (st_gbx s)) as [u|e]; [|simpl; auto].
  rewrite c_x0, c_obj0, c_gb0, c_gbx0, c_samples0, c_responses0.
  destruct (evaluate func (d_pop cfg) tr u) as [t [obj|e]]; cbn [fst snd]; split; auto; simpl; auto.
  set (x := de_select_x _ _ _ _). set (ob := de_select_obj _ _).
  pose proof (update_cut g it x ob (st_gb s') (st_gbx s') n (repeat f0 (List.length b)) Hit c_l5 c_l6) as U.
  destruct (update_gen_optimum it x ob (st_gb s') (st_gbx s')) as [r|e].
  - destruct U as (E & L1 & L2). match goal with |- context [update_gen_optimum it x ob ?G ?X] =>
      replace (update_gen_optimum it x ob G X) with (Ok (fst r ++ repeat f0 n, snd r ++ repeat (repeat f0 (List.length b)) n)) by (symmetry; exact E) end. simpl. eexists. split; [reflexivity|].
    split; cbn [st_x st_v st_obj st_pb st_pbx st_gb st_gbx st_samples st_responses]; auto; try (rewrite upd_app by lia; reflexivity); now rewrite upd_length.
  - match goal with |- context [update_gen_optimum it x ob ?G ?X] => replace (update_gen_optimum it x ob G X) with (Raise e : result (list b64 * mat)) by (symmetry; exact U) end. reflexivity.
Qed.
Lemma de_cut_init g n : d_gen cfg = g + n -> forall tr s, de_init cfg b func rng = (tr, Ok s) ->
  exists s', de_init (de_generations cfg g) b func rng = (tr, Ok s') /\ cut (List.length b) (d_pop cfg) g n s s'.
Proof.
  intros EN tr s. unfold de_init. change (d_pop (de_generations cfg g)) with (d_pop cfg). change (d_gen (de_generations cfg g)) with g.
  destruct (evaluate func (d_pop cfg) [] (location_init b (dd_loc rng))) as [t [obj|e]]; simpl; [|discriminate].
  destruct (np_min obj) as [m|e]; simpl; [|discriminate]. destruct (np_argmin obj) as [k|e]; simpl; [|discriminate].
  intros [= <- <-]. eexists. split; [reflexivity|]. rewrite EN. unfold zeros.
  split; cbn [st_x st_v st_obj st_pb st_pbx st_gb st_gbx st_samples st_responses]; auto; first [exact (f_equal (cons _) (repeat_app _ _ _))|exact (f_equal S (repeat_length _ _))].
Qed.
Lemma de_crash print h : interrupted (de_effects cfg b func rng stop print true) h ->
  let g := dumps h in
  match file_after Earlier h with
  | Earlier => g = 0 /\ List.length (calls_of h) <= 2
  | Partial => List.length (calls_of h) = g + 2
  | Complete r => 1 <= g <= d_gen cfg /\ S g <= List.length (calls_of h) <= g + 2 /\ sr_best_x r = sr_best_x_hist r /\ sr_best_y r = sr_best_y_hist r /\
      exists o, de_run (de_generations cfg g) b func rng stop = (firstn (S g) (calls_of h), Ok o) /\ holds (List.length b) (d_pop cfg) r o
  end.
Proof.
  intros I. apply run_good in I; auto using de_starts, de_grows; [|apply de_one]. unfold good in I. cbv zeta in *.
  destruct (file_after Earlier h) as [| |r]; auto. destruct I as (H1 & H2 & s & Hr & ->).
  assert (HN : dumps h <= d_gen cfg) by exact (reach_le _ _ _ _ _ _ _ Hr).
  split; [split; [exact H1|exact HN]|]. split; [exact H2|]. split; [reflexivity|]. split; [reflexivity|].
  destruct (reach_cut (List.length b) (d_pop cfg) (dumps h) (d_gen cfg - dumps h) (d_gen cfg) _ _
             (de_init (de_generations cfg (dumps h)) b func rng) (de_step (de_generations cfg (dumps h)) b func rng) stop HN
             (de_cut_init (dumps h) (d_gen cfg - dumps h) ltac:(lia)) (de_cut_step _ _) _ _ _ Hr (le_n _)) as (s' & Hr' & C).
  change (de_run (de_generations cfg (dumps h)) b func rng stop) with
    (run (de_init (de_generations cfg (dumps h)) b func rng) (de_step (de_generations cfg (dumps h)) b func rng) stop (dumps h)).
  rewrite (reach_end _ _ _ _ _ _ _ H1 eq_refl Hr'). destruct (dumps h) as [|k]; [lia|]. eexists. split; [reflexivity|].
  eapply cut_holds; [exact C|reflexivity].
Qed.
Lemma de_same_calls print save : calls_of (de_effects cfg b func rng stop print save) = fst (de_run cfg b func rng stop).
Proof. apply run_calls; auto using de_starts, de_grows. Qed.
End DE.

(** ** printed lines *)
Section Lines.
Variable init : trace * result ea_state.
Variable step : nat -> trace -> ea_state -> trace * result ea_state.
Variable stop : option b64.
Variables N pop d : nat.
Variable x0 : mat.
Hypothesis Hinit : forall tr s, init = (tr, Ok s) -> common_init pop d N x0 tr s.
Hypothesis Hstep : forall g tr s tr' s', step g tr s = (tr', Ok s') -> common_step pop g tr s tr' s'.
Definition line (o : ea_out) (k : nat) : nat * b64 * row := (k, nth k (o_best_y_hist o) f0, nth k (o_best_x_hist o) []).
Lemma loop_lines save rem : forall it tr s trf o, reach init step stop N it tr s -> (1 <= it -> fired stop it s = false) -> rem + it = N ->
  ea_loop step stop rem it (last_of it) tr s = (trf, Ok o) ->
  it < List.length trf /\ lines_of (loop_effects step stop true save rem it tr s) = map (line o) (seq it (List.length trf - 1 - it)) /\
  forall k, k <= it -> line o k = (k, nth k (st_gb s) f0, nth k (st_gbx s) []).
Proof.
  induction rem as [|rem IH]; intros it tr s trf o Hr Hn HN E; cbn [ea_loop loop_effects] in *.
  - destruct (reach_sizes _ _ _ _ _ _ _ Hinit Hstep _ _ _ Hr) as (L & _). destruct it as [|k]; [discriminate|]. injection E as <- <-.
    split; [lia|]. rewrite L. replace (S (S k) - 1 - S k) with 0 by lia. split; auto.
  - destruct (step it tr s) as [tr' [s'|e]] eqn:Es; [|discriminate].
    assert (Hr' : reach init step stop N (S it) tr' s') by (eapply reachS; eauto; lia).
    pose proof (step_history init step stop N pop Hstep it tr s tr' s' Hr ltac:(lia) Es) as HH.
    destruct (reach_sizes _ _ _ _ _ _ _ Hinit Hstep _ _ _ Hr') as (L & _).
    assert (exists new, tr' = tr ++ new) as (new & ->) by (destruct (Hstep _ _ _ _ _ Es) as (u & y & -> & _); eauto).
    rewrite since_app. destruct (quiet_calls new) as [(Q & _) _].
    rewrite !lines_app, Q. replace (lines_of (save_step save s')) with ([] : list (nat * b64 * row)) by now destruct save. cbn [app].
    change (match stop with Some t => flt (nth (S it) (st_gb s') f0) t | None => false end) with (fired stop (S it) s') in *.
    destruct (fired stop (S it) s') eqn:F.
    + injection E as <- <-. split; [lia|]. rewrite L. replace (S (S it) - 1 - it) with 1 by lia. cbn [seq map].
      unfold line, ea_finish. cbn [o_best_y_hist o_best_x_hist]. split.
      * destruct (HH it (le_n _)) as (-> & -> & _). now rewrite app_nil_r.
      * intros k Hk. now destruct (HH k Hk) as (-> & -> & _).
    + destruct (IH (S it) (tr ++ new) s' trf o Hr' (fun _ => F) ltac:(lia) E) as (H1 & H2 & H3). split; [lia|]. split.
      * rewrite H2. replace (List.length trf - 1 - it) with (S (List.length trf - 1 - S it)) by lia. cbn [seq map].
        rewrite (H3 it) by lia. destruct (HH it (le_n _)) as (-> & -> & _). reflexivity.
      * intros k Hk. rewrite (H3 k) by lia. now destruct (HH k Hk) as (-> & -> & _).
Qed.
Lemma run_lines save trf o : run init step stop N = (trf, Ok o) ->
  lines_of (run_effects init step stop true save N) = map (line o) (seq 0 (List.length trf - 1)).
Proof.
  unfold run, run_effects. case_eq init. intros tr [s|e] Ei E; [|discriminate].
  pose proof (reach0 init step stop N tr s Ei) as Hr.
  destruct (loop_lines save N 0 tr s trf o Hr ltac:(lia) ltac:(lia) E) as (_ & H & _). rewrite lines_app, H, Nat.sub_0_r.
  destruct (quiet_calls tr) as [(Q & _) _]. change (calls_since [] tr) with (map (fun c => Called (fst c) (snd c)) tr). now rewrite Q.
Qed.
(** ** the plot *)
Lemma curve_filler trf o : run init step stop N = (trf, Ok o) ->
  List.length (o_best_y_hist o) = S N /\ forall k, List.length trf <= k <= N -> nth_error (o_best_y_hist o) k = Some f0.
Proof.
  intros E. destruct (run_ok _ _ _ _ _ _ E) as (G & s & Hr & HG & _ & ->). cbn [o_best_y_hist].
  destruct (reach_sizes _ _ _ _ _ _ _ Hinit Hstep _ _ _ Hr) as (L & _ & L1 & _ & _ & _ & Z & _). split; auto.
  intros k Hk. rewrite (nth_error_nth' _ f0) by lia. now rewrite (proj1 (Z k ltac:(lia))).
Qed.
End Lines.
Lemma pso_lines cfg b func rng stop save tr o : pso_run cfg b func rng stop = (tr, Ok o) ->
  lines_of (pso_effects cfg b func rng stop true save) =
  map (fun k => (k, nth k (o_best_y_hist o) f0, nth k (o_best_x_hist o) [])) (seq 0 (List.length tr - 1)).
Proof. intros E. eapply run_lines; [apply pso_Hinit|apply pso_Hstep|exact E]. Qed.
Lemma de_lines cfg b func rng stop save tr o : de_run cfg b func rng stop = (tr, Ok o) ->
  lines_of (de_effects cfg b func rng stop true save) =
  map (fun k => (k, nth k (o_best_y_hist o) f0, nth k (o_best_x_hist o) [])) (seq 0 (List.length tr - 1)).
Proof. intros E. eapply run_lines; [apply de_Hinit|apply de_Hstep|exact E]. Qed.
Lemma plot_known n g name save : List.length g = S n ->
  plot_history n (Some g) name save = ([NewFigure; Curve (seq 0 (S n)) g] ++ (if save then [Saved name] else []) ++ [Shown], None).
Proof. intros L. unfold plot_history. rewrite seq_length, L, Nat.eqb_refl. reflexivity. Qed.
Lemma pso_plot cfg b func rng stop tr o name save : pso_run cfg b func rng stop = (tr, Ok o) ->
  plot_history (p_gen cfg) (Some (o_best_y_hist o)) name save =
    ([NewFigure; Curve (seq 0 (S (p_gen cfg))) (o_best_y_hist o)] ++ (if save then [Saved name] else []) ++ [Shown], None) /\
  forall k, List.length tr <= k <= p_gen cfg -> nth_error (o_best_y_hist o) k = Some f0.
Proof. intros E. edestruct curve_filler as [L F]; [apply pso_Hinit|apply pso_Hstep|exact E|]. split; auto. now apply plot_known. Qed.
Lemma de_plot cfg b func rng stop tr o name save : de_run cfg b func rng stop = (tr, Ok o) ->
  plot_history (d_gen cfg) (Some (o_best_y_hist o)) name save =
    ([NewFigure; Curve (seq 0 (S (d_gen cfg))) (o_best_y_hist o)] ++ (if save then [Saved name] else []) ++ [Shown], None) /\
  forall k, List.length tr <= k <= d_gen cfg -> nth_error (o_best_y_hist o) k = Some f0.
Proof. intros E. edestruct curve_filler as [L F]; [apply de_Hinit|apply de_Hstep|exact E|]. split; auto. now apply plot_known. Qed.
