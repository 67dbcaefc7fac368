(** Proofs: PSO and DE use the objective only through comparisons. *)
From Coq Require Import ZArith Bool List Lia.
From Verif Require Import Fl FlFacts NpList NpFacts Samplers EA EASpec EAFacts RankSpec.
Import ListNotations.

Section Rank.
Variables (D : b64 -> Prop) (h : b64 -> b64).
Hypothesis Inc : increasing_on D h.

Lemma h_lt x y : D x -> D y -> flt (h x) (h y) = flt x y. Proof. intros; now apply Inc. Qed.
Lemma h_le x y : D x -> D y -> fle (h x) (h y) = fle x y. Proof. intros; now apply Inc. Qed.
Lemma h_nan x : D x -> isnan (h x) = isnan x.
Proof.
  intros H. pose proof (h_le x x H H) as E. destruct (isnan x) eqn:Ex; destruct (isnan (h x)) eqn:Eh; auto.
  - rewrite (fle_refl _ Eh), (fle_nan_l x x Ex) in E. discriminate.
  - rewrite (fle_refl _ Ex), (fle_nan_l _ _ Eh) in E. discriminate.
Qed.
Lemma argmin_from_map l : forall i bi best, D best -> Forall D l -> argmin_from i bi (h best) (map h l) = argmin_from i bi best l.
Proof.
  induction l as [|x l IH]; intros i bi best Hb Hl; simpl; auto. inversion_clear Hl as [|? ? Hx Hl'].
  rewrite (h_nan _ Hb), (h_nan _ Hx), (h_lt _ _ Hx Hb).
  destruct (isnan best); auto. destruct (isnan x || flt x best); apply IH; auto.
Qed.
Lemma np_argmin_map l : Forall D l -> np_argmin (map h l) = np_argmin l.
Proof. destruct 1; simpl; auto. now rewrite argmin_from_map. Qed.
Lemma np_min_map l : Forall D l -> match np_min l with
  | Ok m => np_min (map h l) = Ok (h m) /\ D m | Raise e => np_min (map h l) = Raise e end.
Proof.
  intros H. unfold np_min. rewrite (np_argmin_map l H). destruct (np_argmin l) as [i|e] eqn:E; simpl; auto.
  assert (L : i < length l).
  { destruct (np_min_argmin l (nth i l f0)) as (j & Ej & Lj & _).
    - unfold np_min. now rewrite E.
    - congruence. }
  split; [|now apply Forall_nth'].
  rewrite (nth_indep (map h l) f0 (h f0)) by now rewrite map_length. now rewrite map_nth.
Qed.

Local Arguments upd : simpl never.
(** generation optimum *)
Definition gb_sim (it : nat) (gb gb' : list b64) : Prop :=
  length gb' = length gb /\
  (forall g, g <= it -> nth g gb' f0 = h (nth g gb f0) /\ D (nth g gb f0)) /\
  (forall g, it < g -> nth g gb' f0 = nth g gb f0).
Lemma gb_upd it v gb gb' : S it < length gb -> D v -> gb_sim it gb gb' -> gb_sim (S it) (upd (S it) v gb) (upd (S it) (h v) gb').
Proof.
  intros L Dv (E & P & Q). split; [now rewrite !upd_length|]. split.
  - intros g Hg. destruct (Nat.eq_dec g (S it)) as [->|N].
    + rewrite !nth_upd_same by lia. auto.
    + rewrite !nth_upd_other by auto. apply P. lia.
  - intros g Hg. rewrite !nth_upd_other by lia. apply Q. lia.
Qed.
Lemma update_sim it x obj gb gb' gbx : S it < length gb -> Forall D obj -> gb_sim it gb gb' ->
  match update_gen_optimum it x obj gb gbx with
  | Ok g => exists gb2, update_gen_optimum it x (map h obj) gb' gbx = Ok (gb2, snd g) /\ gb_sim (S it) (fst g) gb2 /\ length (fst g) = length gb
  | Raise e => update_gen_optimum it x (map h obj) gb' gbx = Raise e end.
Proof.
  intros L HD S. unfold update_gen_optimum. pose proof (np_min_map obj HD) as M. rewrite (np_argmin_map obj HD).
  destruct (np_min obj) as [m|e]; [destruct M as [M Dm]|]; rewrite M; simpl; auto.
  destruct (np_argmin obj) as [k|e]; simpl; auto.
  destruct S as (E & P & Q). destruct (P it (le_n it)) as [Pi Di].
  rewrite Pi. unfold fge. rewrite (h_le _ _ Dm Di).
  destruct (fle m (nth it gb f0)); eexists; (split; [reflexivity|]); (split; [|apply upd_length]);
    apply gb_upd; auto; split; auto.
Qed.

(** states *)
Definition resp_sim (it : nat) (r r' : list (list b64)) : Prop :=
  length r' = length r /\
  (forall g, g <= it -> nth g r' [] = map h (nth g r [])) /\ (forall g, it < g -> nth g r' [] = nth g r []).
Lemma resp_upd it v r r' : S it < length r -> resp_sim it r r' -> resp_sim (S it) (upd (S it) v r) (upd (S it) (map h v) r').
Proof.
  intros L (E & P & Q). split; [now rewrite !upd_length|]. split.
  - intros g Hg. destruct (Nat.eq_dec g (S it)) as [->|N].
    + rewrite !nth_upd_same by lia. auto.
    + rewrite !nth_upd_other by auto. apply P. lia.
  - intros g Hg. rewrite !nth_upd_other by lia. apply Q. lia.
Qed.
Record sim (gen it : nat) (s s' : ea_state) : Prop := {
  m_x : st_x s' = st_x s; m_v : st_v s' = st_v s; m_pbx : st_pbx s' = st_pbx s;
  m_gbx : st_gbx s' = st_gbx s; m_samples : st_samples s' = st_samples s;
  m_obj : st_obj s' = map h (st_obj s); m_Dobj : Forall D (st_obj s);
  m_pb : st_pb s' = map h (st_pb s); m_Dpb : Forall D (st_pb s);
  m_gb : gb_sim it (st_gb s) (st_gb s'); m_gbl : length (st_gb s) = S gen;
  m_resp : resp_sim it (st_responses s) (st_responses s'); m_respl : length (st_responses s) = S gen
}.
Definition tsim (tr tr' : trace) : Prop := tr' = map (fun c => (fst c, then_apply h (snd c))) tr.

Lemma evaluate_sim func n tr tr' x : responses_in D func -> tsim tr tr' ->
  exists y, tsim (fst (evaluate func n tr x)) (fst (evaluate (transformed h func) n tr' x)) /\
  snd (evaluate func n tr x) = y /\ snd (evaluate (transformed h func) n tr' x) = then_apply h y /\ forall l, y = Ok l -> Forall D l.
Proof.
  intros HD ->. eexists. split; [|split; [reflexivity|split]].
  - unfold tsim, evaluate, transformed. cbn [fst]. rewrite map_length, map_app. reflexivity.
  - unfold evaluate, transformed. cbn [snd]. rewrite map_length.
    destruct (func (length tr) x) as [l|e]; simpl; auto. rewrite map_length. now destruct (Nat.eqb _ _).
  - unfold evaluate. cbn [snd]. intros l. destruct (func (length tr) x) as [l0|e] eqn:E; simpl; [|discriminate].
    destruct (Nat.eqb _ _); [|discriminate]. intros [= <-]. eapply HD; eauto.
Qed.

Local Arguments upd _ !i v !l : simpl nomatch.
Lemma init_sim gen n pop x v b obj pb pbx m m' gbx : Forall D obj -> D m -> m' = h m ->
  pb = obj \/ pb = [] ->
  sim gen 0 {| st_x := x; st_v := v; st_obj := obj; st_pb := pb; st_pbx := pbx; st_gb := upd 0 m (zeros (S gen)); st_gbx := gbx;
              st_samples := upd 0 x (repeat (repeat (zeros (length (b : box))) n) (S gen));
              st_responses := upd 0 obj (repeat (zeros pop) (S gen)) |}
            {| st_x := x; st_v := v; st_obj := map h obj; st_pb := map h pb; st_pbx := pbx; st_gb := upd 0 m' (zeros (S gen)); st_gbx := gbx;
              st_samples := upd 0 x (repeat (repeat (zeros (length (b : box))) n) (S gen));
              st_responses := upd 0 (map h obj) (repeat (zeros pop) (S gen)) |}.
Proof.
  intros HD Dm -> Hp. split; cbn [st_x st_v st_obj st_pb st_pbx st_gb st_gbx st_samples st_responses]; auto.
  - destruct Hp as [->| ->]; auto.
  - split; [reflexivity|]. split; intros [|g] Hg; try lia; simpl; auto.
  - simpl. unfold zeros. now rewrite repeat_length.
  - split; [reflexivity|]. split; intros [|g] Hg; try lia; simpl; auto.
  - simpl. now rewrite repeat_length.
Qed.
Local Arguments upd : simpl never.

Lemma select_map (f : b64 -> b64 -> bool) l m :
  (forall x y, D x -> D y -> f (h x) (h y) = f x y) -> Forall D l -> Forall D m ->
  map2 (fun n o => if f n o then n else o) (map h l) (map h m) = map h (map2 (fun n o => if f n o then n else o) l m) /\
  Forall D (map2 (fun n o => if f n o then n else o) l m).
Proof.
  intros F. revert m. induction l as [|a l IH]; intros [|c m] Hl Hm; simpl; auto.
  inversion_clear Hl as [|? ? Ha Hl']. inversion_clear Hm as [|? ? Hc Hm'].
  destruct (IH m Hl' Hm') as [E G]. rewrite E, (F _ _ Ha Hc). destruct (f a c); auto.
Qed.
Lemma choose_map {A} (f : b64 -> b64 -> bool) l m (x : list (A * A)) :
  (forall a y, D a -> D y -> f (h a) (h y) = f a y) -> Forall D l -> Forall D m ->
  map2 (fun c xp => if f (fst c) (snd c) then fst xp else snd xp) (combine (map h l) (map h m)) x =
  map2 (fun c xp => if f (fst c) (snd c) then fst xp else snd xp) (combine l m) x.
Proof.
  intros F. revert m x. induction l as [|a l IH]; intros [|c m] [|p x] Hl Hm; simpl; auto.
  inversion_clear Hl as [|? ? Ha Hl']. inversion_clear Hm as [|? ? Hc Hm'].
  now rewrite (F _ _ Ha Hc), (IH m x Hl' Hm').
Qed.

Definition step_ok (gen : nat) (step step' : nat -> trace -> ea_state -> trace * result ea_state) : Prop :=
  forall it tr tr' s s', it < gen -> tsim tr tr' -> sim gen it s s' ->
  tsim (fst (step it tr s)) (fst (step' it tr' s')) /\
  match snd (step it tr s) with
  | Ok t => exists t', snd (step' it tr' s') = Ok t' /\ sim gen (S it) t t'
  | Raise e => snd (step' it tr' s') = Raise e end.

Section PSO.
Variables (cfg : pso_config) (b : box) (func : objective) (rng : pso_draws).
Hypothesis HD : responses_in D func.
Lemma pso_step_sim : step_ok (p_gen cfg) (pso_step cfg b func rng) (pso_step cfg b (transformed h func) rng).
Proof.
  intros it tr tr' s s' Hit T S. destruct S.
  unfold pso_step, pso_new_x, pso_new_v. rewrite m_x0, m_v0, m_pbx0, m_gbx0, m_samples0, m_pb0.
  match goal with |- context [evaluate func _ _ ?y] => set (x := y) end.
  destruct (evaluate_sim func (p_pop cfg) tr tr' x HD T) as (y & T' & E & E' & Hy).
  destruct (evaluate func (p_pop cfg) tr x) as [t1 y1]. destruct (evaluate (transformed h func) (p_pop cfg) tr' x) as [t2 y2].
  cbn [fst snd] in *. subst y1 y2. split; auto. destruct y as [obj|e]; simpl; auto.
  specialize (Hy obj eq_refl).
  pose proof (update_sim it x obj (st_gb s) (st_gb s') (st_gbx s) ltac:(lia) Hy m_gb0) as U.
  destruct (update_gen_optimum it x obj (st_gb s) (st_gbx s)) as [g|e].
  - destruct U as (gb2 & -> & G & L). simpl. eexists. split; [reflexivity|].
    destruct (select_map fle obj (st_pb s) h_le Hy m_Dpb0) as [EM DM].
    split; cbn [st_x st_v st_obj st_pb st_pbx st_gb st_gbx st_samples st_responses]; auto.
    + unfold pop_best_loc. now rewrite (choose_map fle obj (st_pb s) _ h_le Hy m_Dpb0).
    + lia.
    + apply resp_upd; auto. lia.
    + rewrite upd_length. auto.
  - now rewrite U.
Qed.
End PSO.
Section DE.
Variables (cfg : de_config) (b : box) (func : objective) (rng : de_draws).
Hypothesis HD : responses_in D func.
Lemma de_step_sim : step_ok (d_gen cfg) (de_step cfg b func rng) (de_step cfg b (transformed h func) rng).
Proof.
  intros it tr tr' s s' Hit T S. destruct S.
  unfold de_step. rewrite m_x0, m_gbx0, m_samples0, m_obj0.
  destruct (de_new_u cfg b rng it (st_x s) (st_gbx s)) as [u|e]; [|simpl; auto].
  destruct (evaluate_sim func (d_pop cfg) tr tr' u HD T) as (y & T' & E & E' & Hy).
  destruct (evaluate func (d_pop cfg) tr u) as [t1 y1]. destruct (evaluate (transformed h func) (d_pop cfg) tr' u) as [t2 y2].
  cbn [fst snd] in *. subst y1 y2. split; auto. destruct y as [obj|e]; simpl; auto.
  specialize (Hy obj eq_refl).
  destruct (select_map flt obj (st_obj s) h_lt Hy m_Dobj0) as [EM DM].
  unfold de_select_x. rewrite (choose_map flt obj (st_obj s) _ h_lt Hy m_Dobj0).
  unfold de_select_obj. rewrite EM. 
  match goal with |- context [update_gen_optimum it ?X ?O (st_gb s)] => set (x := X); set (ob := O) in * end.
  pose proof (update_sim it x ob (st_gb s) (st_gb s') (st_gbx s) ltac:(lia) DM m_gb0) as U.
  destruct (update_gen_optimum it x ob (st_gb s) (st_gbx s)) as [g|e].
  - destruct U as (gb2 & -> & G & L). simpl. eexists. split; [reflexivity|].
    split; cbn [st_x st_v st_obj st_pb st_pbx st_gb st_gbx st_samples st_responses]; auto.
    + lia.
    + apply resp_upd; auto. lia.
    + rewrite upd_length. auto.
  - now rewrite U.
Qed.
End DE.

(** the result of a run: [n] calls were made *)
Definition result_sim (n : nat) (r r' : result ea_out) : Prop :=
  match r with Ok out => exists out', r' = Ok out' /\ same_search h n out out' | Raise e => r' = Raise e end.
Lemma nth_error_eq {A} (l l' : list A) d g : length l' = length l -> nth g l' d = nth g l d -> nth_error l' g = nth_error l g.
Proof.
  intros L E. destruct (Nat.lt_ge_cases g (length l)).
  - rewrite !(nth_error_nth' _ d) by lia. now rewrite E.
  - rewrite (proj2 (nth_error_None _ _)), (proj2 (nth_error_None _ _)) by lia. auto.
Qed.
Lemma finish_sim gen it s s' : it < gen -> sim gen (S it) s s' -> result_sim (S (S it)) (ea_finish s (Some it)) (ea_finish s' (Some it)).
Proof.
  intros Hit []. destruct m_gb0 as (L & P & Q). destruct m_resp0 as (L2 & P2 & Q2). unfold ea_finish, result_sim. eexists. split; [reflexivity|].
  unfold same_search. cbn [o_best_x o_best_y o_best_x_hist o_best_y_hist o_samples o_responses o_value o_location o_pop_best o_pop_best_x].
  rewrite m_gbx0, m_samples0, m_pbx0, m_pb0. repeat (split; [solve [auto | apply P; lia]|]). split.
  - intros g Hg. split; [|apply P2; lia]. unfold entry.
    rewrite (nth_indep (st_gb s') fnan f0) by lia. rewrite (nth_indep (st_gb s) fnan f0) by lia. apply P. lia.
  - intros g Hg. split; [apply (nth_error_eq _ _ f0)|apply (nth_error_eq _ _ [])]; auto.
Qed.
Lemma loop_sim gen step step' stop : step_ok gen step step' -> stop_in D stop ->
  (forall it tr s tr' t, step it tr s = (tr', Ok t) -> length tr' = S (length tr)) ->
  forall rem it tr tr' s s', it + rem = gen -> length tr = S it -> tsim tr tr' -> sim gen it s s' ->
  let r := ea_loop step stop rem it (match it with O => None | S k => Some k end) tr s in
  let r' := ea_loop step' (option_map h stop) rem it (match it with O => None | S k => Some k end) tr' s' in
  tsim (fst r) (fst r') /\ result_sim (length (fst r)) (snd r) (snd r').
Proof.
  intros ST SD LS. induction rem as [|rem IH]; intros it tr tr' s s' Hg Lt T S; cbv zeta; cbn [ea_loop].
  - cbn [fst snd]. split; auto. rewrite Lt. destruct it as [|k]; [reflexivity|]. apply (finish_sim gen); auto. lia.
  - destruct (ST it tr tr' s s' ltac:(lia) T S) as [T' R].
    destruct (step it tr s) as [t1 [u|e]] eqn:E1; destruct (step' it tr' s') as [t2 r2]; cbn [fst snd] in *.
    + destruct R as (u' & -> & S'). pose proof (LS _ _ _ _ _ E1) as L1.
      assert (C : match option_map h stop with None => false | Some t => flt (nth (Datatypes.S it) (st_gb u') f0) t end =
                  match stop with None => false | Some t => flt (nth (Datatypes.S it) (st_gb u) f0) t end).
      { destruct stop as [t|]; simpl; auto. destruct (m_gb _ _ _ _ S') as (_ & P & _).
        destruct (P (Datatypes.S it) (le_n _)) as [-> Dv]. apply h_lt; auto. }
      rewrite C. destruct (match stop with None => false | Some t => _ end).
      * cbn [fst snd]. split; auto. rewrite L1, Lt. apply (finish_sim gen); auto. lia.
      * apply (IH (Datatypes.S it)); auto; lia.
    + rewrite R. cbn [fst snd]. split; auto. reflexivity.
Qed.

Lemma pso_rank cfg b func rng stop tr res : responses_in D func -> stop_in D stop ->
  pso_run cfg b func rng stop = (tr, res) ->
  exists res', pso_run cfg b (transformed h func) rng (option_map h stop) = (map (fun c => (fst c, then_apply h (snd c))) tr, res') /\
  match res with Ok out => exists out', res' = Ok out' /\ same_search h (length tr) out out' | Raise e => res' = Raise e end.
Proof.
  intros HD SD E. change (exists res', pso_run cfg b (transformed h func) rng (option_map h stop) = (map (fun c => (fst c, then_apply h (snd c))) tr, res') /\ result_sim (length tr) res res').
  revert E. unfold pso_run, pso_init.
  destruct (evaluate_sim func (p_pop cfg) [] [] (location_init b (pd_loc rng)) HD eq_refl) as (y & T' & E & E' & Hy).
  destruct (evaluate func (p_pop cfg) [] (location_init b (pd_loc rng))) as [t1 y1] eqn:EV.
  destruct (evaluate (transformed h func) (p_pop cfg) [] (location_init b (pd_loc rng))) as [t2 y2].
  cbn [fst snd] in *. subst y1 y2. unfold tsim in T'. subst t2.
  destruct y as [obj|e]; simpl; [|intros [= <- <-]; eexists; split; reflexivity].
  specialize (Hy obj eq_refl). pose proof (np_min_map obj Hy) as M. rewrite (np_argmin_map obj Hy).
  destruct (np_min obj) as [m|e]; [destruct M as [M Dm]|]; rewrite M; simpl; [|intros [= <- <-]; eexists; split; reflexivity].
  destruct (np_argmin obj) as [k|e]; simpl; [|intros [= <- <-]; eexists; split; reflexivity].
  assert (L1 : length t1 = 1) by (unfold evaluate in EV; injection EV as <- _; reflexivity).
  intros E.
  match type of E with ea_loop ?st stop ?g 0 None _ ?s = _ =>
    match goal with |- context [ea_loop ?st' _ _ 0 None ?t ?s'] =>
      pose proof (loop_sim g st st' stop (pso_step_sim cfg b func rng HD) SD) as LL;
      specialize (LL ltac:(intros it tr0 s0 tr1 t0 H0; unfold pso_step, evaluate in H0; injection H0 as <- _; rewrite app_length; simpl; lia) g 0 t1 t s s' eq_refl L1 eq_refl)
    end end.
  cbv beta iota zeta in LL. rewrite E in LL.
  match type of LL with ?A -> _ => assert (S0 : A) end.
  { apply (init_sim (p_gen cfg) (p_pop cfg) (p_pop cfg) _ _ b obj obj); auto. }
  destruct (LL S0) as [T R]. cbn [fst snd] in T, R. unfold tsim in T.
  match goal with |- exists r, ?X = _ /\ _ => exists (snd X); rewrite <- T; split; [destruct X; reflexivity|exact R] end.
Qed.
Lemma de_rank cfg b func rng stop tr res : responses_in D func -> stop_in D stop ->
  de_run cfg b func rng stop = (tr, res) ->
  exists res', de_run cfg b (transformed h func) rng (option_map h stop) = (map (fun c => (fst c, then_apply h (snd c))) tr, res') /\
  match res with Ok out => exists out', res' = Ok out' /\ same_search h (length tr) out out' | Raise e => res' = Raise e end.
Proof.
  intros HD SD E. change (exists res', de_run cfg b (transformed h func) rng (option_map h stop) = (map (fun c => (fst c, then_apply h (snd c))) tr, res') /\ result_sim (length tr) res res').
  revert E. unfold de_run, de_init.
  destruct (evaluate_sim func (d_pop cfg) [] [] (location_init b (dd_loc rng)) HD eq_refl) as (y & T' & E & E' & Hy).
  destruct (evaluate func (d_pop cfg) [] (location_init b (dd_loc rng))) as [t1 y1] eqn:EV.
  destruct (evaluate (transformed h func) (d_pop cfg) [] (location_init b (dd_loc rng))) as [t2 y2].
  cbn [fst snd] in *. subst y1 y2. unfold tsim in T'. subst t2.
  destruct y as [obj|e]; simpl; [|intros [= <- <-]; eexists; split; reflexivity].
  specialize (Hy obj eq_refl). pose proof (np_min_map obj Hy) as M. rewrite (np_argmin_map obj Hy).
  destruct (np_min obj) as [m|e]; [destruct M as [M Dm]|]; rewrite M; simpl; [|intros [= <- <-]; eexists; split; reflexivity].
  destruct (np_argmin obj) as [k|e]; simpl; [|intros [= <- <-]; eexists; split; reflexivity].
  assert (L1 : length t1 = 1) by (unfold evaluate in EV; injection EV as <- _; reflexivity).
  intros E.
  match type of E with ea_loop ?st stop ?g 0 None _ ?s = _ =>
    match goal with |- context [ea_loop ?st' _ _ 0 None ?t ?s'] =>
      pose proof (loop_sim g st st' stop (de_step_sim cfg b func rng HD) SD) as LL;
      specialize (LL ltac:(intros it tr0 s0 tr1 t0 H0; unfold de_step in H0; destruct (de_new_u cfg b rng it (st_x s0) (st_gbx s0)); [|discriminate]; unfold evaluate in H0; injection H0 as <- _; rewrite app_length; simpl; lia) g 0 t1 t s s' eq_refl L1 eq_refl)
    end end.
  cbv beta iota zeta in LL. rewrite E in LL.
  match type of LL with ?A -> _ => assert (S0 : A) end.
  { apply (init_sim (d_gen cfg) (d_pop cfg) (d_pop cfg) _ _ b obj []); auto. }
  destruct (LL S0) as [T R]. cbn [fst snd] in T, R. unfold tsim in T.
  match goal with |- exists r, ?X = _ /\ _ => exists (snd X); rewrite <- T; split; [destruct X; reflexivity|exact R] end.
Qed.
End Rank.
