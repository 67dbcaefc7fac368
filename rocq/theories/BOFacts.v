(** Proofs about the single-fidelity Bayesian optimisers. *)
From Coq Require Import ZArith Bool List Lia.
From Verif Require Import Fl FlFacts NpList NpFacts Spec EA EASpec BO BOSpec.
Import ListNotations.

(** ** The loop and the session *)

Lemma session_inv {S C} (run : C -> S -> S * option exn) (I : S -> Prop) calls :
  (forall c s, I s -> I (fst (run c s))) -> forall s, I s -> I (fst (session run calls s)).
Proof.
  intros H. induction calls as [|c cs IH]; intros s Hs; simpl; auto.
  specialize (H c s Hs). destruct (run c s) as [s1 e]. specialize (IH s1 H).
  destruct (session run cs s1) as [s2 es]. exact IH.
Qed.

Lemma session_inv_ok {S C} (run : C -> S -> S * option exn) (I : S -> Prop) calls :
  (forall c s, I s -> snd (run c s) = None -> I (fst (run c s))) ->
  forall s, I s -> all_ok (snd (session run calls s)) -> I (fst (session run calls s)).
Proof.
  intros H. induction calls as [|c cs IH]; intros s Hs; simpl; auto.
  specialize (H c s Hs). destruct (run c s) as [s1 e]. simpl in H. specialize (IH s1).
  destruct (session run cs s1) as [s2 es]. simpl in *. intros A. inversion A; subst. auto.
Qed.

Section LoopFacts.
Variable S : Type.
Variable step : S -> S * option exn.
Variable continue : S -> result bool.
Notation loop := (bo_loop S step continue).

Lemma loop_inv (I : S -> Prop) : (forall s, I s -> I (fst (step s))) ->
  forall n s, I s -> I (fst (loop n s)).
Proof.
  intros H. induction n; intros s Hs; simpl; auto.
  destruct (continue s) as [[|]|]; simpl; auto. specialize (H s Hs).
  destruct (step s) as [s' [e|]]; simpl in *; auto.
Qed.
Lemma loop_inv_ok (I : S -> Prop) : (forall s, I s -> snd (step s) = None -> I (fst (step s))) ->
  forall n s, I s -> snd (loop n s) = None -> I (fst (loop n s)).
Proof.
  intros H. induction n; intros s Hs; simpl; auto.
  destruct (continue s) as [[|]|]; simpl; auto. specialize (H s Hs).
  destruct (step s) as [s' [e|]]; simpl in *; auto.
Qed.

(** A normal return: [m] iterations, the condition held before each, and either the budget is used
    up or the condition fails at the end. *)
Inductive iters : nat -> S -> S -> Prop :=
| iters0 s : iters 0 s s
| itersS m s s1 s2 : continue s = Ok true -> step s = (s1, None) -> iters m s1 s2 -> iters (Datatypes.S m) s s2.
Lemma loop_iters n : forall s s', loop n s = (s', None) ->
  exists m, m <= n /\ iters m s s' /\ (m = n \/ continue s' = Ok false).
Proof.
  induction n; simpl; intros s s' H.
  - injection H as <-. exists 0. repeat split; auto. constructor.
  - destruct (continue s) as [[|]|] eqn:E.
    + destruct (step s) as [s1 [e|]] eqn:Es; [discriminate|].
      destruct (IHn _ _ H) as (m & Hm & Hi & Hf). exists (Datatypes.S m). split; [lia|]. split.
      * econstructor; eauto.
      * destruct Hf; auto.
    + injection H as <-. exists 0. split; [lia|]. split; [constructor|auto].
    + discriminate.
Qed.
Lemma iters_inv (I : S -> Prop) : (forall s s', I s -> step s = (s', None) -> I s') ->
  forall m s s', iters m s s' -> I s -> I s'.
Proof. intros H m s s' Hi. induction Hi; eauto. Qed.
End LoopFacts.

(** ** Minimum and first position *)

Lemma min_first x y p v i : np_min y = Ok v -> np_argmin y = Ok i -> nth_error x i = Some p -> no_nan y ->
  first_min x y p v.
Proof.
  intros Hv Hi Hp N. unfold np_min in Hv. rewrite Hi in Hv. simpl in Hv. injection Hv as <-.
  destruct (np_argmin_spec y i Hi) as (A & B & C).
  assert (Nv : isnan (nth i y f0) = false) by (apply N, nth_In; auto).
  split; [intros w Hw; now apply B|].
  exists i, (nth i y f0). split; auto. split; [now apply nth_error_nth'|]. split; [now apply feq_refl|].
  intros j u Hj Hu. destruct (C j Hj) as [_ C']. specialize (C' Nv).
  now rewrite (nth_error_nth _ _ f0 Hu) in C'.
Qed.

Lemma first_some_min x y p v : first_min x y p v -> some_min x y p v.
Proof. intros (A & i & w & H1 & H2 & H3 & _). split; eauto. Qed.

Lemma vstack_ok a r x : vstack a r = Ok x -> x = a ++ r.
Proof. unfold vstack. destruct (forallb _ _); congruence. Qed.

Lemma prefix_refl {X} (a : list X) : prefix_of a a.
Proof. exists []. now rewrite app_nil_r. Qed.
Lemma prefix_app {X} (a b : list X) : prefix_of a (a ++ b).
Proof. now exists b. Qed.
Lemma prefix_trans {X} (a b c : list X) : prefix_of a b -> prefix_of b c -> prefix_of a c.
Proof. intros [u ->] [w ->]. exists (u ++ w). now rewrite app_assoc. Qed.

(** ** Single-fidelity, unconstrained *)

Section SF.
Variable query : nat -> result mat.
Variable func : objective.
Variable train : nat -> option exn.
Notation step := (sf_step query func train).

(** What one iteration does to the state. *)
Lemma sf_step_cases s s' o : step s = (s', o) ->
  s_queries s' = S (s_queries s) /\
  ((o <> None /\ s_x s' = s_x s /\ s_y s' = s_y s /\ s_best s' = s_best s /\ s_best_x s' = s_best_x s /\
    s_hist s' = s_hist s /\ s_hist_x s' = s_hist_x s /\ s_trains s' = s_trains s /\
    prefix_of (s_calls s) (s_calls s') /\
    (forall k x y, nth_error (s_calls s') k = Some (x, y) -> nth_error (s_calls s) k = Some (x, y) \/ y = func k x)) \/
   exists ux y, query (s_queries s) = Ok ux /\ func (length (s_calls s)) ux = Ok y /\
    s_x s' = s_x s ++ ux /\ s_y s' = s_y s ++ y /\ s_trains s' = S (s_trains s) /\
    s_calls s' = s_calls s ++ [(ux, Ok y)] /\
    ((o <> None /\ train (s_trains s) = o /\ s_best s' = s_best s /\ s_best_x s' = s_best_x s /\ s_hist s' = s_hist s /\ s_hist_x s' = s_hist_x s) \/
     (o <> None /\ train (s_trains s) = None /\ s_hist s' = s_hist s /\ s_hist_x s' = s_hist_x s /\
      (np_argmin (s_y s') = Raise ValueError \/ exists i, np_argmin (s_y s') = Ok i /\ length (s_x s') <= i)) \/
     (o = None /\ train (s_trains s) = None /\ exists i, np_argmin (s_y s') = Ok i /\ np_min (s_y s') = Ok (s_best s') /\
        nth_error (s_x s') i = Some (s_best_x s') /\
        s_hist s' = s_hist s ++ [s_best s'] /\ s_hist_x s' = s_hist_x s ++ [s_best_x s']))).
Proof.
  assert (T : forall ux uy, uy = func (length (s_calls s)) ux ->
     forall k x y, nth_error (s_calls s ++ [(ux, uy)]) k = Some (x, y) -> nth_error (s_calls s) k = Some (x, y) \/ y = func k x).
  { intros ux uy -> k x y H. destruct (Nat.lt_ge_cases k (length (s_calls s))).
    - left. now rewrite nth_error_app1 in H.
    - right. rewrite nth_error_app2 in H by auto.
      destruct (k - length (s_calls s)) eqn:E; simpl in H.
      + injection H as <- <-. f_equal. lia.
      + destruct n; discriminate. }
  unfold sf_step. destruct (query (s_queries s)) as [ux|e] eqn:Q.
  2:{ intros [= <- <-]. simpl. split; auto. left. repeat split; auto using prefix_refl; discriminate. }
  destruct (func (length (s_calls s)) ux) as [y|e] eqn:F.
  2:{ intros [= <- <-]. simpl. split; auto. left. repeat split; auto using prefix_app; try discriminate. eapply T; eauto. }
  destruct (vstack (s_x s) ux) as [x'|e] eqn:V.
  2:{ intros [= <- <-]. simpl. split; auto. left. repeat split; auto using prefix_app; try discriminate. eapply T; eauto. }
  apply vstack_ok in V. subst x'.
  destruct (train (s_trains s)) as [e|] eqn:Tr.
  { intros [= <- <-]. simpl. split; auto. right. exists ux, y. repeat split; auto. left. repeat split; auto. discriminate. }
  unfold sf_update_para. cbn [s_x s_y s_queries s_trains s_calls s_hist s_hist_x s_best s_best_x].
  unfold np_min. destruct (np_argmin (s_y s ++ y)) as [i|e] eqn:A; cbn [bind].
  2:{ intros [= <- <-]. simpl. split; auto. right. exists ux, y. repeat split; auto. right. left.
      repeat split; auto; [discriminate|]. left. destruct (s_y s ++ y); [now simpl in A; injection A as <-|discriminate]. }
  unfold take_row. destruct (nth_error (s_x s ++ ux) i) as [r|] eqn:R.
  2:{ intros [= <- <-]. simpl. split; auto. right. exists ux, y. repeat split; auto. right. left.
      repeat split; auto; [discriminate|]. right. exists i. split; auto. now apply nth_error_None. }
  intros [= <- <-]. simpl. split; auto. right. exists ux, y. repeat split; auto. right. right.
  repeat split; auto. exists i. rewrite A. simpl. repeat split; auto.
Qed.

Notation run := (sf_run query func train).

Lemma sf_new_cases design s : sf_new func train design = Ok s ->
  exists y i, func 0 design = Ok y /\ train 0 = None /\ np_argmin y = Ok i /\ np_min y = Ok (s_best s) /\
    nth_error design i = Some (s_best_x s) /\ s_x s = design /\ s_y s = y /\ s_hist s = [s_best s] /\
    s_hist_x s = [s_best_x s] /\ s_queries s = 0 /\ s_trains s = 1 /\ s_calls s = [(design, Ok y)].
Proof.
  unfold sf_new. destruct (func 0 design) as [y|] eqn:F; simpl; [|discriminate].
  destruct (train 0) eqn:T; [discriminate|].
  unfold np_min. destruct (np_argmin y) as [i|] eqn:A; simpl; [|discriminate].
  unfold take_row. destruct (nth_error design i) as [r|] eqn:R; simpl; [|discriminate].
  intros [= <-]. simpl. exists y, i. rewrite A. repeat split; auto.
Qed.

(** Samples and responses stay aligned and only grow, whatever raises. *)
Definition sf_grown (s0 s : sf_state) : Prop :=
  prefix_of (s_x s0) (s_x s) /\ prefix_of (s_y s0) (s_y s) /\
  prefix_of (s_hist s0) (s_hist s) /\ prefix_of (s_hist_x s0) (s_hist_x s) /\ prefix_of (s_calls s0) (s_calls s).
Lemma sf_grown_refl s : sf_grown s s.
Proof. repeat split; apply prefix_refl. Qed.
Lemma sf_grown_trans a b c : sf_grown a b -> sf_grown b c -> sf_grown a c.
Proof. intros (A1 & A2 & A3 & A4 & A5) (B1 & B2 & B3 & B4 & B5). repeat split; eauto using prefix_trans. Qed.
Lemma sf_step_grown s : sf_grown s (fst (step s)).
Proof.
  destruct (step s) as [s' o] eqn:E. destruct (sf_step_cases _ _ _ E) as [_ [H|H]].
  - destruct H as (_ & E1 & E2 & _ & _ & E3 & E4 & _ & P & _). unfold sf_grown. simpl. rewrite E1, E2, E3, E4.
    repeat split; auto using prefix_refl.
  - destruct H as (ux & y & _ & _ & A & B & _ & C & H). unfold sf_grown. simpl. rewrite A, B, C.
    repeat split; auto using prefix_app;
    destruct H as [(_ & _ & _ & _ & Z1 & Z2)|[(_ & _ & Z1 & Z2 & _)|(_ & _ & i & _ & _ & _ & Z1 & Z2)]];
    rewrite ?Z1, ?Z2; auto using prefix_app, prefix_refl.
Qed.
Lemma sf_session_grown opt calls s : sf_grown s (fst (session (run opt) calls s)).
Proof.
  apply (session_inv (run opt) (sf_grown s)); [|apply sf_grown_refl].
  intros c s1 H. apply (loop_inv _ _ _ (sf_grown s)); auto. intros s2 H2. eapply sf_grown_trans; eauto using sf_step_grown.
Qed.

Lemma sf_step_true s : true_trace func (s_calls s) -> true_trace func (s_calls (fst (step s))).
Proof.
  intros H. destruct (step s) as [s' o] eqn:E. destruct (sf_step_cases _ _ _ E) as [_ [K|K]].
  - destruct K as (_ & _ & _ & _ & _ & _ & _ & _ & _ & T). intros k x y Hk. destruct (T k x y Hk) as [T'|T']; [exact (H _ _ _ T')|exact T'].
  - destruct K as (ux & y0 & _ & F & _ & _ & _ & C & _). simpl. rewrite C. intros k x y Hk.
    destruct (Nat.lt_ge_cases k (length (s_calls s))).
    + rewrite nth_error_app1 in Hk by auto. eapply H; eauto.
    + rewrite nth_error_app2 in Hk by auto. destruct (k - length (s_calls s)) eqn:D; simpl in Hk.
      * injection Hk as <- <-. rewrite <- F. f_equal. lia.
      * destruct n; discriminate.
Qed.
Lemma sf_session_true opt calls s : true_trace func (s_calls s) ->
  true_trace func (s_calls (fst (session (run opt) calls s))).
Proof.
  apply (session_inv (run opt) (fun s => true_trace func (s_calls s))).
  intros c s1 H. apply (loop_inv _ _ _ (fun s => true_trace func (s_calls s))); auto. apply sf_step_true.
Qed.

(** Aligned samples and responses. *)
Section Aligned.
Hypothesis Hf : one_per_point func.
Definition sf_aligned (s : sf_state) : Prop := length (s_x s) = length (s_y s) /\ s_y s <> [].
Lemma sf_step_aligned s : sf_aligned s -> sf_aligned (fst (step s)).
Proof.
  intros [A N]. destruct (step s) as [s' o] eqn:E. destruct (sf_step_cases _ _ _ E) as [_ [K|K]]; unfold sf_aligned; simpl.
  - destruct K as (_ & -> & -> & _). auto.
  - destruct K as (ux & y0 & _ & F & -> & -> & _). rewrite !app_length, A, (Hf _ _ _ F). split; auto.
    destruct (s_y s); [congruence|discriminate].
Qed.
Lemma sf_run_aligned opt c s : sf_aligned s -> sf_aligned (fst (run opt c s)).
Proof. intros H. apply (loop_inv _ _ _ sf_aligned); auto. apply sf_step_aligned. Qed.
Lemma sf_new_aligned design s : sf_new func train design = Ok s -> sf_aligned s.
Proof.
  intros H. destruct (sf_new_cases _ _ H) as (y & i & F & _ & A & _ & _ & Ex & Ey & _).
  unfold sf_aligned. rewrite Ex, Ey. split; [symmetry; eapply Hf; eauto|]. intros ->. discriminate.
Qed.
End Aligned.

(** best is the minimum and best_x its first position *)
Definition sf_settled (s : sf_state) : Prop :=
  exists i, np_argmin (s_y s) = Ok i /\ np_min (s_y s) = Ok (s_best s) /\ nth_error (s_x s) i = Some (s_best_x s).
Lemma sf_new_settled design s : sf_new func train design = Ok s -> sf_settled s.
Proof.
  intros H. destruct (sf_new_cases _ _ H) as (y & i & F & _ & A & B & C & Ex & Ey & _).
  exists i. rewrite Ex, Ey. auto.
Qed.
Lemma sf_step_settled s s' : step s = (s', None) -> sf_settled s'.
Proof.
  intros E. destruct (sf_step_cases _ _ _ E) as [_ [K|K]]; [destruct K; congruence|].
  destruct K as (ux & y & _ & _ & _ & _ & _ & _ & [K|[K|K]]); try (destruct K; congruence).
  destruct K as (_ & _ & i & A & B & C & _). exists i. auto.
Qed.
Lemma sf_session_settled opt calls s : sf_settled s -> all_ok (snd (session (run opt) calls s)) ->
  sf_settled (fst (session (run opt) calls s)).
Proof.
  intros H. apply (session_inv_ok (run opt) sf_settled); auto. intros c s1 H1. apply (loop_inv_ok _ _ _ sf_settled); auto.
  intros s2 _ H2. destruct (step s2) eqn:E. simpl in *. subst. eapply sf_step_settled; eauto.
Qed.
Lemma settled_min s : sf_settled s -> no_nan (s_y s) -> first_min (s_x s) (s_y s) (s_best_x s) (s_best s).
Proof. intros (i & A & B & C) N. eapply min_first; eauto. Qed.

(** C25 *)
Lemma sf_best opt design s0 calls s es : sf_new func train design = Ok s0 ->
  session (run opt) calls s0 = (s, es) -> all_ok es -> no_nan (s_y s) ->
  first_min (s_x s) (s_y s) (s_best_x s) (s_best s).
Proof.
  intros H E A N. apply settled_min; auto.
  replace s with (fst (session (run opt) calls s0)) by (now rewrite E).
  apply sf_session_settled; [eapply sf_new_settled; eauto|]. now rewrite E.
Qed.
Lemma sf_iters_queries opt stop m s s' :
  iters _ step (fun s => truth (fun e => fge e stop) (update_error opt (s_best s))) m s s' -> s_queries s' = m + s_queries s.
Proof.
  intros H. induction H; auto. rewrite IHiters. destruct (sf_step_cases _ _ _ H0) as [-> _]. lia.
Qed.
Lemma sf_iters_last cont m s s' : iters _ step cont m s s' -> m = 0 \/ sf_settled s'.
Proof.
  intros H. induction H; auto. right. destruct IHiters as [->|]; auto.
  inversion H1; subst. eapply sf_step_settled; eauto.
Qed.
(** also after exceptions, as soon as one iteration completes *)
Lemma sf_best_recovers opt c s s' : run opt c s = (s', None) -> s_queries s' <> s_queries s -> no_nan (s_y s') ->
  first_min (s_x s') (s_y s') (s_best_x s') (s_best s').
Proof.
  intros H Q N. apply settled_min; auto. unfold sf_run in H. destruct (loop_iters _ _ _ _ _ _ H) as (m & _ & I & _).
  destruct (sf_iters_last _ _ _ _ I); auto. subst. apply sf_iters_queries in I. simpl in I. congruence.
Qed.

(** C26: one sample, response and history entry per iteration *)
Section Counts.
Variable n0 : nat.
Hypothesis Hf : one_per_point func.
Hypothesis Hq : one_point query.
Definition sf_history (s : sf_state) : Prop := forall t, t <= s_queries s ->
  exists i, np_argmin (firstn (n0 + t) (s_y s)) = Ok i /\
    np_min (firstn (n0 + t) (s_y s)) = Ok (nth t (s_hist s) fnan) /\
    nth_error (s_x s) i = Some (nth t (s_hist_x s) []).
Definition sf_recorded (s : sf_state) : Prop :=
  length (s_x s) = n0 + s_queries s /\ length (s_y s) = n0 + s_queries s /\
  length (s_hist s) = S (s_queries s) /\ length (s_hist_x s) = S (s_queries s) /\
  s_trains s = S (s_queries s) /\ length (s_calls s) = S (s_queries s) /\
  s_x s = concat (map fst (s_calls s)) /\ (exists ys, answers (s_calls s) ys /\ s_y s = concat ys).
Lemma sf_step_recorded s s' : sf_recorded s /\ sf_history s -> step s = (s', None) -> sf_recorded s' /\ sf_history s'.
Proof.
  intros [(A1 & A2 & A3 & A4 & A5 & A6 & A7 & ys & A8 & A9) H] E.
  destruct (sf_step_cases _ _ _ E) as [Q [K|K]]; [destruct K; congruence|].
  destruct K as (ux & y & Qx & F & X & Y & T & C & [K|[K|K]]); try (destruct K; congruence).
  destruct K as (_ & _ & i & B1 & B2 & B3 & B4 & B5).
  pose proof (Hq _ _ Qx) as L1. pose proof (Hf _ _ _ F) as L2.
  assert (LX : length (s_x s') = n0 + s_queries s') by (rewrite X, Q, app_length; lia).
  assert (LY : length (s_y s') = n0 + s_queries s') by (rewrite Y, Q, app_length; lia).
  split.
  - unfold sf_recorded. rewrite LX, LY. rewrite B4, B5, T, C, Q, !app_length. simpl. repeat split; try lia.
    + rewrite X, A7, map_app, concat_app. simpl. now rewrite app_nil_r.
    + exists (ys ++ [y]). split.
      * unfold answers in *. rewrite !map_app. now rewrite A8.
      * rewrite Y, A9, concat_app. simpl. now rewrite app_nil_r.
  - intros t Ht. destruct (Nat.eq_dec t (s_queries s')) as [->|].
    + rewrite firstn_all2 by lia. exists i. split; auto. rewrite B4, B5.
      rewrite !app_nth2 by lia. replace (s_queries s' - length (s_hist s)) with 0 by lia.
      replace (s_queries s' - length (s_hist_x s)) with 0 by lia. simpl. auto.
    + destruct (H t ltac:(lia)) as (i' & E1 & E2 & E3). exists i'.
      assert (P : firstn (n0 + t) (s_y s') = firstn (n0 + t) (s_y s)).
      { rewrite Y, firstn_app. replace (n0 + t - length (s_y s)) with 0 by lia. simpl. now rewrite app_nil_r. }
      rewrite P. split; auto. rewrite B4, B5, !app_nth1 by lia. split; auto.
      rewrite X, nth_error_app1; auto. apply nth_error_Some. congruence.
Qed.
Lemma sf_new_recorded design s : n0 = length design -> sf_new func train design = Ok s -> sf_recorded s /\ sf_history s.
Proof.
  intros E0 H. destruct (sf_new_cases _ _ H) as (y & i & F & T & A & B & C & Ex & Ey & Eh & Eg & Eq & Et & Ec).
  pose proof (Hf _ _ _ F). split.
  - unfold sf_recorded. rewrite Ex, Ey, Eh, Eg, Eq, Et, Ec. simpl. repeat split; try lia.
    + now rewrite app_nil_r.
    + exists [y]. split; [reflexivity|]. simpl. now rewrite app_nil_r.
  - intros t Ht. assert (t = 0) by lia. subst t. rewrite Ey, Eh, Eg, Ex. rewrite firstn_all2 by lia. exists i. auto.
Qed.
Lemma sf_session_recorded opt design calls s0 s es : n0 = length design ->
  sf_new func train design = Ok s0 ->
  session (run opt) calls s0 = (s, es) -> all_ok es -> sf_recorded s /\ sf_history s.
Proof.
  intros E0 H E A. replace s with (fst (session (run opt) calls s0)) by (now rewrite E).
  apply (session_inv_ok (run opt) (fun s => sf_recorded s /\ sf_history s)).
  - intros c s1 H1. apply (loop_inv_ok _ _ _ (fun s => sf_recorded s /\ sf_history s)); auto. intros s2 H2 N. destruct (step s2) eqn:D. simpl in *. subst.
    eapply sf_step_recorded; eauto.
  - eapply sf_new_recorded; eauto.
  - now rewrite E.
Qed.
Lemma sf_history_min s t : sf_recorded s -> sf_history s -> no_nan (s_y s) -> t <= s_queries s ->
  first_min (firstn (n0 + t) (s_x s)) (firstn (n0 + t) (s_y s)) (nth t (s_hist_x s) []) (nth t (s_hist s) fnan).
Proof.
  intros (A1 & A2 & _) H N Ht. destruct (H t Ht) as (i & E1 & E2 & E3).
  eapply min_first; eauto.
  - destruct (np_argmin_spec _ _ E1) as [L _]. rewrite firstn_length in L.
    rewrite <- E3. rewrite <- (firstn_skipn (n0 + t) (s_x s)) at 2. rewrite nth_error_app1; auto.
    rewrite firstn_length. lia.
  - intros v Hv. apply N. rewrite <- (firstn_skipn (n0 + t)). apply in_or_app. auto.
Qed.
Lemma sf_history_mono s : sf_recorded s -> sf_history s -> no_nan (s_y s) -> non_increasing (s_hist s).
Proof.
  intros R H N i j Hij. pose proof R as (A1 & A2 & A3 & _).
  destruct (sf_history_min s i R H N ltac:(lia)) as (_ & k & w & _ & K1 & K2 & _).
  destruct (sf_history_min s j R H N ltac:(lia)) as (M & _).
  eapply fle_trans; [apply M|].
  - apply nth_error_In with (n := k). rewrite <- (firstn_skipn (n0 + i) (firstn (n0 + j) (s_y s))).
    rewrite firstn_firstn. replace (Nat.min (n0 + i) (n0 + j)) with (n0 + i) by lia.
    rewrite nth_error_app1; eauto. apply nth_error_Some. congruence.
  - apply feq_iff in K2. tauto.
Qed.
End Counts.

(** C27: the stopping rule *)
Lemma truth_gap cmp o b : truth cmp (update_error (attr o) b) = Ok (cmp (gap o b)).
Proof. destruct o as [o|]; simpl; auto. destruct (feq o f0); auto. Qed.
Lemma sf_iters_hist o stop m s s' :
  iters _ step (fun s => truth (fun e => fge e stop) (update_error (attr o) (s_best s))) m s s' ->
  (exists h, s_hist s = h ++ [s_best s]) ->
  length (s_hist s') = m + length (s_hist s) /\ prefix_of (s_hist s) (s_hist s') /\
  (exists h, s_hist s' = h ++ [s_best s']) /\
  (forall k, k < m -> fle stop (gap o (nth (length (s_hist s) - 1 + k) (s_hist s') fnan)) = true).
Proof.
  intros H. induction H as [s|m s s1 s2 Hc Hs Hi IH]; intros [h Hh].
  - repeat split; eauto using prefix_refl. lia.
  - destruct (sf_step_cases _ _ _ Hs) as [_ [K|K]]; [destruct K; congruence|].
    destruct K as (ux & y & _ & _ & _ & _ & _ & _ & [K|[K|K]]); try (destruct K; congruence).
    destruct K as (_ & _ & i & _ & _ & _ & B4 & _).
    destruct IH as (L & P & X & F); [eauto|].
    rewrite truth_gap in Hc. injection Hc as Hc.
    assert (Q : prefix_of (s_hist s) (s_hist s2)) by (eapply prefix_trans; [|exact P]; rewrite B4; apply prefix_app).
    repeat split; auto.
    + rewrite L, B4, app_length. simpl. lia.
    + intros [|k] Hk.
      * destruct Q as [q ->]. rewrite Hh. rewrite app_length. simpl.
        replace (length h + 1 - 1 + 0) with (length h) by lia.
        rewrite <- app_assoc. simpl. rewrite nth_middle. exact Hc.
      * specialize (F k ltac:(lia)). rewrite B4, app_length in F. simpl in F.
        replace (length (s_hist s) - 1 + S k) with (length (s_hist s) + 1 - 1 + k); auto.
        rewrite Hh, app_length. simpl. lia.
Qed.
Definition sf_lasting (s : sf_state) : Prop := exists h, s_hist s = h ++ [s_best s].
Lemma sf_session_lasting opt design calls s0 s es : sf_new func train design = Ok s0 ->
  session (run opt) calls s0 = (s, es) -> all_ok es -> sf_lasting s.
Proof.
  intros H E A. replace s with (fst (session (run opt) calls s0)) by (now rewrite E).
  apply (session_inv_ok (run opt) sf_lasting).
  - intros c s1 H1. apply (loop_inv_ok _ _ _ sf_lasting); auto. intros s2 H2 N. destruct (step s2) eqn:D. simpl in *. subst.
    destruct (sf_step_cases _ _ _ D) as [_ [K|K]]; [destruct K; congruence|].
    destruct K as (ux & y & _ & _ & _ & _ & _ & _ & [K|[K|K]]); try (destruct K; congruence).
    destruct K as (_ & _ & i & _ & _ & _ & B4 & _). eexists. eauto.
  - destruct (sf_new_cases _ _ H) as (y & i & F & T & _ & _ & _ & _ & _ & Eh & _). exists []. auto.
  - now rewrite E.
Qed.
Lemma sf_stopping o n stop s s' : sf_lasting s -> run (attr o) (n, stop) s = (s', None) ->
  exists m, m <= n /\ s_queries s' = m + s_queries s /\ length (s_hist s') = m + length (s_hist s) /\
    (forall k, k < m -> fle stop (gap o (nth (length (s_hist s) - 1 + k) (s_hist s') fnan)) = true) /\
    (m = n \/ fle stop (gap o (s_best s')) = false).
Proof.
  intros L H. unfold sf_run in H. destruct (loop_iters _ _ _ _ _ _ H) as (m & Hm & I & F).
  exists m. split; auto. split; [eapply sf_iters_queries; eauto|].
  destruct (sf_iters_hist _ _ _ _ _ I L) as (A & _ & _ & B). repeat split; auto.
  destruct F as [F|F]; auto. right. simpl in F. rewrite truth_gap in F. now injection F.
Qed.
Lemma sf_unknown n stop s s' : run NoOptimum (n, stop) s = (s', None) ->
  (fle stop f1 = true -> s_queries s' = n + s_queries s) /\ (fle stop f1 = false -> s' = s).
Proof.
  intros H. unfold sf_run in H. simpl fst in H. simpl snd in H. split; intros E.
  - destruct (loop_iters _ _ _ _ _ _ H) as (m & Hm & I & F).
    apply sf_iters_queries in I. rewrite I. destruct F as [->|F]; auto.
    simpl in F. unfold fge in F. rewrite E in F. discriminate.
  - destruct n; simpl in H; [congruence|]. unfold fge in H. rewrite E in H. congruence.
Qed.
Lemma sf_list n stop s a b l : run (OptimumList (a :: b :: l)) (S n, stop) s = (s, Some ValueError).
Proof. reflexivity. Qed.

(** NaN responses *)
Lemma sf_nan opt design s0 calls s es : sf_new func train design = Ok s0 ->
  session (run opt) calls s0 = (s, es) -> all_ok es -> (exists v, In v (s_y s) /\ isnan v = true) ->
  isnan (s_best s) = true.
Proof.
  intros H E A N.
  assert (S : sf_settled s).
  { replace s with (fst (session (run opt) calls s0)) by (now rewrite E).
    apply sf_session_settled; [eapply sf_new_settled; eauto|]. now rewrite E. }
  destruct S as (i & _ & B & _). eapply np_min_nan; eauto.
Qed.
End SF.

Lemma fsub_nan_l x y : isnan x = true -> isnan (fsub x y) = true.
Proof. destruct x; try discriminate. destruct y; reflexivity. Qed.
Lemma fdiv_nan_l x y : isnan x = true -> isnan (fdiv x y) = true.
Proof. destruct x; try discriminate. destruct y; reflexivity. Qed.
Lemma fabs_nan x : isnan x = true -> isnan (fabs x) = true.
Proof. destruct x; try discriminate. reflexivity. Qed.
Lemma gap_nan o b : isnan b = true -> isnan (gap (Some o) b) = true.
Proof.
  intros N. unfold gap. destruct (feq o f0).
  - now apply fabs_nan, fsub_nan_l.
  - now apply fabs_nan, fdiv_nan_l, fsub_nan_l.
Qed.
Lemma sf_nan_stops query func train o c s : isnan (s_best s) = true ->
  sf_run query func train (Optimum o) c s = (s, None).
Proof.
  intros N. unfold sf_run. destruct (fst c) as [|n]; cbn [bo_loop]; auto.
  change (Optimum o) with (attr (Some o)). rewrite truth_gap.
  unfold fge. rewrite (fle_nan_r (snd c) (gap (Some o) (s_best s))); auto. now apply gap_nan.
Qed.

Lemma not_fle x y : fle x y = false -> flt y x = true \/ isnan y = true \/ isnan x = true.
Proof.
  intros H. destruct (isnan x) eqn:Nx; auto. destruct (isnan y) eqn:Ny; auto. left. now apply fle_false.
Qed.
