(** Proofs about the constrained Bayesian optimiser. *)
From Coq Require Import ZArith Bool List Lia.
From Verif Require Import Fl FlFacts NpList NpFacts Spec EA EASpec BO BOSpec BOFacts.
Import ListNotations.

(** ** The best feasible sample *)

Lemma filter_length_le {A} f (l : list A) : length (filter f l) <= length l.
Proof. induction l; simpl; auto. destruct (f a); simpl; lia. Qed.
Lemma filter_all {A} f (l : list A) : length (filter f l) = length l <-> Forall (fun x => f x = true) l.
Proof.
  induction l; simpl; [split; auto|].
  pose proof (filter_length_le f l). destruct (f a) eqn:E; simpl.
  - split; intros H0. constructor; auto. apply IHl. lia. inversion H0; subst. f_equal. now apply IHl.
  - split; intros H0; [lia|]. inversion H0; congruence.
Qed.

Lemma take_rows_ok {A} (a : list A) d idx : Forall (fun i => i < length a) idx ->
  take_rows a idx = Ok (map (fun i => nth i a d) idx).
Proof.
  induction idx as [|i l IH]; intros H; simpl; auto. inversion H; subst.
  unfold take_row at 1. rewrite (nth_error_nth' a d) by auto. simpl. rewrite IH; auto.
Qed.

Definition rows_ok (nc : nat) (g : mat) : Prop := Forall (fun r => length r = nc) g.

Lemma feasible_index_iff nc g i : rows_ok nc g -> (In i (feasible_index nc g) <-> feasible g i).
Proof.
  intros R. unfold feasible_index. rewrite filter_In, in_seq, Nat.eqb_eq. split.
  - intros [Hi H]. exists (nth i g []). split; [apply nth_error_nth'; lia|].
    apply filter_all. rewrite H. symmetry. unfold rows_ok in R. rewrite Forall_forall in R. apply R, nth_In. lia.
  - intros (r & Hr & F). assert (i < length g) by (apply nth_error_Some; congruence).
    assert (E : nth i g [] = r) by (now apply nth_error_nth). unfold mat, row in *. rewrite E. split; [lia|]. apply filter_all in F. rewrite F.
    unfold rows_ok in R. rewrite Forall_forall in R. apply R. eapply nth_error_In; eauto.
Qed.

Lemma where_eq_iff y v i : In i (where_eq y v) <-> exists w, nth_error y i = Some w /\ feq w v = true.
Proof.
  unfold where_eq. rewrite filter_In, in_seq. split.
  - intros [Hi H]. exists (nth i y f0). split; auto. apply nth_error_nth'. lia.
  - intros (w & Hw & F). assert (i < length y) by (apply nth_error_Some; congruence).
    rewrite (nth_error_nth _ _ f0 Hw). split; auto. lia.
Qed.

Section Best.
Variables (nc : nat) (x : mat) (y : list b64) (g : mat).
Hypothesis Lx : length x = length y.
Hypothesis Lg : length g = length y.
Hypothesis R : rows_ok nc g.

Lemma feas_lt : Forall (fun i => i < length y) (feasible_index nc g).
Proof.
  apply Forall_forall. intros i Hi. apply feasible_index_iff in Hi; auto. destruct Hi as (r & Hr & _).
  rewrite <- Lg. apply nth_error_Some. congruence.
Qed.
Lemma where_lt v : Forall (fun i => i < length x) (where_eq y v).
Proof.
  apply Forall_forall. intros i Hi. apply where_eq_iff in Hi. destruct Hi as (r & Hr & _).
  rewrite Lx. apply nth_error_Some. congruence.
Qed.

Lemma cn_best_cases : 
  ((forall i, ~ feasible g i) /\ cn_best nc x y g = (finf, None)) \/
  exists v, (exists i, feasible g i) /\
    np_min (map (fun i => nth i y f0) (feasible_index nc g)) = Ok v /\
    cn_best nc x y g = (v, Some (map (fun i => nth i x []) (where_eq y v))).
Proof.
  unfold cn_best, best_feasible. rewrite (take_rows_ok y f0 _ feas_lt). cbn [bind].
  pose proof feasible_index_iff nc g as FI.
  destruct (feasible_index nc g) as [|j l] eqn:E.
  - left. simpl. split; auto. intros i Hi. apply (FI i R) in Hi. destruct Hi.
  - right. destruct (np_min_ok (map (fun i => nth i y f0) (j :: l))) as [v Hv]; [discriminate|].
    exists v. rewrite Hv. cbn [bind]. rewrite (take_rows_ok x [] _ (where_lt v)). simpl.
    repeat split; auto. exists j. apply FI; auto. left. auto.
Qed.

Lemma cn_best_feasible v bx : cn_best nc x y g = (v, bx) ->
  (forall i w, feasible g i -> nth_error y i = Some w -> isnan w = false) ->
  feasible_best y g v.
Proof.
  intros E N. destruct cn_best_cases as [[A B]|(v' & A & B & C)].
  - left. split; auto. congruence.
  - right. assert (v' = v) by congruence. subst v'. apply np_min_spec in B as [B1 B2].
    apply in_map_iff in B1 as (i & B1 & B3). apply feasible_index_iff in B3; auto.
    assert (Hi : nth_error y i = Some v).
    { rewrite <- B1. apply nth_error_nth'. destruct B3 as (r & Hr & _). rewrite <- Lg. apply nth_error_Some. congruence. }
    assert (Nv : isnan v = false) by eauto.
    split.
    + intros k w Hk Hw. apply B2; auto. apply in_map_iff. exists k. split.
      * now apply nth_error_nth.
      * now apply feasible_index_iff.
    + exists i, v. repeat split; auto. now apply feq_refl.
Qed.

(** best_x consists of exactly the samples whose objective equals best *)
Lemma cn_best_rows v bx : cn_best nc x y g = (v, Some bx) ->
  bx = map (fun i => nth i x []) (where_eq y v).
Proof.
  intros E. destruct cn_best_cases as [[A B]|(v' & A & B & C)]; congruence.
Qed.
Lemma cn_best_none v : cn_best nc x y g = (v, None) -> forall i, ~ feasible g i.
Proof. intros E. destruct cn_best_cases as [[A B]|(v' & A & B & C)]; [auto|congruence]. Qed.
Lemma cn_best_some v bx : cn_best nc x y g = (v, Some bx) -> exists i, feasible g i.
Proof. intros E. destruct cn_best_cases as [[A B]|(v' & A & B & C)]; [congruence|auto]. Qed.
End Best.

Lemma feasible_app_l g h i : feasible g i -> feasible (g ++ h) i.
Proof.
  intros (r & A & B). exists r. split; auto. rewrite nth_error_app1; auto. apply nth_error_Some. congruence.
Qed.

Lemma feasible_best_mono y1 y2 g1 g2 v1 v2 : length y1 = length g1 ->
  feasible_best y1 g1 v1 -> feasible_best (y1 ++ y2) (g1 ++ g2) v2 -> fle v2 v1 = true.
Proof.
  intros L [[A ->]|[A B]] [[A' ->]|[A' B']].
  - reflexivity.
  - destruct B' as (i & w & _ & _ & E). apply feq_iff in E as [_ E]. apply fle_nnan_l in E.
    destruct (fin_or v2 E) as [F|[->| ->]]; auto. destruct v2; try discriminate; reflexivity.
  - destruct B as (i & w & F & _). destruct (A' i). now apply feasible_app_l.
  - destruct B as (i & w & F & Hw & E). apply feq_iff in E as [E _].
    eapply fle_trans; [eapply A'|exact E].
    + apply feasible_app_l; eauto.
    + rewrite nth_error_app1; auto. apply nth_error_Some. congruence.
Qed.

(** ** The optimiser *)

Section CONS.
Variable query : nat -> result mat.
Variable func : objective.
Variable cons : nat -> mat -> result mat.
Variable train : nat -> option exn.
Variable nc : nat.
Notation step := (cn_step query func cons train nc).
Notation run := (cn_run query func cons train nc).

Definition cn_grown (s0 s : cn_state) : Prop :=
  prefix_of (c_x s0) (c_x s) /\ prefix_of (c_y s0) (c_y s) /\ prefix_of (c_g s0) (c_g s) /\
  prefix_of (c_hist s0) (c_hist s) /\ prefix_of (c_hist_x s0) (c_hist_x s).
Lemma cn_grown_refl s : cn_grown s s.
Proof. repeat split; apply prefix_refl. Qed.
Lemma cn_grown_trans a b c : cn_grown a b -> cn_grown b c -> cn_grown a c.
Proof. intros (A1 & A2 & A3 & A4 & A5) (B1 & B2 & B3 & B4 & B5). repeat split; eauto using prefix_trans. Qed.
Lemma cn_step_grown s : cn_grown s (fst (step s)).
Proof.
  unfold cn_step. destruct (query (c_queries s)) as [ux|]; [|repeat split; apply prefix_refl].
  destruct (func (length (c_calls s)) ux) as [y|]; [|repeat split; apply prefix_refl].
  destruct (cons (length (c_cons_calls s)) ux) as [g|]; [|repeat split; apply prefix_refl].
  destruct (vstack (c_x s) ux) as [x'|] eqn:V; [|repeat split; apply prefix_refl].
  apply vstack_ok in V. subst x'.
  destruct (vstack (c_g s) g) as [g'|] eqn:V; [|repeat split; simpl; auto using prefix_refl, prefix_app].
  apply vstack_ok in V. subst g'.
  destruct (train_all train nc (c_g s ++ g) (c_trains s)) as [t [e|]]; [repeat split; simpl; auto using prefix_refl, prefix_app|].
  destruct (cn_best nc (c_x s ++ ux) (c_y s ++ y) (c_g s ++ g)) as [v bx].
  repeat split; simpl; auto using prefix_app.
Qed.
Lemma cn_session_grown opt calls s : cn_grown s (fst (session (run opt) calls s)).
Proof.
  apply (session_inv (run opt) (cn_grown s)); [|apply cn_grown_refl].
  intros c s1 H. apply (loop_inv _ _ _ (cn_grown s)); auto. intros s2 H2. eapply cn_grown_trans; eauto using cn_step_grown.
Qed.

Lemma cn_step_ok s s' : step s = (s', None) -> exists ux y g,
  query (c_queries s) = Ok ux /\ func (length (c_calls s)) ux = Ok y /\ cons (length (c_cons_calls s)) ux = Ok g /\
  c_x s' = c_x s ++ ux /\ c_y s' = c_y s ++ y /\ c_g s' = c_g s ++ g /\
  cn_best nc (c_x s') (c_y s') (c_g s') = (c_best s', c_best_x s') /\
  c_hist s' = c_hist s ++ [c_best s'] /\ c_hist_x s' = c_hist_x s ++ [c_best_x s'] /\
  c_queries s' = S (c_queries s) /\ c_calls s' = c_calls s ++ [(ux, Ok y)] /\
  c_cons_calls s' = c_cons_calls s ++ [(ux, Ok g)].
Proof.
  unfold cn_step. destruct (query (c_queries s)) as [ux|]; [|discriminate].
  destruct (func (length (c_calls s)) ux) as [y|] eqn:F; [|discriminate].
  destruct (cons (length (c_cons_calls s)) ux) as [g|] eqn:G; [|discriminate].
  destruct (vstack (c_x s) ux) as [x'|] eqn:V; [|discriminate]. apply vstack_ok in V. subst x'.
  destruct (vstack (c_g s) g) as [g'|] eqn:V; [|discriminate]. apply vstack_ok in V. subst g'.
  destruct (train_all train nc (c_g s ++ g) (c_trains s)) as [t [e|]]; [discriminate|].
  destruct (cn_best nc (c_x s ++ ux) (c_y s ++ y) (c_g s ++ g)) as [v bx] eqn:B.
  intros [= <-]. exists ux, y, g. simpl. repeat split; auto.
Qed.

Lemma cn_new_ok design s : cn_new func cons train nc design = Ok s -> exists y g,
  func 0 design = Ok y /\ cons 0 design = Ok g /\ c_x s = design /\ c_y s = y /\ c_g s = g /\
  cn_best nc design y g = (c_best s, c_best_x s) /\ c_hist s = [c_best s] /\ c_hist_x s = [c_best_x s] /\
  c_queries s = 0 /\ c_calls s = [(design, Ok y)] /\ c_cons_calls s = [(design, Ok g)].
Proof.
  unfold cn_new. destruct (func 0 design) as [y|]; simpl; [|discriminate].
  destruct (cons 0 design) as [g|]; simpl; [|discriminate].
  destruct (train_all train nc g 0) as [t [e|]]; [discriminate|].
  destruct (cn_best nc design y g) as [v bx] eqn:B. intros [= <-]. exists y, g. simpl. repeat split; auto.
Qed.

Section Ok.
Hypothesis Hf : one_per_point func.
Hypothesis Hc : cons_per_point nc cons.

(** lengths and the best value agree with the data *)
Definition cn_settled (s : cn_state) : Prop :=
  length (c_x s) = length (c_y s) /\ length (c_g s) = length (c_y s) /\ rows_ok nc (c_g s) /\
  cn_best nc (c_x s) (c_y s) (c_g s) = (c_best s, c_best_x s).
Lemma cn_new_settled design s : cn_new func cons train nc design = Ok s -> cn_settled s.
Proof.
  intros H. destruct (cn_new_ok _ _ H) as (y & g & F & G & Ex & Ey & Eg & B & _).
  unfold cn_settled. rewrite Ex, Ey, Eg. destruct (Hc _ _ _ G) as [L R]. rewrite (Hf _ _ _ F). repeat split; auto.
Qed.
Lemma cn_step_settled s s' : cn_settled s -> step s = (s', None) -> cn_settled s'.
Proof.
  intros (A1 & A2 & A3 & _) E. destruct (cn_step_ok _ _ E) as (ux & y & g & _ & F & G & Ex & Ey & Eg & B & _).
  destruct (Hc _ _ _ G) as [L R]. pose proof (Hf _ _ _ F).
  unfold cn_settled. split; [|split; [|split]]; auto.
  - rewrite Ex, Ey, !app_length. unfold mat, row in *. lia.
  - rewrite Eg, Ey, !app_length. unfold mat, row in *. lia.
  - rewrite Eg. apply Forall_app. auto.
Qed.
Lemma cn_session_settled opt calls design s0 s es : cn_new func cons train nc design = Ok s0 ->
  session (run opt) calls s0 = (s, es) -> all_ok es -> cn_settled s.
Proof.
  intros H E A. replace s with (fst (session (run opt) calls s0)) by (now rewrite E).
  apply (session_inv_ok (run opt) cn_settled).
  - intros c s1 H1. apply (loop_inv_ok _ _ _ cn_settled); auto. intros s2 H2 N. destruct (step s2) eqn:D. simpl in *. subst.
    eapply cn_step_settled; eauto.
  - eapply cn_new_settled; eauto.
  - now rewrite E.
Qed.

(** C28 *)
Lemma cn_best_ok opt calls design s0 s es : cn_new func cons train nc design = Ok s0 ->
  session (run opt) calls s0 = (s, es) -> all_ok es -> no_nan (c_y s) ->
  feasible_best (c_y s) (c_g s) (c_best s) /\
  ((forall i, ~ feasible (c_g s) i) -> c_best s = finf /\ c_best_x s = None).
Proof.
  intros H E A N. destruct (cn_session_settled _ _ _ _ _ _ H E A) as (A1 & A2 & A3 & A4). split.
  - apply (cn_best_feasible nc (c_x s) (c_y s) (c_g s) A1 A2 A3 (c_best s) (c_best_x s)); auto. intros i w _ Hw. apply N. eapply nth_error_In; eauto.
  - intros F. destruct (cn_best_cases nc (c_x s) (c_y s) (c_g s) A1 A2 A3) as [[_ B]|(v & [i B] & _)]; auto.
    + rewrite A4 in B. now injection B.
    + destruct (F i B).
Qed.

(** C29 *)
Lemma cn_best_x_ok opt calls design s0 s es bx : cn_new func cons train nc design = Ok s0 ->
  session (run opt) calls s0 = (s, es) -> all_ok es -> no_nan (c_y s) -> c_best_x s = Some bx ->
  (forall r, In r bx <-> exists i w, nth_error (c_x s) i = Some r /\ nth_error (c_y s) i = Some w /\ feq w (c_best s) = true) /\
  (exists i r w, In r bx /\ feasible (c_g s) i /\ nth_error (c_x s) i = Some r /\ nth_error (c_y s) i = Some w /\ feq w (c_best s) = true).
Proof.
  intros H E A N B. destruct (cn_session_settled _ _ _ _ _ _ H E A) as (A1 & A2 & A3 & A4).
  rewrite B in A4. pose proof (cn_best_rows _ _ _ _ A1 A2 A3 _ _ A4) as X.
  assert (P : forall r, In r bx <-> exists i w, nth_error (c_x s) i = Some r /\ nth_error (c_y s) i = Some w /\ feq w (c_best s) = true).
  { intros r. rewrite X, in_map_iff. split.
    - intros (i & Hr & Hi). apply where_eq_iff in Hi as (w & Hw & F). exists i, w. repeat split; auto.
      rewrite <- Hr. apply nth_error_nth'. rewrite A1. apply nth_error_Some. congruence.
    - intros (i & w & Hr & Hw & F). exists i. split; [now apply nth_error_nth|]. apply where_eq_iff. eauto. }
  split; auto.
  destruct (cn_best_some _ _ _ _ A1 A2 A3 _ _ A4) as [k Hk].
  destruct (cn_best_ok _ _ _ _ _ _ H E A N) as [[[F _]|[_ (i & w & F & Hw & Q)]] _].
  - destruct (F k Hk).
  - assert (L : i < length (c_x s)) by (rewrite A1; apply nth_error_Some; congruence).
    exists i, (nth i (c_x s) []), w. pose proof (nth_error_nth' (c_x s) [] L) as Hr.
    repeat split; auto. apply P. eauto.
Qed.

(** history *)
Section Counts.
Variable n0 : nat.
Hypothesis Hq : one_point query.
Definition cn_recorded (s : cn_state) : Prop :=
  length (c_x s) = n0 + c_queries s /\ length (c_y s) = n0 + c_queries s /\ length (c_g s) = n0 + c_queries s /\
  length (c_hist s) = S (c_queries s) /\ length (c_hist_x s) = S (c_queries s) /\
  c_x s = concat (map fst (c_calls s)) /\ c_x s = concat (map fst (c_cons_calls s)) /\
  (exists ys, answers (c_calls s) ys /\ c_y s = concat ys) /\
  (exists gs, map snd (c_cons_calls s) = map Ok gs /\ c_g s = concat gs).
Definition cn_history (s : cn_state) : Prop := rows_ok nc (c_g s) /\ forall t, t <= c_queries s ->
  cn_best nc (firstn (n0 + t) (c_x s)) (firstn (n0 + t) (c_y s)) (firstn (n0 + t) (c_g s)) =
  (nth t (c_hist s) fnan, nth t (c_hist_x s) None).
Lemma firstn_app_l {A} k (a b : list A) : k <= length a -> firstn k (a ++ b) = firstn k a.
Proof. intros. rewrite firstn_app. replace (k - length a) with 0 by lia. simpl. now rewrite app_nil_r. Qed.
Lemma cn_step_recorded s s' : cn_recorded s /\ cn_history s -> step s = (s', None) -> cn_recorded s' /\ cn_history s'.
Proof.
  intros [(A1 & A2 & A3 & A4 & A5 & A6 & A7 & (ys & A8 & A9) & gs & A10 & A11) [R H]] E.
  destruct (cn_step_ok _ _ E) as (ux & y & g & Q & F & G & Ex & Ey & Eg & B & Eh & Ehx & Eq & Ec & Ecc).
  pose proof (Hq _ _ Q) as L1. pose proof (Hf _ _ _ F) as L2. destruct (Hc _ _ _ G) as [L3 R3].
  unfold mat, row in *.
  assert (LX : length (c_x s') = n0 + c_queries s') by (rewrite Ex, Eq, app_length; unfold mat, row in *; lia).
  assert (LY : length (c_y s') = n0 + c_queries s') by (rewrite Ey, Eq, app_length; lia).
  assert (LG : length (c_g s') = n0 + c_queries s') by (rewrite Eg, Eq, app_length; unfold mat, row in *; lia).
  split.
  - unfold cn_recorded. rewrite LX, LY, LG, Eh, Ehx, Eq, Ec, Ecc, !app_length, !map_app, !concat_app. simpl. rewrite !app_nil_r.
    repeat split; try lia.
    + rewrite Ex. f_equal. exact A6.
    + rewrite Ex. f_equal. exact A7.
    + exists (ys ++ [y]). split.
      * unfold answers in *. rewrite !map_app. f_equal. exact A8.
      * rewrite Ey, A9, concat_app. simpl. now rewrite app_nil_r.
    + exists (gs ++ [g]). split.
      * rewrite !map_app. f_equal. exact A10.
      * rewrite Eg, A11, concat_app. simpl. now rewrite app_nil_r.
  - split; [unfold rows_ok; rewrite Eg; apply Forall_app; auto|].
    intros t Ht. destruct (Nat.eq_dec t (c_queries s')) as [->|].
    + rewrite (firstn_all2 (c_x s')) by (unfold mat, row in *; lia).
      rewrite (firstn_all2 (c_y s')) by (unfold mat, row in *; lia).
      rewrite (firstn_all2 (c_g s')) by (unfold mat, row in *; lia). rewrite B.
      f_equal; symmetry; [rewrite Eh|rewrite Ehx].
      * replace (c_queries s') with (length (c_hist s)) by lia. apply nth_middle.
      * replace (c_queries s') with (length (c_hist_x s)) by (unfold mat, row in *; lia). apply nth_middle.
    + rewrite Ex, Ey, Eg, !firstn_app_l by (unfold mat, row in *; lia). rewrite H by (unfold mat, row in *; lia).
      rewrite Eh, Ehx, !app_nth1 by (unfold mat, row in *; lia). reflexivity.
Qed.
Lemma cn_session_recorded opt calls design s0 s es : n0 = length design -> cn_new func cons train nc design = Ok s0 ->
  session (run opt) calls s0 = (s, es) -> all_ok es -> cn_recorded s /\ cn_history s.
Proof.
  intros E0 H E A. replace s with (fst (session (run opt) calls s0)) by (now rewrite E).
  apply (session_inv_ok (run opt) (fun s => cn_recorded s /\ cn_history s)).
  - intros c s1 H1. apply (loop_inv_ok _ _ _ (fun s => cn_recorded s /\ cn_history s)); auto.
    intros s2 H2 N. destruct (step s2) eqn:D. simpl in *. subst. eapply cn_step_recorded; eauto.
  - destruct (cn_new_ok _ _ H) as (y & g & F & G & Ex & Ey & Eg & B & Eh & Ehx & Eq & Ec & Ecc).
    destruct (Hc _ _ _ G) as [L R]. pose proof (Hf _ _ _ F). split.
    + unfold cn_recorded. rewrite Ex, Ey, Eg, Eh, Ehx, Eq, Ec, Ecc. simpl. rewrite !app_nil_r.
      unfold mat, row in *. repeat split; try lia.
      * exists [y]. split; [reflexivity|]. simpl. now rewrite app_nil_r.
      * exists [g]. split; [reflexivity|]. simpl. now rewrite app_nil_r.
    + split; [now rewrite Eg|]. intros t Ht. assert (t = 0) by lia. subst t. rewrite Ex, Ey, Eg, Eh, Ehx.
      rewrite !firstn_all2 by (unfold mat, row in *; lia). exact B.
  - now rewrite E.
Qed.
Lemma cn_history_best s t : cn_recorded s -> cn_history s -> no_nan (c_y s) -> t <= c_queries s ->
  feasible_best (firstn (n0 + t) (c_y s)) (firstn (n0 + t) (c_g s)) (nth t (c_hist s) fnan).
Proof.
  intros (A1 & A2 & A3 & _) [R H] N Ht. specialize (H t Ht). unfold mat, row in *.
  eapply cn_best_feasible; [| | |exact H|].
  - rewrite !firstn_length. lia.
  - rewrite !firstn_length. unfold mat, row in *. lia.
  - apply Forall_forall. intros r Hr. unfold rows_ok in R. rewrite Forall_forall in R. apply R.
    rewrite <- (firstn_skipn (n0 + t) (c_g s)). apply in_or_app. auto.
  - intros i w _ Hw. apply N. rewrite <- (firstn_skipn (n0 + t) (c_y s)). apply in_or_app. left. eapply nth_error_In; eauto.
Qed.
Lemma cn_history_mono s : cn_recorded s -> cn_history s -> no_nan (c_y s) -> non_increasing (c_hist s).
Proof.
  intros R H N i j Hij. pose proof R as (A1 & A2 & A3 & A4 & _).
  pose proof (cn_history_best s i R H N ltac:(lia)) as Bi.
  pose proof (cn_history_best s j R H N ltac:(lia)) as Bj.
  assert (P : forall {A} (l : list A), firstn (n0 + j) l = firstn (n0 + i) l ++ skipn (n0 + i) (firstn (n0 + j) l)).
  { intros A l. rewrite <- (firstn_skipn (n0 + i) (firstn (n0 + j) l)) at 1. rewrite firstn_firstn.
    now replace (Nat.min (n0 + i) (n0 + j)) with (n0 + i) by lia. }
  rewrite (P _ (c_y s)), (P _ (c_g s)) in Bj. eapply feasible_best_mono; [|exact Bi|exact Bj].
  rewrite !firstn_length. unfold mat, row in *. lia.
Qed.
End Counts.
End Ok.

Lemma cn_unknown n stop s s' : run NoOptimum (n, stop) s = (s', None) ->
  (fle stop f1 = true -> c_queries s' = n + c_queries s) /\ (fle stop f1 = false -> s' = s).
Proof.
  intros H. unfold cn_run in H. simpl fst in H. simpl snd in H. split; intros E.
  - destruct (loop_iters _ _ _ _ _ _ H) as (m & Hm & I & F).
    assert (c_queries s' = m + c_queries s) as ->.
    { clear - I. induction I; auto. rewrite IHI. destruct (cn_step_ok _ _ H0) as (? & ? & ? & _ & _ & _ & _ & _ & _ & _ & _ & _ & -> & _). lia. }
    destruct F as [->|F]; auto. simpl in F. unfold fge in F. rewrite E in F. discriminate.
  - destruct n; simpl in H; [congruence|]. unfold fge in H. rewrite E in H. congruence.
Qed.
End CONS.
