(** Proofs about the PSO and DE models. *)
From Coq Require Import ZArith Reals Bool List Lia Lra.
From Flocq Require Import IEEE754.BinarySingleNaN.
From Verif Require Import Fl FlFacts NpList NpFacts Spec Samplers SamplersSpec SamplersFacts EA EASpec.
Import ListNotations.

Ltac mlia := unfold mat, row in *; lia.

(** ** Lists *)
Lemma imap_length {A B} (f : nat -> A -> B) l : length (imap f l) = length l.
Proof. unfold imap. rewrite map2_length, seq_length. lia. Qed.
Lemma imap_nth {A B} (f : nat -> A -> B) l i da db : i < length l -> nth i (imap f l) db = f i (nth i l da).
Proof.
  intros H. unfold imap. rewrite (map2_nth f _ _ i 0 da db) by (rewrite ?seq_length; auto).
  now rewrite seq_nth by auto.
Qed.
Lemma nth_error_nth_lt {A} (l : list A) i d : i < length l -> nth_error l i = Some (nth i l d).
Proof. intros. now apply nth_error_nth'. Qed.
Lemma nth_error_lt {A} (l : list A) i x : nth_error l i = Some x -> i < length l.
Proof. intros H. apply nth_error_Some. congruence. Qed.
Lemma nth_error_nth_eq {A} (l : list A) i x d : nth_error l i = Some x -> nth i l d = x.
Proof. apply nth_error_nth. Qed.
Lemma nth_repeat' {A} (x : A) n i d : i < n -> nth i (repeat x n) d = x.
Proof. revert i. induction n; destruct i; simpl; intros; try lia; auto. apply IHn; lia. Qed.
Lemma Forall_nth' {A} (P : A -> Prop) l i d : Forall P l -> i < length l -> P (nth i l d).
Proof. intros H L. rewrite Forall_forall in H. apply H. now apply nth_In. Qed.
Lemma Forall_imap {A B} (f : nat -> A -> B) (P : B -> Prop) l :
  (forall i a, nth_error l i = Some a -> P (f i a)) -> Forall P (imap f l).
Proof.
  intros H. apply Forall_forall. intros x Hx. destruct (In_nth _ _ x Hx) as (i & Hi & E).
  rewrite imap_length in Hi. destruct l as [|a0 l0]; [simpl in Hi; lia|].
  rewrite (imap_nth f _ i a0) in E by auto. subst. apply H. now apply nth_error_nth'.
Qed.
Lemma Forall2_nth {A B} (P : A -> B -> Prop) l m da db :
  length l = length m -> (forall i, i < length l -> P (nth i l da) (nth i m db)) -> Forall2 P l m.
Proof.
  revert m. induction l; destruct m; simpl; intros L H; try discriminate; constructor.
  - apply (H 0). lia.
  - apply IHl; auto. intros i Hi. apply (H (S i)). lia.
Qed.
Lemma Forall2_nth_inv {A B} (P : A -> B -> Prop) l m da db i : Forall2 P l m -> i < length l -> P (nth i l da) (nth i m db).
Proof. intros H. revert i. induction H; simpl; intros i Hi; [lia|]. destruct i; auto. apply IHForall2. lia. Qed.
Lemma Forall2_impl {A B} (P Q : A -> B -> Prop) l m : (forall a b, P a b -> Q a b) -> Forall2 P l m -> Forall2 Q l m.
Proof. intros H. induction 1; constructor; auto. Qed.
Lemma last_nth {A} (l : list A) n d : length l = S n -> last l d = nth n l d.
Proof.
  revert n. induction l as [|a l IH]; intros n H; [discriminate|]. injection H as H.
  destruct l as [|b l]; [simpl in H; subst; reflexivity|].
  destruct n; [discriminate|]. change (last (b :: l) d = nth n (b :: l) d). now apply IH.
Qed.

(** ** The loop *)
Section Loop.
Variable init : trace * result ea_state.
Variable step : nat -> trace -> ea_state -> trace * result ea_state.
Variable stop : option b64.
Variable N : nat.

Definition fired (g : nat) (s : ea_state) : bool :=
  match stop with None => false | Some t => flt (nth g (st_gb s) f0) t end.

(** [g] generations have been run and the run was not stopped before the last of them. *)
Inductive reach : nat -> trace -> ea_state -> Prop :=
| reach0 tr s : init = (tr, Ok s) -> reach 0 tr s
| reachS g tr s tr' s' : reach g tr s -> g < N -> (1 <= g -> fired g s = false) ->
    step g tr s = (tr', Ok s') -> reach (S g) tr' s'.

Definition last_of (g : nat) : option nat := match g with O => None | S k => Some k end.

Definition run : trace * result ea_out :=
  match init with
  | (tr, Raise e) => (tr, Raise e)
  | (tr, Ok s) => ea_loop step stop N 0 None tr s
  end.

Lemma loop_spec rem : forall g tr s trf res, reach g tr s -> (1 <= g -> fired g s = false) -> rem + g = N ->
  ea_loop step stop rem g (last_of g) tr s = (trf, res) ->
  (exists G s', reach G trf s' /\ G <= N /\ res = ea_finish s' (last_of G) /\ (G = N \/ 1 <= G /\ fired G s' = true)) \/
  (exists G tr0 s0 e, reach G tr0 s0 /\ G < N /\ (1 <= G -> fired G s0 = false) /\
      step G tr0 s0 = (trf, Raise e) /\ res = Raise e).
Proof.
  induction rem as [|rem IH]; intros g tr s trf res Hr Hf HN E; simpl in E.
  - injection E as <- <-. left. exists g, s. simpl in HN. repeat split; auto; lia.
  - destruct (step g tr s) as [tr' [s'|e]] eqn:Es.
    + assert (Hr' : reach (S g) tr' s') by (eapply reachS; eauto; lia).
      change (match stop with Some t => flt (nth (S g) (st_gb s') f0) t | None => false end) with (fired (S g) s') in E.
      destruct (fired (S g) s') eqn:F.
      * injection E as <- <-. left. exists (S g), s'. repeat split; auto; try lia. right. split; [lia|auto].
      * apply (IH (S g) tr' s'); auto. lia.
    + injection E as <- <-. right. exists g, tr, s, e. repeat split; auto. lia.
Qed.

Lemma run_spec trf res : run = (trf, res) ->
  (exists e, init = (trf, Raise e) /\ res = Raise e) \/
  (exists G s', reach G trf s' /\ G <= N /\ res = ea_finish s' (last_of G) /\ (G = N \/ 1 <= G /\ fired G s' = true)) \/
  (exists G tr0 s0 e, reach G tr0 s0 /\ G < N /\ (1 <= G -> fired G s0 = false) /\
      step G tr0 s0 = (trf, Raise e) /\ res = Raise e).
Proof.
  unfold run. destruct init as [tr [s|e]] eqn:Ei; intros E.
  - right. apply (loop_spec N 0 tr s); auto; try lia. apply reach0. exact Ei.
  - injection E as <- <-. left. eauto.
Qed.

(** A run that returns. *)
Lemma run_ok trf out : run = (trf, Ok out) ->
  exists G s, reach G trf s /\ 1 <= G <= N /\ (G = N \/ fired G s = true) /\
    out = {| o_best_x := last (st_gbx s) []; o_best_y := last (st_gb s) f0;
             o_best_x_hist := st_gbx s; o_best_y_hist := st_gb s;
             o_samples := st_samples s; o_responses := st_responses s;
             o_value := nth G (st_gb s) f0; o_location := nth G (st_gbx s) [];
             o_pop_best := st_pb s; o_pop_best_x := st_pbx s |}.
Proof.
  intros E. destruct (run_spec _ _ E) as [(e&_&[=])|[(G&s&Hr&HG&Hf&Hs)|(G&tr0&s0&e&_&_&_&_&[=])]].
  destruct G as [|G]; simpl in Hf; [discriminate|]. injection Hf as ->.
  exists (S G), s. split; [exact Hr|]. split; [lia|]. split; [tauto|]. reflexivity.
Qed.
End Loop.

(** ** Traces *)
Lemma called_app tr k x y t : called tr k x y -> called (tr ++ t) k x y.
Proof. unfold called. intros H. rewrite nth_error_app1; auto. eapply nth_error_lt; eauto. Qed.
Lemma called_app_inv tr k x y t : k < length tr -> called (tr ++ t) k x y -> called tr k x y.
Proof. unfold called. intros H. now rewrite nth_error_app1. Qed.
Lemma called_last tr x y : called (tr ++ [(x, Ok y)]) (length tr) x y.
Proof. unfold called. rewrite nth_error_app2, Nat.sub_diag by lia. reflexivity. Qed.
Lemma called_last_inv tr x y x' y' : called (tr ++ [(x, Ok y)]) (length tr) x' y' -> x' = x /\ y' = y.
Proof. unfold called. rewrite nth_error_app2, Nat.sub_diag by lia. simpl. intros [= <- <-]. auto. Qed.
Lemma called_lt tr k x y : called tr k x y -> k < length tr.
Proof. apply nth_error_lt. Qed.
Lemma called_fun tr k x y x' y' : called tr k x y -> called tr k x' y' -> x = x' /\ y = y'.
Proof. unfold called. intros -> [= <- <-]. auto. Qed.

Lemma observed_app tr k i p v t : observed tr k i p v -> observed (tr ++ t) k i p v.
Proof. intros (x & y & C & H). exists x, y. split; auto. now apply called_app. Qed.
Lemma observed_app_inv tr k i p v t : k < length tr -> observed (tr ++ t) k i p v -> observed tr k i p v.
Proof. intros L (x & y & C & H). exists x, y. split; auto. eapply called_app_inv; eauto. Qed.
Lemma observed_lt tr k i p v : observed tr k i p v -> k < length tr.
Proof. intros (x & y & C & _). eapply called_lt; eauto. Qed.

Lemma best_app tr t (K I : nat -> Prop) p v : (forall k, K k -> k < length tr) ->
  best_observed tr K I p v -> best_observed (tr ++ t) K I p v.
Proof.
  intros HK (A & k & i & w & Kk & Ii & O & E). split.
  - intros k' i' q w' Hk Hi Ho. apply (A k' i' q w' Hk Hi). eapply observed_app_inv; eauto.
  - exists k, i, w. repeat split; auto. now apply observed_app.
Qed.

Lemma evaluate_ok func n tr x tr' y : evaluate func n tr x = (tr', Ok y) ->
  tr' = tr ++ [(x, Ok y)] /\ length y = n /\ func (length tr) x = Ok y.
Proof.
  unfold evaluate. intros [= <- H]. destruct (func (length tr) x) as [l|e]; simpl in H; [|discriminate].
  destruct (Nat.eqb_spec (length l) n); [|discriminate]. injection H as ->. auto.
Qed.
Lemma evaluate_trace func n tr x : fst (evaluate func n tr x) = tr ++ [(x, func (length tr) x)].
Proof. reflexivity. Qed.

(** ** What one generation does to the histories *)
Lemma gen_optimum_spec g x obj gb gbx gb' gbx' :
  update_gen_optimum g x obj gb gbx = Ok (gb', gbx') ->
  exists m k, np_min obj = Ok m /\ np_argmin obj = Ok k /\ k < length obj /\ nth k obj f0 = m /\
    gb' = upd (S g) (if fge (nth g gb f0) m then m else nth g gb f0) gb /\
    gbx' = upd (S g) (if fge (nth g gb f0) m then nth k x [] else nth g gbx []) gbx.
Proof.
  unfold update_gen_optimum. destruct (np_min obj) as [m|] eqn:Em; cbn [bind]; [|discriminate].
  destruct (np_min_argmin _ _ Em) as (k & Ek & Hk & Hm). rewrite Ek. cbn [bind].
  intros H. exists m, k. destruct (fge (nth g gb f0) m); injection H as <- <-; repeat split; auto.
Qed.

(** The part of a generation that both algorithms share. *)
Definition common_step (pop g : nat) (tr : trace) (s : ea_state) (tr' : trace) (s' : ea_state) : Prop :=
  exists u y, tr' = tr ++ [(u, Ok y)] /\ length y = pop /\
    update_gen_optimum g (st_x s') (st_obj s') (st_gb s) (st_gbx s) = Ok (st_gb s', st_gbx s') /\
    st_samples s' = upd (S g) (st_x s') (st_samples s) /\
    st_responses s' = upd (S g) (st_obj s') (st_responses s).
Definition common_init (pop d N : nat) (x0 : mat) (tr : trace) (s : ea_state) : Prop :=
  exists y m k, tr = [(x0, Ok y)] /\ length y = pop /\ np_min y = Ok m /\ np_argmin y = Ok k /\
    st_x s = x0 /\ st_obj s = y /\
    st_gb s = upd 0 m (zeros (S N)) /\
    st_gbx s = upd 0 (nth k x0 []) (repeat (zeros d) (S N)) /\
    st_samples s = upd 0 x0 (repeat (repeat (zeros d) pop) (S N)) /\
    st_responses s = upd 0 y (repeat (zeros pop) (S N)).

Section Common.
Variable init : trace * result ea_state.
Variable step : nat -> trace -> ea_state -> trace * result ea_state.
Variable stop : option b64.
Variables N pop d : nat.
Variable x0 : mat.
Hypothesis Hinit : forall tr s, init = (tr, Ok s) -> common_init pop d N x0 tr s.
Hypothesis Hstep : forall g tr s tr' s', step g tr s = (tr', Ok s') -> common_step pop g tr s tr' s'.

Notation reach := (reach init step stop N).

(** sizes, and the rows that have not been written yet *)
Definition sizes (G : nat) (tr : trace) (s : ea_state) : Prop :=
  length tr = S G /\ G <= N /\
  length (st_gb s) = S N /\ length (st_gbx s) = S N /\ length (st_samples s) = S N /\ length (st_responses s) = S N /\
  (forall k, G < k <= N -> nth k (st_gb s) f0 = f0 /\ nth k (st_gbx s) [] = zeros d) /\
  (forall k, k <= G -> exists x y, called tr k x y /\ length y = pop) /\
  nth G (st_samples s) [] = st_x s /\ nth G (st_responses s) [] = st_obj s.

Lemma reach_sizes G tr s : reach G tr s -> sizes G tr s.
Proof.
  induction 1 as [tr s H|g tr s tr' s' Hr IH HN Hf Es].
  - destruct (Hinit _ _ H) as (y & m & k & -> & Ly & Em & Ek & Ex & Eo & Egb & Egx & Es & Er).
    unfold sizes. rewrite Egb, Egx, Es, Er, Ex, Eo. unfold zeros.
    rewrite !upd_length, !repeat_length. repeat split; auto; try lia.
    + rewrite nth_upd_other by lia. apply nth_repeat'. lia.
    + rewrite nth_upd_other by lia. apply nth_repeat'. lia.
    + intros k0 Hk0. replace k0 with 0 by lia. exists x0, y. split; auto. reflexivity.
  - destruct (Hstep _ _ _ _ _ Es) as (u & y & -> & Ly & Eg & Esm & Ers).
    apply gen_optimum_spec in Eg as (m & k & Em & Ek & Hk & Hm & E1 & E2).
    destruct IH as (L & HG & L1 & L2 & L3 & L4 & HZ & HC & HS & HR).
    unfold sizes. rewrite E1, E2, Esm, Ers, !upd_length. rewrite app_length. cbn [length]. repeat split; auto; try lia.
    + rewrite nth_upd_other by lia. apply HZ. lia.
    + rewrite nth_upd_other by lia. apply HZ. lia.
    + intros k0 Hk0. destruct (Nat.eq_dec k0 (S g)) as [->|].
      * exists u, y. split; auto. rewrite <- L. apply called_last.
      * destruct (HC k0 ltac:(lia)) as (x & y' & C & Ly'). exists x, y'. split; auto. now apply called_app.
    + rewrite nth_upd_same by lia. reflexivity.
    + rewrite nth_upd_same by lia. reflexivity.
Qed.

(** earlier entries of the histories never change *)
Lemma step_history g tr s tr' s' : reach g tr s -> g < N -> step g tr s = (tr', Ok s') ->
  forall k, k <= g ->
    nth k (st_gb s') f0 = nth k (st_gb s) f0 /\ nth k (st_gbx s') [] = nth k (st_gbx s) [] /\
    nth k (st_samples s') [] = nth k (st_samples s) [] /\ nth k (st_responses s') [] = nth k (st_responses s) [].
Proof.
  intros Hr HN Es k Hk. destruct (Hstep _ _ _ _ _ Es) as (u & y & -> & Ly & Eg & Esm & Ers).
  apply gen_optimum_spec in Eg as (m & k1 & Em & Ek & Hk1 & Hm & E1 & E2).
  rewrite E1, E2, Esm, Ers, !nth_upd_other by lia. auto.
Qed.

(** best-so-far recurrence *)
Lemma step_best g tr s tr' s' : reach g tr s -> g < N -> step g tr s = (tr', Ok s') ->
  exists m k, np_min (st_obj s') = Ok m /\ k < length (st_obj s') /\ nth k (st_obj s') f0 = m /\
    ((fge (nth g (st_gb s) f0) m = true /\ nth (S g) (st_gb s') f0 = m /\ nth (S g) (st_gbx s') [] = nth k (st_x s') []) \/
     (fge (nth g (st_gb s) f0) m = false /\ nth (S g) (st_gb s') f0 = nth g (st_gb s) f0 /\
      nth (S g) (st_gbx s') [] = nth g (st_gbx s) [])).
Proof.
  intros Hr HN Es. destruct (reach_sizes _ _ _ Hr) as (L & HG & L1 & L2 & _).
  destruct (Hstep _ _ _ _ _ Es) as (u & y & -> & Ly & Eg & Esm & Ers).
  apply gen_optimum_spec in Eg as (m & k & Em & Ek & Hk & Hm & E1 & E2).
  exists m, k. rewrite E1, E2, !nth_upd_same by lia. repeat split; auto.
  destruct (fge (nth g (st_gb s) f0) m); auto.
Qed.

Lemma init_best tr s : init = (tr, Ok s) -> exists y m k, tr = [(x0, Ok y)] /\ length y = pop /\
  st_x s = x0 /\ st_obj s = y /\ np_min y = Ok m /\ k < length y /\ nth k y f0 = m /\
  nth 0 (st_gb s) f0 = m /\ nth 0 (st_gbx s) [] = nth k x0 [].
Proof.
  intros H. destruct (Hinit _ _ H) as (y & m & k & -> & Ly & Em & Ek & Ex & Eo & Egb & Egx & Es & Er).
  exists y, m, k. destruct (np_min_argmin _ _ Em) as (k' & Ek' & Hk & Hm).
  assert (k' = k) by congruence. subst k'. rewrite Egb, Egx. simpl. auto 12.
Qed.

(** once NaN, always NaN; once not NaN, never NaN *)
Lemma nan_sticks G tr s : reach G tr s -> isnan (nth 0 (st_gb s) f0) = true ->
  forall k, k <= G -> isnan (nth k (st_gb s) f0) = true.
Proof.
  induction 1 as [tr s H|g tr s tr' s' Hr IH HN Hf Es]; intros H0 k Hk.
  - now replace k with 0 by lia.
  - pose proof (step_history _ _ _ _ _ Hr HN Es) as Hh.
    rewrite (proj1 (Hh 0 ltac:(lia))) in H0.
    destruct (Nat.eq_dec k (S g)) as [->|].
    + destruct (step_best _ _ _ _ _ Hr HN Es) as (m & k & _ & _ & _ & [(F & _)|(F & -> & _)]).
      * unfold fge in F. pose proof (fle_nnan_r _ _ F). rewrite (IH H0 g) in H by lia. discriminate.
      * apply IH; auto.
    + rewrite (proj1 (Hh k ltac:(lia))). apply IH; auto; lia.
Qed.

Lemma history_monotone G tr s : reach G tr s -> isnan (nth 0 (st_gb s) f0) = false ->
  (forall k, k <= G -> isnan (nth k (st_gb s) f0) = false) /\
  (forall k, k < G -> fle (nth (S k) (st_gb s) f0) (nth k (st_gb s) f0) = true).
Proof.
  induction 1 as [tr s H|g tr s tr' s' Hr IH HN Hf Es]; intros H0.
  - split; intros k Hk; [now replace k with 0 by lia|lia].
  - pose proof (step_history _ _ _ _ _ Hr HN Es) as Hh.
    rewrite (proj1 (Hh 0 ltac:(lia))) in H0. destruct (IH H0) as [A B].
    assert (C : fle (nth (S g) (st_gb s') f0) (nth g (st_gb s) f0) = true).
    { destruct (step_best _ _ _ _ _ Hr HN Es) as (m & k & _ & _ & _ & [(F & -> & _)|(F & -> & _)]).
      - exact F.
      - apply fle_refl. apply A. lia. }
    split; intros k Hk.
    + destruct (Nat.eq_dec k (S g)) as [->|]; [now apply fle_nnan_l in C|].
      rewrite (proj1 (Hh k ltac:(lia))). apply A. lia.
    + rewrite (proj1 (Hh k ltac:(lia))). destruct (Nat.eq_dec k g) as [->|]; [exact C|].
      rewrite (proj1 (Hh (S k) ltac:(lia))). apply B. lia.
Qed.

(** the run was not stopped before the last generation *)
Lemma not_stopped G tr s : reach G tr s -> forall k t, 1 <= k < G -> stop = Some t -> flt (nth k (st_gb s) f0) t = false.
Proof.
  induction 1 as [tr s H|g tr s tr' s' Hr IH HN Hf Es]; intros k t Hk Ht; [lia|].
  rewrite (proj1 (step_history _ _ _ _ _ Hr HN Es k ltac:(lia))).
  destruct (Nat.eq_dec k g) as [->|]; [|apply IH; auto; lia].
  specialize (Hf ltac:(lia)). unfold fired in Hf. rewrite Ht in Hf. exact Hf.
Qed.

(** from a per-individual invariant to the best-so-far history *)
Definition pop_ok (tr : trace) (G : nat) (s : ea_state) : Prop :=
  length (st_x s) = length (st_obj s) /\
  (forall i, i < length (st_obj s) -> isnan (nth i (st_obj s) f0) = false /\
     exists k w, k <= G /\ observed tr k i (nth i (st_x s) []) w /\ feq w (nth i (st_obj s) f0) = true) /\
  (forall i p w, observed tr G i p w -> isnan w = false -> exists v, In v (st_obj s) /\ fle v w = true).

Lemma best_history (P : trace -> Prop) :
  (forall tr c, tr <> [] -> P (tr ++ [c]) -> P tr) ->
  (forall G tr s, reach G tr s -> P tr -> pop_ok tr G s) ->
  forall G tr s, reach G tr s -> P tr -> forall g, g <= G ->
    best_observed tr (fun k => k <= g) (fun _ => True) (nth g (st_gbx s) []) (nth g (st_gb s) f0).
Proof.
  intros HP Hpop. induction 1 as [tr s H|g tr s tr' s' Hr IH HN Hf Es]; intros Ptr g0 Hg0.
  - replace g0 with 0 by lia. pose proof (reach0 init step stop N _ _ H) as Hr.
    destruct (Hpop _ _ _ Hr Ptr) as (Lx & A & B). destruct (init_best _ _ H) as (y & m & k & E & Ly & Ex & Eo & Em & Hk & Hm & -> & ->).
    rewrite Eo, Ex in *. destruct (np_min_spec _ _ Em) as [Hin Hle].
    assert (Nm : isnan m = false) by (rewrite <- Hm; apply A; auto).
    split.
    + intros k0 i q w Hk0 _ Ho Nw. replace k0 with 0 in Ho by lia. destruct (B i q w Ho Nw) as (v & Hv & Hvw).
      eapply fle_trans; [apply Hle; eauto|exact Hvw].
    + destruct (proj2 (A k Hk)) as (k0 & w0 & Hk0 & Ho & Fe). exists k0, k, w0. repeat split; auto. now rewrite <- Hm.
  - pose proof (step_history _ _ _ _ _ Hr HN Es) as Hh.
    destruct (reach_sizes _ _ _ Hr) as (L & HG & _).
    assert (Hr' : reach (S g) tr' s') by (eapply reachS; eauto).
    destruct (Hpop _ _ _ Hr' Ptr) as (Lx & A & B).
    destruct (Hstep _ _ _ _ _ Es) as (u & y & Etr & _).
    assert (Ptr0 : P tr) by (subst tr'; eapply HP; [|exact Ptr]; intros ->; discriminate).
    specialize (IH Ptr0).
    destruct (Nat.eq_dec g0 (S g)) as [->|].
    + destruct (step_best _ _ _ _ _ Hr HN Es) as (m & k & Em & Hk & Hm & D).
      destruct (np_min_spec _ _ Em) as [Hin Hle].
      assert (Nm : isnan m = false) by (rewrite <- Hm; apply A; auto).
      specialize (IH g (le_n g)).
      apply (best_app tr [(u, Ok y)] (fun k => k <= g) (fun _ => True)) in IH; [|intros; lia].
      rename IH into IH'. rewrite <- Etr in IH'. destruct IH' as (IA & k1 & i1 & w1 & Hk1 & _ & Ho1 & E1).
      assert (Ng : isnan (nth g (st_gb s) f0) = false) by (apply feq_iff in E1 as [_ E1]; now apply fle_nnan_l in E1).
      destruct D as [(F & -> & ->)|(F & -> & ->)].
      * split.
        -- intros k0 i q w Hk0 _ Ho Nw. destruct (Nat.eq_dec k0 (S g)) as [->|].
           ++ destruct (B i q w Ho Nw) as (v & Hv & Hvw). eapply fle_trans; [apply Hle; eauto|exact Hvw].
           ++ eapply fle_trans; [exact F|]. apply (IA k0 i q); auto. lia.
        -- destruct (proj2 (A k Hk)) as (k0 & w0 & Hk0 & Ho & Fe). exists k0, k, w0. repeat split; auto. now rewrite <- Hm.
      * unfold fge in F. assert (F' := fle_false _ _ Nm Ng F). split.
        -- intros k0 i q w Hk0 _ Ho Nw. destruct (Nat.eq_dec k0 (S g)) as [->|].
           ++ destruct (B i q w Ho Nw) as (v & Hv & Hvw).
              eapply fle_trans; [apply flt_fle; exact F'|]. eapply fle_trans; [apply Hle; eauto|exact Hvw].
           ++ apply (IA k0 i q); auto. lia.
        -- exists k1, i1, w1. repeat split; auto.
    + destruct (Hh g0 ltac:(lia)) as (-> & -> & _). rewrite Etr. apply best_app; [intros; lia|]. apply IH. lia.
Qed.
End Common.

Section CommonQ.
Variable init : trace * result ea_state.
Variable step : nat -> trace -> ea_state -> trace * result ea_state.
Variable stop : option b64.
Variables N pop d : nat.
Variable x0 : mat.
Hypothesis Hinit : forall tr s, init = (tr, Ok s) -> common_init pop d N x0 tr s.
Hypothesis Hstep : forall g tr s tr' s', step g tr s = (tr', Ok s') -> common_step pop g tr s tr' s'.
Notation reach := (reach init step stop N).
(** a property of all individuals carries over to everything recorded *)
Variable Q : row -> Prop.
Hypothesis HQ : forall G tr s, reach G tr s -> length (st_x s) = length (st_obj s) /\ Forall Q (st_x s).
Lemma recorded_Q G tr s : reach G tr s -> forall k, k <= G ->
  Forall Q (nth k (st_samples s) []) /\ Q (nth k (st_gbx s) []).
Proof.
  induction 1 as [tr s H|g tr s tr' s' Hr IH HN Hf Es]; intros k Hk.
  - replace k with 0 by lia. pose proof (reach0 init step stop N _ _ H) as Hr. destruct (HQ _ _ _ Hr) as [L F].
    destruct (reach_sizes init step stop N pop d x0 Hinit Hstep _ _ _ Hr) as (_&_&_&_&_&_&_&_&HS&_).
    destruct (init_best init N pop d x0 Hinit _ _ H) as (y & m & k1 & E & Ly & Ex & Eo & Em & Hk1 & Hm & _ & ->).
    rewrite HS. split; auto. rewrite <- Ex. apply Forall_nth'; auto. rewrite L, Eo. auto.
  - assert (Hr' : reach (S g) tr' s') by (eapply reachS; eauto). destruct (HQ _ _ _ Hr') as [L F].
    destruct (Nat.eq_dec k (S g)) as [->|].
    + destruct (reach_sizes init step stop N pop d x0 Hinit Hstep _ _ _ Hr') as (_&_&_&_&_&_&_&_&HS&_).
      rewrite HS. split; auto.
      destruct (step_best init step stop N pop d x0 Hinit Hstep _ _ _ _ _ Hr HN Es) as (m & k & Em & Hk1 & Hm & D).
      destruct D as [(_&_&->)|(_&_&->)].
      * apply Forall_nth'; auto. now rewrite L.
      * apply IH. lia.
    + destruct (step_history init step stop N pop Hstep _ _ _ _ _ Hr HN Es k ltac:(lia)) as (_ & -> & -> & _).
      apply IH. lia.
Qed.
End CommonQ.

(** ** Bounds repair *)
Definition shaped (n d : nat) (m : mat) : Prop := length m = n /\ Forall (fun r => length r = d) m.
Lemma shaped_nth n d m i : shaped n d m -> i < n -> length (nth i m []) = d.
Proof. intros [L F] H. rewrite Forall_forall in F. apply F. apply nth_In. lia. Qed.
Lemma draw_shaped n d m : draw_array n d m -> shaped n d m.
Proof. intros [L F]. split; auto. eapply Forall_impl; [|exact F]. now intros r [H _]. Qed.

Lemma in_bounds_not_outside lh x : in_bounds lh x -> not_outside lh x.
Proof. destruct lh as [lo hi]. intros [A B]. split; now apply fle_not_flt. Qed.

Lemma location_init_length b u : length (location_init b u) = length u.
Proof. apply map_length. Qed.
Lemma location_init_in b n u : box_ok b -> draw_array n (length b) u ->
  length (location_init b u) = n /\ Forall (in_box b) (location_init b u).
Proof.
  intros Hb [L F]. rewrite location_init_length. split; auto. unfold location_init. apply Forall_map.
  eapply Forall_impl; [|exact F]. intros r Hr. eapply (scale_row_gen unit_open bounds_ok); eauto. intros; rewrite scale_mul_lb; [now apply scale_lb64_open|auto|now apply unit_open_closed].
Qed.
Lemma Forall2_len {A B} (P : A -> B -> Prop) l m : Forall2 P l m -> length l = length m.
Proof. induction 1; simpl; auto. Qed.
Lemma in_box_shaped b n m : length m = n -> Forall (in_box b) m -> shaped n (length b) m.
Proof. intros L F. split; auto. eapply Forall_impl; [|exact F]. intros r H. symmetry. eapply Forall2_len; eauto. Qed.

Lemma location_at b n u i j : box_ok b -> draw_array n (length b) u -> i < n -> j < length b ->
  in_bounds (nth j b (f0, f0)) (at2 (location_init b u) i j).
Proof.
  intros Hb Hu Hi Hj. destruct (location_init_in b n u Hb Hu) as [L F]. unfold at2.
  assert (H : in_box b (nth i (location_init b u) [])) by (apply Forall_nth'; auto; lia).
  now apply (Forall2_nth_inv in_bounds b).
Qed.

Lemma loc_cons_shaped b u n d x : shaped n d x -> shaped n d (loc_cons b u x).
Proof.
  intros [L F]. unfold loc_cons. split; [now rewrite imap_length|].
  apply Forall_imap. intros i r Hr. rewrite imap_length. rewrite Forall_forall in F. apply F. eapply nth_error_In; eauto.
Qed.
Lemma loc_cons_at b u n x i j : shaped n (length b) x -> i < n -> j < length b ->
  at2 (loc_cons b u x) i j = loc_fix (nth j b (f0, f0)) (at2 x i j) (at2 (location_init b (u j)) i j).
Proof.
  intros [L F] Hi Hj. unfold at2, loc_cons. rewrite (imap_nth _ x i []) by lia.
  rewrite (imap_nth _ _ j f0); auto. rewrite (shaped_nth n (length b)); auto. now split.
Qed.
Lemma at2_forall n b (P : b64 * b64 -> b64 -> Prop) m : shaped n (length b) m ->
  (forall i j, i < n -> j < length b -> P (nth j b (f0, f0)) (at2 m i j)) -> Forall (Forall2 P b) m.
Proof.
  intros [L F] H. apply Forall_forall. intros r Hr. destruct (In_nth _ _ [] Hr) as (i & Hi & E).
  assert (Lr : length r = length b) by (rewrite Forall_forall in F; auto).
  apply (Forall2_nth P b r (f0, f0) f0); [lia|]. intros j Hj. rewrite <- E. apply H; auto; unfold mat, row in *; rewrite <- L; auto.
Qed.

Lemma loc_fix_not_outside lh x r : in_bounds lh r -> not_outside lh (loc_fix lh x r).
Proof.
  intros H. unfold loc_fix. destruct (flt x (fst lh)) eqn:E1; simpl; [now apply in_bounds_not_outside|].
  destruct (flt (snd lh) x) eqn:E2; [now apply in_bounds_not_outside|]. destruct lh. now split.
Qed.
Lemma loc_fix_in lh x r : bounds_ok lh -> in_bounds lh r -> isnan x = false -> in_bounds lh (loc_fix lh x r).
Proof.
  intros Hb H Nx. unfold loc_fix. destruct (flt x (fst lh)) eqn:E1; simpl; [assumption|].
  destruct (flt (snd lh) x) eqn:E2; [assumption|]. destruct lh as [lo hi]. destruct Hb as (A & B & _). simpl in *.
  split; apply flt_false; auto using isfin_not_nan.
Qed.

Lemma loc_cons_not_outside b u n x : box_ok b -> (forall j, draw_array n (length b) (u j)) ->
  shaped n (length b) x -> Forall (not_outside_box b) (loc_cons b u x).
Proof.
  intros Hb Hu Hx. apply (at2_forall n b not_outside); [now apply loc_cons_shaped|].
  intros i j Hi Hj. rewrite (loc_cons_at b u n) by auto. apply loc_fix_not_outside. now apply (location_at b n).
Qed.
Lemma loc_cons_in b u n x : box_ok b -> (forall j, draw_array n (length b) (u j)) ->
  shaped n (length b) x -> (forall i j, i < n -> j < length b -> isnan (at2 x i j) = false) ->
  Forall (in_box b) (loc_cons b u x).
Proof.
  intros Hb Hu Hx Nx. apply (at2_forall n b in_bounds); [now apply loc_cons_shaped|].
  intros i j Hi Hj. rewrite (loc_cons_at b u n) by auto. apply loc_fix_in; auto.
  - apply Forall_nth'; auto.
  - now apply (location_at b n).
Qed.
Lemma map2_shaped (f : b64 -> b64 -> b64) n d x y : shaped n d x -> shaped n d y -> shaped n d (map2 (map2 f) x y).
Proof.
  intros [Lx Fx] [Ly Fy]. split; [rewrite map2_length; mlia|]. clear Lx Ly n.
  revert y Fy. induction Fx as [|r x Hr Fx IH]; intros y Fy; simpl; [constructor|].
  destruct y as [|r' y]; [constructor|]. inversion Fy; subst. constructor; [|now apply IH].
  rewrite map2_length. unfold row in *. lia.
Qed.
Lemma map2_at (f : b64 -> b64 -> b64) n d x y i j : shaped n d x -> shaped n d y -> i < n -> j < d ->
  at2 (map2 (map2 f) x y) i j = f (at2 x i j) (at2 y i j).
Proof.
  intros Hx Hy Hi Hj. pose proof (shaped_nth _ _ _ i Hx Hi). pose proof (shaped_nth _ _ _ i Hy Hi).
  destruct Hx as [Lx Fx], Hy as [Ly Fy]. unfold at2.
  rewrite (map2_nth _ x y i [] []) by mlia. now rewrite (map2_nth _ _ _ j f0 f0) by mlia.
Qed.
Lemma imap2_shaped (f : nat -> nat -> b64 -> b64) n d x : shaped n d x ->
  shaped n d (imap (fun i r => imap (fun j v => f i j v) r) x).
Proof.
  intros [L F]. split; [now rewrite imap_length|]. apply Forall_imap. intros i r Hr. rewrite imap_length.
  rewrite Forall_forall in F. apply F. eapply nth_error_In; eauto.
Qed.
Lemma imap2_at (f : nat -> nat -> b64 -> b64) n d x i j : shaped n d x -> i < n -> j < d ->
  at2 (imap (fun i r => imap (fun j v => f i j v) r) x) i j = f i j (at2 x i j).
Proof.
  intros Hx Hi Hj. pose proof (shaped_nth _ _ _ i Hx Hi). destruct Hx as [L F]. unfold at2.
  rewrite (imap_nth _ x i []) by mlia. now rewrite (imap_nth _ _ j f0) by mlia.
Qed.

(** ** Outputs *)
Section Outputs.
Variable init : trace * result ea_state.
Variable step : nat -> trace -> ea_state -> trace * result ea_state.
Variable stop : option b64.
Variables N pop d : nat.
Variable x0 : mat.
Hypothesis Hinit : forall tr s, init = (tr, Ok s) -> common_init pop d N x0 tr s.
Hypothesis Hstep : forall g tr s tr' s', step g tr s = (tr', Ok s') -> common_step pop g tr s tr' s'.
Notation reach := (reach init step stop N).
Notation run := (run init step stop N).

Theorem outputs tr out : run = (tr, Ok out) ->
  length (o_best_y_hist out) = S N /\ length (o_best_x_hist out) = S N /\
  2 <= length tr <= S N /\
  o_value out = entry (length tr - 1) (o_best_y_hist out) /\
  o_location out = nth (length tr - 1) (o_best_x_hist out) [] /\
  (length tr < S N -> o_best_y out = f0 /\ o_best_x out = zeros d) /\
  (length tr = S N -> o_best_y out = o_value out /\ o_best_x out = o_location out).
Proof.
  intros E. destruct (run_ok _ _ _ _ _ _ E) as (G & s & Hr & HG & _ & ->). simpl.
  destruct (reach_sizes init step stop N pop d x0 Hinit Hstep _ _ _ Hr) as (L & HGN & L1 & L2 & _ & _ & Z & _).
  rewrite L. replace (S G - 1) with G by lia. unfold entry. rewrite (nth_indep _ fnan f0) by lia.
  rewrite (last_nth (st_gb s) N) by auto. rewrite (last_nth (st_gbx s) N) by auto.
  repeat split; auto; try lia.
  - now apply Z; lia.
  - now apply Z; lia.
  - f_equal. lia.
  - f_equal. lia.
Qed.

Theorem stopping tr out : run = (tr, Ok out) ->
  (forall g t, stop = Some t -> 1 <= g -> S g < length tr -> flt (entry g (o_best_y_hist out)) t = false) /\
  (length tr = S N \/ exists t, stop = Some t /\ flt (entry (length tr - 1) (o_best_y_hist out)) t = true).
Proof.
  intros E. destruct (run_ok _ _ _ _ _ _ E) as (G & s & Hr & HG & Hf & ->). simpl.
  destruct (reach_sizes init step stop N pop d x0 Hinit Hstep _ _ _ Hr) as (L & HGN & L1 & L2 & _).
  unfold entry. split.
  - intros g t Ht Hg HgG. rewrite (nth_indep _ fnan f0) by lia.
    eapply (not_stopped init step stop N pop Hstep); eauto. lia.
  - destruct Hf as [->|Hf]; [left; lia|right]. unfold fired in Hf. destruct stop as [t|]; [|discriminate].
    exists t. split; auto. replace (length tr - 1) with G by lia. rewrite (nth_indep _ fnan f0) by lia. exact Hf.
Qed.

Theorem monotone tr out : run = (tr, Ok out) -> nan_free_call tr 0 -> length x0 = pop ->
  (forall g, g < length tr -> isnan (entry g (o_best_y_hist out)) = false) /\
  forall g, S g < length tr -> fle (entry (S g) (o_best_y_hist out)) (entry g (o_best_y_hist out)) = true.
Proof.
  intros E Hn Lx. destruct (run_ok _ _ _ _ _ _ E) as (G & s & Hr & HG & Hf & ->). simpl.
  destruct (reach_sizes init step stop N pop d x0 Hinit Hstep _ _ _ Hr) as (L & HGN & L1 & L2 & _).
  assert (H0 : isnan (nth 0 (st_gb s) f0) = false).
  { assert (X : forall G tr s, reach G tr s -> nan_free_call tr 0 -> isnan (nth 0 (st_gb s) f0) = false); [|eapply X; eauto].
    clear -Lx Hinit Hstep. induction 1 as [tr s H|g tr s tr' s' Hr IH HN Hf Es]; intros Hn.
    - destruct (init_best init N pop d x0 Hinit _ _ H) as (y & m & k1 & -> & Ly & Ex & Eo & Em & Hk & Hm & -> & _).
      rewrite <- Hm. eapply (Hn k1 (nth k1 x0 [])). exists x0, y. split; [reflexivity|].
      split; apply nth_error_nth'; auto. now rewrite Lx, <- Ly.
    - rewrite (proj1 (step_history init step stop N pop Hstep _ _ _ _ _ Hr HN Es 0 ltac:(lia))). apply IH.
      destruct (Hstep _ _ _ _ _ Es) as (u & y & -> & _). intros i p v O. eapply Hn. apply observed_app. exact O. }
  destruct (history_monotone init step stop N pop d x0 Hinit Hstep _ _ _ Hr H0) as [A B]. unfold entry.
  split; intros g Hg; rewrite ?(nth_indep _ fnan f0) by lia; [apply A|apply B]; lia.
Qed.

Theorem poisoned tr out : run = (tr, Ok out) -> (exists i p v, observed tr 0 i p v /\ isnan v = true) ->
  (forall g, g < length tr -> isnan (entry g (o_best_y_hist out)) = true) /\ isnan (o_value out) = true /\ length tr = S N.
Proof.
  intros E (i & p & v & Ho & Nv). destruct (stopping _ _ E) as [_ Hstop]. destruct (outputs _ _ E) as (_ & _ & HL & Ev & _).
  assert (A : forall g, g < length tr -> isnan (entry g (o_best_y_hist out)) = true).
  { destruct (run_ok _ _ _ _ _ _ E) as (G & s & Hr & HG & Hf & ->). simpl.
    destruct (reach_sizes init step stop N pop d x0 Hinit Hstep _ _ _ Hr) as (L & HGN & L1 & L2 & _).
    assert (H0 : isnan (nth 0 (st_gb s) f0) = true).
    { assert (X : forall G tr s, reach G tr s -> observed tr 0 i p v -> isnan (nth 0 (st_gb s) f0) = true); [|eapply X; eauto].
      clear -Nv Hinit Hstep. induction 1 as [tr s H|g tr s tr' s' Hr IH HN Hf Es]; intros Ho.
      - destruct (init_best init N pop d x0 Hinit _ _ H) as (y & m & k1 & -> & Ly & Ex & Eo & Em & Hk & Hm & -> & _).
        eapply np_min_nan; [exact Em|]. exists v. split; auto. destruct Ho as (x & y' & C & _ & Hv).
        injection C as <- <-. eapply nth_error_In; eauto.
      - rewrite (proj1 (step_history init step stop N pop Hstep _ _ _ _ _ Hr HN Es 0 ltac:(lia))). apply IH.
        destruct (Hstep _ _ _ _ _ Es) as (u & y & -> & _). eapply observed_app_inv; [|exact Ho].
        destruct (reach_sizes init step stop N pop d x0 Hinit Hstep _ _ _ Hr) as (L & _). lia. }
    intros g Hg. unfold entry. rewrite ?(nth_indep _ fnan f0) by lia.
    eapply (nan_sticks init step stop N pop d x0 Hinit Hstep); eauto. lia. }
  split; auto. split.
  - rewrite Ev. apply A. lia.
  - destruct Hstop as [|(t & _ & F)]; auto. apply flt_nnan_l in F. rewrite A in F by lia. discriminate.
Qed.
End Outputs.

(** ** The trace is what the objective was asked and answered *)
Section Honest.
Variable init : trace * result ea_state.
Variable step : nat -> trace -> ea_state -> trace * result ea_state.
Variable stop : option b64.
Variable N : nat.
Variable func : objective.
Hypothesis Hi : exists x, fst init = [(x, func 0 x)].
Hypothesis Hs : forall g tr s, fst (step g tr s) = tr \/ exists x, fst (step g tr s) = tr ++ [(x, func (length tr) x)].
Definition honest (tr : trace) : Prop := forall k x y, nth_error tr k = Some (x, y) -> y = func k x.
Lemma honest_app tr x : honest tr -> honest (tr ++ [(x, func (length tr) x)]).
Proof.
  intros H k x' y' E. destruct (Nat.lt_ge_cases k (length tr)) as [L|L].
  - rewrite nth_error_app1 in E by auto. now apply H.
  - assert (k = length tr). { apply nth_error_lt in E. rewrite app_length in E. simpl in E. lia. }
    subst k. rewrite nth_error_app2, Nat.sub_diag in E by lia. now injection E as <- <-.
Qed.
Lemma honest_step g tr s : honest tr -> honest (fst (step g tr s)).
Proof. intros H. destruct (Hs g tr s) as [->|[x ->]]; auto. now apply honest_app. Qed.
Lemma honest_init : honest (fst init).
Proof. destruct Hi as [x ->]. apply (honest_app [] x). intros [|k] ? ?; discriminate. Qed.
Lemma honest_run : honest (fst (run init step stop N)) /\ 1 <= length (fst (run init step stop N)) <= S N.
Proof.
  assert (R : forall G tr s, reach init step stop N G tr s -> honest tr /\ 1 <= length tr <= S G).
  { induction 1 as [tr s H|g tr s tr' s' Hr IH HN Hf Es].
    - pose proof honest_init as A. rewrite H in A. split; auto. destruct Hi as [x E]. rewrite H in E. simpl in E. subst. simpl. lia.
    - destruct IH as [IH IL]. pose proof (honest_step g tr s IH) as A. rewrite Es in A. split; auto.
      destruct (Hs g tr s) as [E|[x E]]; rewrite Es in E; simpl in E; subst; [lia|]. rewrite app_length. simpl. lia. }
  destruct (run init step stop N) as [trf res] eqn:E. simpl.
  destruct (run_spec _ _ _ _ _ _ E) as [(e & Ei & _)|[(G&s&Hr&HG&_)|(G&tr0&s0&e&Hr&HN&_&Es&_)]].
  - pose proof honest_init as A. rewrite Ei in A. split; auto. destruct Hi as [x E']. rewrite Ei in E'. simpl in E'. subst. simpl. lia.
  - destruct (R _ _ _ Hr). split; auto. lia.
  - destruct (R _ _ _ Hr) as [A B]. pose proof (honest_step G tr0 s0 A) as C. rewrite Es in C. split; auto.
    destruct (Hs G tr0 s0) as [E'|[x E']]; rewrite Es in E'; simpl in E'; subst; [lia|]. rewrite app_length. simpl. lia.
Qed.

(** the run returns if every generation works *)
Hypothesis Hi_ok : exists s, snd init = Ok s.
Variable Inv : nat -> trace -> ea_state -> Prop.
Hypothesis Inv0 : forall tr s, init = (tr, Ok s) -> Inv 0 tr s.
Hypothesis InvS : forall g tr s, Inv g tr s -> g < N -> exists tr' s', step g tr s = (tr', Ok s') /\ Inv (S g) tr' s'.
Lemma run_total : 1 <= N -> exists tr out, run init step stop N = (tr, Ok out).
Proof.
  intros HN. destruct (run init step stop N) as [trf res] eqn:E.
  assert (R : forall G tr s, reach init step stop N G tr s -> Inv G tr s).
  { induction 1 as [tr s H|g tr s tr' s' Hr IH Hg Hf Es]; auto.
    destruct (InvS _ _ _ IH Hg) as (tr1 & s1 & E1 & I1). rewrite Es in E1. now injection E1 as <- <-. }
  destruct (run_spec _ _ _ _ _ _ E) as [(e & Ei & _)|[(G&s&Hr&HG&->&D)|(G&tr0&s0&e&Hr&HG&_&Es&_)]].
  - destruct Hi_ok as [s Es]. rewrite Ei in Es. discriminate.
  - destruct G; [lia|]. simpl. eauto.
  - destruct (InvS _ _ _ (R _ _ _ Hr) HG) as (tr1 & s1 & E1 & _). congruence.
Qed.
End Honest.

(** a computable check of [draw_array] *)
Lemma draw_array_b n d m :
  Nat.eqb (length m) n && forallb (fun r => Nat.eqb (length r) d && forallb (fun u => isfin u && fle f0 u && flt u f1) r) m = true ->
  draw_array n d m.
Proof.
  intros H. apply andb_prop in H as [L F]. split; [now apply Nat.eqb_eq|].
  apply Forall_forall. intros r Hr. rewrite forallb_forall in F. specialize (F r Hr). apply andb_prop in F as [Lr Fr].
  split; [now apply Nat.eqb_eq|]. apply Forall_forall. intros u Hu. rewrite forallb_forall in Fr. apply unit_open_b. auto.
Qed.
