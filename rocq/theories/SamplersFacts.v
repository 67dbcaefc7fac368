(** Proofs about the samplers. *)
From Coq Require Import ZArith NArith Reals Bool List Lia Lra.
From Flocq Require Import IEEE754.BinarySingleNaN.
From Verif Require Import Fl FlFacts NpList NpFacts Spec Samplers SamplersSpec.
Import ListNotations.

Lemma scale_lb64_lower lh u : bounds_ok lh -> unit_closed u -> fle (fst lh) (scale_lb64 (fst lh) (snd lh) u) = true.
Proof. destruct lh as [lo hi]. intros (A&B&C&D) (E&F). now apply scale_lower. Qed.

Lemma scale_lb64_closed lh u : bounds_ok lh -> bounds_tight lh -> unit_closed u ->
  in_bounds lh (scale_lb64 (fst lh) (snd lh) u).
Proof.
  intros H T U. pose proof (scale_lb64_lower lh u H U). destruct lh as [lo hi]. destruct H as (A&B&C&D), U as (E&F).
  split; auto. now apply scale_upper_closed.
Qed.

Lemma unit_open_closed u : unit_open u -> unit_closed u.
Proof. intros (A&B). split; auto. lra. Qed.

Lemma scale_lb64_open lh u : bounds_ok lh -> unit_open u -> in_bounds lh (scale_lb64 (fst lh) (snd lh) u).
Proof.
  intros H U. pose proof (scale_lb64_lower lh u H (unit_open_closed _ U)). destruct lh as [lo hi].
  destruct H as (A&B&C&D), U as (E&F).
  split; auto. now apply scale_upper_open.
Qed.

(** The two spellings of the scaling formula agree. *)
Lemma scale_mul_lb lh u : bounds_ok lh -> unit_closed u ->
  scale_mul64 (fst lh) (snd lh) u = scale_lb64 (fst lh) (snd lh) u.
Proof.
  destruct lh as [lo hi]. intros (A&B&C&D) (E&F).
  unfold scale_mul64, scale_lb64, scale_mul, scale_lb; simpl.
  apply fadd_comm_fin; auto.
  apply unit_mul; auto. now apply width_nonneg.
Qed.


Lemma scale_row_gen (P : b64 -> Prop) (Q : b64 * b64 -> Prop) f b r :
  (forall lh u, Q lh -> P u -> in_bounds lh (f (fst lh) (snd lh) u)) ->
  Forall Q b -> unit_row P (length b) r -> in_box b (scale_row f b r).
Proof.
  intros H Hb (L & Hr). unfold in_box, scale_row. revert r L Hr.
  induction Hb as [|lh b Hlh Hb IH]; intros [|u r] L Hr; simpl in *; try discriminate; constructor.
  - inversion Hr; auto.
  - apply IH; auto. inversion Hr; auto.
Qed.

Lemma scale_row_length {T} (f : T -> T -> T -> T) b r : length r = length b -> length (scale_row f b r) = length b.
Proof. intros H. unfold scale_row. rewrite map2_length. lia. Qed.

Lemma scale_rows_gen (P : b64 -> Prop) (Q : b64 * b64 -> Prop) f b m :
  (forall lh u, Q lh -> P u -> in_bounds lh (f (fst lh) (snd lh) u)) ->
  Forall Q b -> Forall (unit_row P (length b)) m -> Forall (in_box b) (map (scale_row f b) m).
Proof.
  intros H Hb Hm. apply Forall_map. eapply Forall_impl; [|exact Hm]. intros r Hr. eapply scale_row_gen; eauto.
Qed.

Lemma box_ok_tight b : box_ok b -> box_tight b -> Forall (fun lh => bounds_ok lh /\ bounds_tight lh) b.
Proof. unfold box_ok, box_tight. rewrite !Forall_forall. auto. Qed.

Lemma mul_open lh u : bounds_ok lh -> unit_open u -> in_bounds lh (scale_mul64 (fst lh) (snd lh) u).
Proof. intros. rewrite scale_mul_lb; auto using unit_open_closed, scale_lb64_open. Qed.
Lemma mul_closed lh u : bounds_ok lh /\ bounds_tight lh -> unit_closed u -> in_bounds lh (scale_mul64 (fst lh) (snd lh) u).
Proof. intros []; intros. rewrite scale_mul_lb; auto using scale_lb64_closed. Qed.
Lemma lb_closed lh u : bounds_ok lh /\ bounds_tight lh -> unit_closed u -> in_bounds lh (scale_lb64 (fst lh) (snd lh) u).
Proof. intros []; intros. auto using scale_lb64_closed. Qed.


Lemma lhs_in_box eng b n seed : lhs_ok eng -> box_ok b -> box_tight b ->
  length (lhs_get_samples eng b n seed) = n /\ Forall (in_box b) (lhs_get_samples eng b n seed).
Proof.
  intros E B T. unfold lhs_get_samples. rewrite map_length. destruct (E (length b) seed n) as (L & U).
  split; auto. eapply scale_rows_gen; [apply lb_closed| |exact U]. now apply box_ok_tight.
Qed.

Lemma lhs_lower eng b n seed : lhs_ok eng -> box_ok b ->
  Forall (fun r => Forall2 (fun lh x => fle (fst lh) x = true) b r) (lhs_get_samples eng b n seed).
Proof.
  intros E B. unfold lhs_get_samples. destruct (E (length b) seed n) as (_ & U).
  apply Forall_map. eapply Forall_impl; [|exact U]. intros r (L & Hr). clear U.
  revert r L Hr. unfold scale_row. induction B as [|lh b Hlh Hb IH]; intros [|u r] L Hr; simpl in *; try discriminate; constructor.
  - apply scale_lb64_lower; auto. now inversion Hr.
  - apply IH; auto. now inversion Hr.
Qed.

Lemma random_in_box {G} (np_seed : Z -> G) np_random b n seed g :
  np_random_ok np_random ->
  box_ok b ->
  length (fst (random_get_samples np_seed np_random b n seed g)) = n /\
  Forall (in_box b) (fst (random_get_samples np_seed np_random b n seed g)).
Proof.
  intros H B. unfold random_get_samples. destruct (H (np_seed seed) n (length b)) as (L & U).
  destruct (np_random (np_seed seed) n (length b)) as [s g']. simpl in *. rewrite map_length. split; auto.
  eapply scale_rows_gen; [apply scale_lb64_open|exact B|exact U].
Qed.

Lemma sobol_random_ok st n e m e' : sobol_random st n e = Ok (m, e') ->
  m = map (st (se_dim e) (se_seed e)) (seq (N.to_nat (se_generated e)) (N.to_nat n)).
Proof.
  unfold sobol_random. destruct (N.eqb_spec n 0) as [->|]; [intros [= <- <-]; reflexivity|].
  destruct (N.ltb _ _); [discriminate|]. now intros [= <- <-].
Qed.

Lemma sobol_random_keeps st n e m e' : sobol_random st n e = Ok (m, e') -> se_dim e' = se_dim e /\ se_seed e' = se_seed e.
Proof.
  unfold sobol_random. destruct (N.eqb_spec n 0) as [->|]; [intros [= <- <-]; auto|].
  destruct (N.ltb _ _); [discriminate|]. intros [= <- <-]; auto.
Qed.

Lemma sobol_base2_keeps st n e m e' : sobol_random_base2 st n e = Ok (m, e') -> se_dim e' = se_dim e /\ se_seed e' = se_seed e.
Proof. unfold sobol_random_base2. destruct (negb _); [discriminate|]. apply sobol_random_keeps. Qed.

Lemma sobol_in_box st skip b n seed m w : stream_ok st -> box_ok b ->
  sobol_get_samples st skip b n seed = Ok (m, w) ->
  length m = n /\ Forall (in_box b) m.
Proof.
  intros S B H. unfold sobol_get_samples in H.
  destruct (sobol_random_base2 _ _ _) as [[m1 e1]|] eqn:R0; simpl in H; [|discriminate].
  destruct (sobol_random _ _ _) as [[m2 e2]|] eqn:R; simpl in H; [|discriminate].
  apply sobol_random_ok in R. apply sobol_base2_keeps in R0 as [D0 S0]. simpl in D0, S0, R. rewrite D0, S0 in R. injection H as <- <-. rewrite R, map_length, map_length, seq_length, Nat2N.id.
  split; auto. eapply scale_rows_gen; [apply scale_lb64_open|exact B|].
  apply Forall_map. apply Forall_forall. intros; apply S.
Qed.

Lemma pow2_land_aux m : N.land (N.pow 2 m) (N.pow 2 m - 1) = 0%N.
Proof.
  replace (N.pow 2 m - 1)%N with (N.ones m) by (rewrite N.ones_equiv; lia).
  rewrite N.land_ones. apply N.mod_same. apply N.pow_nonzero. lia.
Qed.

Lemma sobol_too_many st skip b n seed : (30 < n)%nat -> exists e, sobol_get_samples st skip b n seed = Raise e.
Proof.
  intros H. unfold sobol_get_samples, sobol_random_base2. simpl se_generated.
  rewrite N.add_0_l, pow2_land_aux. simpl. unfold sobol_random.
  destruct (N.eqb_spec (2 ^ N.of_nat n) 0) as [E|_].
  { exfalso. revert E. apply N.pow_nonzero. lia. }
  simpl se_generated. rewrite N.add_0_l.
  destruct (N.ltb_spec sobol_maxn (2 ^ N.of_nat n)) as [_|L]; simpl; [eauto|].
  exfalso. unfold sobol_maxn in L. apply N.pow_le_mono_r_iff in L; lia.
Qed.

Lemma sobol_small st skip b n seed : (n <= 30)%nat -> (skip + N.of_nat n <= N.pow 2 30)%N ->
  exists m, sobol_get_samples st skip b n seed = Ok (m, N.pow 2 (N.of_nat n)).
Proof.
  intros H K. unfold sobol_get_samples, sobol_random_base2. simpl se_generated.
  rewrite N.add_0_l, pow2_land_aux. simpl negb. cbv iota. unfold sobol_random at 1.
  destruct (N.eqb_spec (2 ^ N.of_nat n) 0) as [E|_].
  { exfalso. revert E. apply N.pow_nonzero. lia. }
  simpl se_generated. rewrite N.add_0_l.
  destruct (N.ltb_spec sobol_maxn (2 ^ N.of_nat n)) as [L|_].
  { exfalso. unfold sobol_maxn in L. apply (N.lt_irrefl (2^30)). eapply N.lt_le_trans; [exact L|].
    apply N.pow_le_mono_r; lia. }
  cbn [bind snd fst]. unfold sobol_random.
  assert (W : forall m : mat, length m = N.to_nat (2 ^ N.of_nat n) -> N.of_nat (length m) = (2 ^ N.of_nat n)%N).
  { intros m ->. apply N2Nat.id. }
  destruct (N.eqb_spec (N.of_nat n) 0) as [E0|E0]; cbn [bind snd fst].
  { rewrite W; [eauto|]. now rewrite map_length, seq_length. }
  cbn [sobol_fast_forward sobol_reset sobol_at se_generated].
  destruct (N.ltb_spec sobol_maxn (0 + skip + N.of_nat n)) as [L|_].
  { exfalso. unfold sobol_maxn in L. rewrite N.add_0_l in L. eapply N.lt_nge; eauto. }
  cbn [bind snd fst]. rewrite W; [eauto|]. now rewrite map_length, seq_length.
Qed.

(** Latin hypercube stratification in exact arithmetic *)
Local Open Scope R_scope.

Lemma scaleR_stratum lo hi n k u : lo < hi ->
  in_stratum lo hi n k (scale_lbR lo hi u) <-> in_stratum 0 1 n k u.
Proof.
  intros H. unfold in_stratum, scale_lbR, scale_lb.
  set (a := INR k / INR n). set (b := INR (S k) / INR n). split; intros [A B]; split; nra.
Qed.

Lemma column_scale (f : R -> R -> R -> R) (b : list (R*R)) m j : (j < length b)%nat ->
  Forall (fun r => length r = length b) m ->
  column j (map (scale_row f b) m) = map (f (fst (nth j b (0,0))) (snd (nth j b (0,0)))) (column j m).
Proof.
  intros Hj Hm. unfold column. rewrite !map_map. apply map_ext_in. intros r Hr.
  unfold scale_row. rewrite (map2_nth _ _ _ _ (0,0) 0); auto.
  rewrite Forall_forall in Hm. now rewrite (Hm r Hr).
Qed.

Lemma stratified_scale lo hi n l : lo < hi -> one_per_stratum 0 1 n l ->
  one_per_stratum lo hi n (map (scale_lbR lo hi) l).
Proof.
  intros H (L & S). split; [now rewrite map_length|]. intros k Hk.
  assert (N : forall i, (i < n)%nat -> nth i (map (scale_lbR lo hi) l) 0 = scale_lbR lo hi (nth i l 0)).
  { intros i Hi. rewrite nth_indep with (d' := scale_lbR lo hi 0) by (rewrite map_length; lia). apply map_nth. }
  destruct (S k Hk) as (i & Hi & P & U). exists i. split; [exact Hi|]. split.
  - rewrite N by auto. now apply scaleR_stratum.
  - intros i' Hi' Q. apply U; auto. rewrite N in Q by auto. now apply scaleR_stratum in Q.
Qed.

Lemma scale_mul_lbR lo hi u : scale_mulR lo hi u = scale_lbR lo hi u.
Proof. unfold scale_mulR, scale_lbR, scale_mul, scale_lb. ring. Qed.

(** exact arithmetic never leaves the box *)
Lemma scaleR_in lo hi u : lo <= hi -> 0 <= u <= 1 -> lo <= scale_lbR lo hi u <= hi.
Proof. intros. unfold scale_lbR, scale_lb. nra. Qed.
Local Close Scope R_scope.

(** ** multi-fidelity *)

Lemma mf_rules_spec ns : mf_rules ns = true <-> (forall i, S i < length ns -> nth i ns 0 <= nth (S i) ns 0).
Proof.
  induction ns as [|a [|b t] IH].
  - split; auto. simpl. intros; lia.
  - split; auto. simpl. intros; lia.
  - change (mf_rules (a :: b :: t)) with (Nat.leb a b && mf_rules (b :: t)).
    rewrite andb_true_iff, Nat.leb_le, IH. split.
    + intros [A B] [|i] Hi; simpl in *; auto. apply (B i). lia.
    + intros H. split; [apply (H 0); simpl; lia|]. intros i Hi. apply (H (S i)). simpl in *; lia.
Qed.

Lemma mf_rules_snoc l n m : mf_rules ((l ++ [n]) ++ [m]) = true -> n <= m /\ mf_rules (l ++ [n]) = true.
Proof.
  induction l as [|a l IH].
  - simpl. rewrite andb_true_r. intros H. apply Nat.leb_le in H. auto.
  - destruct l as [|b l].
    + simpl. rewrite andb_true_r. intros H. apply andb_true_iff in H as [H1 H2]. apply Nat.leb_le in H2.
      rewrite H1. auto.
    + change (mf_rules (((a :: b :: l) ++ [n]) ++ [m])) with (Nat.leb a b && mf_rules (((b :: l) ++ [n]) ++ [m])).
      change (mf_rules ((a :: b :: l) ++ [n])) with (Nat.leb a b && mf_rules ((b :: l) ++ [n])).
      intros H. apply andb_true_iff in H as [H1 H2]. rewrite H1. apply IH in H2 as [H2 H3]. auto.
Qed.

Section MFFacts.
Variable lhs : lhs_engine.
Variable stream : sobol_stream.
Variable choice : nat -> nat -> nat -> list nat.
Variable ent : nat -> Z.
Variable s : mf_sampler.
Variable seed : option Z.

Notation non_nested := (mf_non_nested lhs stream ent s seed).
Notation loop := (mf_loop lhs stream choice ent s seed).
Notation get := (mf_get_samples lhs stream choice ent s seed).

(** One step of the loop, as a relation between a new level and the one below it. *)
Variable P : nat -> nat -> mat -> Prop.           (* level index, requested count, array *)
Variable Q : nat -> mat -> mat -> Prop.           (* requested count, upper array, lower array *)

Lemma loop_inv :
  (forall k n fid (below : mat) x, P (S fid) (length below) below ->
      (if mfs_nested s then mf_nested_samples choice s k n (hd [] [below]) else non_nested n fid) = Ok x ->
      n <= length below -> P fid n x /\ length x = n /\ Q n x below) ->
  forall todo k data r rest,
    loop k todo data = (Ok r, rest) ->
    data <> [] ->
    (forall i, i < length data -> P (length todo + i) (length (nth i data [])) (nth i data [])) ->
    (forall i, S i < length data -> Q (length (nth i data [])) (nth i data []) (nth (S i) data [])) ->
    mf_rules (rev todo ++ [length (hd [] data)]) = true ->
    rest = [] /\ length r = length todo + length data /\
    (forall i, i < length r -> P i (length (nth i r [])) (nth i r [])) /\
    (forall i, S i < length r -> Q (length (nth i r [])) (nth i r []) (nth (S i) r [])) /\
    (forall i, i < length todo -> length (nth i r []) = nth i (rev todo) 0) /\
    (forall i, i < length data -> nth (length todo + i) r [] = nth i data []).
Proof.
  intros Step. induction todo as [|n todo IH]; intros k data r rest H Hne HP HQ HR; simpl in H.
  - injection H as <- <-. simpl in *. repeat split; auto. intros; lia.
  - destruct data as [|d0 data]; [congruence|]. simpl hd in H.
    destruct (if mfs_nested s then mf_nested_samples choice s k n d0 else non_nested n (length todo)) as [x|] eqn:E; [|discriminate].
    assert (Hd : P (S (length todo)) (length d0) d0).
    { specialize (HP 0). simpl in HP. rewrite Nat.add_0_r in HP. apply HP. lia. }
    assert (Hle : n <= length d0).
    { simpl in HR. now apply mf_rules_snoc in HR. }
    destruct (Step k n (length todo) d0 x Hd E Hle) as (Px & Lx & Qx).
    destruct (IH (S k) (x :: d0 :: data) r rest H) as (R1 & R2 & R3 & R4 & R5 & R6).
    + discriminate.
    + intros [|i] Hi.
      * simpl. rewrite Nat.add_0_r, Lx. exact Px.
      * simpl nth. replace (length todo + S i) with (length (n :: todo) + i) by (simpl; lia). apply HP. simpl in Hi |- *. lia.
    + intros [|i] Hi; simpl nth.
      * rewrite Lx. exact Qx.
      * apply HQ. simpl in Hi |- *. lia.
    + simpl. rewrite Lx. simpl in HR. now apply mf_rules_snoc in HR.
    + split; [exact R1|]. split; [rewrite R2; simpl; lia|]. split; [exact R3|]. split; [exact R4|]. split.
      * intros i Hi. simpl rev. simpl in Hi. destruct (Nat.eq_dec i (length todo)) as [->|].
        -- specialize (R6 0 ltac:(simpl; lia)). rewrite Nat.add_0_r in R6. rewrite R6. simpl.
           rewrite app_nth2 by (rewrite rev_length; lia). rewrite rev_length, Nat.sub_diag. exact Lx.
        -- rewrite R5 by lia. rewrite app_nth1; auto. rewrite rev_length. lia.
      * intros i Hi. replace (length (n :: todo) + i) with (length todo + S i) by (simpl; lia).
        rewrite R6 by (simpl in *; lia). reflexivity.
Qed.

Lemma get_inv :
  (forall n fid x, non_nested n fid = Ok x -> P fid n x /\ length x = n) ->
  (forall k n fid (below : mat) x, P (S fid) (length below) below ->
      (if mfs_nested s then mf_nested_samples choice s k n below else non_nested n fid) = Ok x ->
      n <= length below -> P fid n x /\ length x = n /\ Q n x below) ->
  forall ns r rest, get ns = (Ok r, rest) ->
    rest = [] /\ length r = length ns /\
    (forall i, i < length r -> length (nth i r []) = nth i ns 0) /\
    (forall i, i < length r -> P i (nth i ns 0) (nth i r [])) /\
    (forall i, S i < length r -> Q (nth i ns 0) (nth i r []) (nth (S i) r [])).
Proof.
  intros Base Step ns r rest H. unfold mf_get_samples in H.
  destruct (mf_rules ns) eqn:HR; [|discriminate].
  destruct (rev ns) as [|n todo] eqn:En; [discriminate|].
  assert (Ens : ns = rev todo ++ [n]).
  { rewrite <- (rev_involutive ns), En. reflexivity. }
  destruct (non_nested n (length todo)) as [x|] eqn:E; [|discriminate].
  destruct (Base _ _ _ E) as [Px Lx].
  destruct (loop 0 todo [x]) as [r' rem] eqn:EL. destruct r' as [r'|]; [|discriminate].
  injection H as <- <-.
  destruct (loop_inv Step todo 0 [x] r' rem EL) as (R1 & R2 & R3 & R4 & R5 & R6).
  - discriminate.
  - simpl. intros i Hi. replace i with 0 by lia. rewrite Nat.add_0_r, Lx. exact Px.
  - simpl. intros; lia.
  - simpl. rewrite Lx, <- Ens. exact HR.
  - subst rem. simpl in R2.
    assert (Ln : length ns = length todo + 1) by (rewrite Ens, app_length, rev_length; reflexivity).
    assert (HL : forall i, i < length r' -> length (nth i r' []) = nth i ns 0).
    { intros i Hi. rewrite Ens. destruct (Nat.eq_dec i (length todo)) as [->|].
      - specialize (R6 0 ltac:(simpl; lia)). rewrite Nat.add_0_r in R6. rewrite R6. simpl.
        rewrite app_nth2 by (rewrite rev_length; lia). rewrite rev_length, Nat.sub_diag. exact Lx.
      - rewrite R5 by lia. rewrite app_nth1; auto. rewrite rev_length. lia. }
    split; [reflexivity|]. split; [lia|]. split; [exact HL|]. split.
    + intros i Hi. rewrite <- HL by auto. now apply R3.
    + intros i Hi. rewrite <- (HL i) by lia. now apply R4.
Qed.

(** progress *)
Variable good : nat -> Prop.
Lemma loop_ok :
  (forall k n fid (below : mat), S fid < length (mfs_spaces s) -> good n -> n <= length below ->
     exists x, (if mfs_nested s then mf_nested_samples choice s k n below else non_nested n fid) = Ok x /\ length x = n) ->
  forall todo k (d : mat) data, Forall good todo -> mf_rules (rev todo ++ [length d]) = true -> length todo < length (mfs_spaces s) ->
    exists r, loop k todo (d :: data) = (Ok r, []).
Proof.
  intros Step. induction todo as [|n todo IH]; intros k d data HG HR HL; simpl.
  - eauto.
  - assert (Hle : n <= length d).
    { simpl in HR. now apply mf_rules_snoc in HR. }
    inversion HG as [|? ? HGn HGt]; subst.
    simpl in HL. destruct (Step k n (length todo) d HL HGn Hle) as (x & -> & Lx).
    apply IH; [exact HGt| |lia]. rewrite Lx. simpl in HR. now apply mf_rules_snoc in HR.
Qed.

Lemma get_ok ns :
  (forall n fid, fid < length (mfs_spaces s) -> good n -> exists x, non_nested n fid = Ok x /\ length x = n) ->
  (forall k n fid (below : mat), S fid < length (mfs_spaces s) -> good n -> n <= length below ->
     exists x, (if mfs_nested s then mf_nested_samples choice s k n below else non_nested n fid) = Ok x /\ length x = n) ->
  Forall good ns ->
  mf_rules ns = true -> ns <> [] -> length ns <= length (mfs_spaces s) ->
  exists r, get ns = (Ok r, []).
Proof.
  intros Base Step HG HR Hne HL. unfold mf_get_samples. rewrite HR.
  destruct (rev ns) as [|n todo] eqn:En.
  { exfalso. apply Hne. rewrite <- (rev_involutive ns), En. reflexivity. }
  assert (Ens : ns = rev todo ++ [n]).
  { rewrite <- (rev_involutive ns), En. reflexivity. }
  assert (Ln : length ns = length todo + 1) by (rewrite Ens, app_length, rev_length; reflexivity).
  rewrite Ens, Forall_app in HG. destruct HG as [HGt HGn].
  inversion HGn; subst.
  destruct (Base n (length todo)) as (x & -> & Lx); auto; [lia|].
  destruct (loop_ok Step todo 0 x []) as [r ->].
  - rewrite <- (rev_involutive todo). now apply Forall_rev.
  - now rewrite Lx.
  - lia.
  - simpl. eauto.
Qed.
End MFFacts.

(** Facts about the two non-nested engines *)

Lemma non_nested_inbox lhs st ent s seed n fid x : lhs_ok lhs -> stream_ok st -> spaces_ok s -> kind_tight s ->
  mf_non_nested lhs st ent s seed n fid = Ok x ->
  exists b, nth_error (mfs_spaces s) fid = Some b /\ Forall (in_box b) x /\ length x = n.
Proof.
  intros HL HS HB HT H. unfold mf_non_nested in H. unfold kind_tight in HT.
  destruct (mfs_kind s) as [|skip].
  - unfold mf_scale in H. destruct (nth_error (mfs_spaces s) fid) as [b|] eqn:E; [|discriminate].
    destruct (Nat.eqb_spec (length b) (mfs_dim s)) as [Eb|]; [|discriminate]. injection H as <-.
    exists b. split; auto. pose proof (nth_error_In _ _ E) as Hin.
    unfold spaces_ok in *. rewrite Forall_forall in HB, HT.
    destruct (HL (mfs_dim s) match seed with Some z => Seed (z + Z.of_nat fid) | None => Entropy (ent fid) end n) as (L & U).
    rewrite map_length. split; auto.
    eapply scale_rows_gen; [apply mul_closed| |rewrite Eb; exact U]. apply box_ok_tight; [apply HB|apply HT]; auto.
  - destruct (sobol_random _ _ _) as [[m e]|] eqn:R; simpl in H; [|discriminate].
    apply sobol_random_ok in R. simpl in R.
    unfold mf_scale in H. destruct (nth_error (mfs_spaces s) fid) as [b|] eqn:E; [|discriminate].
    destruct (Nat.eqb_spec (length b) (mfs_dim s)) as [Eb|]; [|discriminate]. injection H as <-.
    exists b. split; auto. pose proof (nth_error_In _ _ E) as Hin.
    unfold spaces_ok in *. rewrite Forall_forall in HB.
    rewrite R, map_length, map_length, seq_length, Nat2N.id. split; auto.
    eapply scale_rows_gen; [apply mul_open|apply HB; auto|]. apply Forall_map. apply Forall_forall.
    intros i _. rewrite Eb. apply HS.
Qed.

Lemma non_nested_total lhs st ent s seed n fid : lhs_ok lhs -> spaces_ok s ->
  fid < length (mfs_spaces s) -> kind_budget s n ->
  exists x, mf_non_nested lhs st ent s seed n fid = Ok x /\ length x = n.
Proof.
  intros HL HB Hf HK. unfold mf_non_nested, kind_budget in *.
  destruct (nth_error (mfs_spaces s) fid) as [b|] eqn:E.
  2:{ apply nth_error_None in E. lia. }
  pose proof (nth_error_In _ _ E) as Hin. unfold spaces_ok in HB. rewrite Forall_forall in HB.
  destruct (HB b Hin) as [Eb _].
  assert (Sc : forall m, mf_scale s fid m = Ok (map (scale_row scale_mul64 b) m)).
  { intros m. unfold mf_scale. rewrite E, Eb, Nat.eqb_refl. reflexivity. }
  destruct (mfs_kind s) as [|skip].
  - rewrite Sc. eexists. split; [reflexivity|]. rewrite map_length. apply HL.
  - unfold sobol_random. destruct (N.eqb_spec (N.of_nat n) 0) as [E0|E0].
    + simpl. rewrite Sc. eexists; split; [reflexivity|]. simpl. lia.
    + cbn [sobol_fast_forward sobol_reset sobol_at se_generated].
      destruct (N.ltb_spec sobol_maxn (0 + skip + N.of_nat n)) as [L|_].
      { exfalso. unfold sobol_maxn in L. rewrite N.add_0_l in L. eapply N.lt_nge; eauto. }
      cbn [bind fst]. rewrite Sc. eexists; split; [reflexivity|].
      rewrite map_length, map_length, seq_length. apply Nat2N.id.
Qed.

Lemma nested_total choice s k n below : choice_ok choice -> n <= length below ->
  exists x, mf_nested_samples choice s k n below = Ok x /\ length x = n.
Proof.
  intros HC Hn. unfold mf_nested_samples. destruct (mfs_kind s).
  - destruct (Nat.ltb_spec (length below) n); [lia|]. eexists; split; [reflexivity|].
    rewrite map_length. now apply HC.
  - eexists; split; [reflexivity|]. rewrite firstn_length. lia.
Qed.

Lemma firstn_seq n : forall (l p : mat), n <= length l ->
  Forall2 (fun i r => nth_error (p ++ l) i = Some r) (seq (length p) n) (firstn n l).
Proof.
  induction n as [|n IH]; intros l p H; [constructor|]. destruct l as [|y l]; simpl in H; [lia|].
  simpl. constructor.
  - rewrite nth_error_app2, Nat.sub_diag by auto. reflexivity.
  - replace (p ++ y :: l) with ((p ++ [y]) ++ l) by (now rewrite <- app_assoc).
    replace (S (length p)) with (length (p ++ [y])) by (rewrite app_length; simpl; lia).
    apply IH. lia.
Qed.

Lemma nested_distinct choice s k n below x : choice_ok choice -> n <= length below ->
  mf_nested_samples choice s k n below = Ok x -> length x = n /\ distinct_rows_of x below n.
Proof.
  intros HC Hn H. unfold mf_nested_samples in H. destruct (mfs_kind s).
  - destruct (Nat.ltb_spec (length below) n); [lia|]. injection H as <-.
    destruct (HC k (length below) n Hn) as (L & D & B). rewrite map_length. split; auto.
    exists (choice k (length below) n). repeat split; auto.
    clear L D. induction B; simpl; constructor; auto. now apply nth_error_nth'.
  - injection H as <-. rewrite firstn_length. split; [lia|].
    exists (seq 0 n). repeat split.
    + apply seq_NoDup.
    + apply seq_length.
    + apply Forall_forall. intros i Hi. apply in_seq in Hi. lia.
    + apply (firstn_seq n below [] Hn).
Qed.

Lemma distinct_rows_in {X} (A B : list X) n x : distinct_rows_of A B n -> In x A -> In x B.
Proof.
  intros (idx & _ & _ & _ & F). induction F as [|i a idx A' Ha F IH]; [easy|].
  intros [<-|H]; [eapply nth_error_In; eauto|auto].
Qed.

Lemma nested_sobol_firstn choice s k n below x skip : mfs_kind s = KSobol skip ->
  mf_nested_samples choice s k n below = Ok x -> x = firstn n below.
Proof. unfold mf_nested_samples. intros ->. now intros [= <-]. Qed.

(** ** the properties *)

Theorem non_nested_levels lhs st choice ent s seed ns :
  lhs_ok lhs -> stream_ok st -> spaces_ok s -> kind_tight s -> mfs_nested s = false ->
  mf_rules ns = true -> ns <> [] -> length ns <= length (mfs_spaces s) -> Forall (kind_budget s) ns ->
  exists data, mf_get_samples lhs st choice ent s seed ns = (Ok data, []) /\
    length data = length ns /\
    forall i b, i < length ns -> nth_error (mfs_spaces s) i = Some b ->
      length (nth i data []) = nth i ns 0 /\ Forall (in_box b) (nth i data []).
Proof.
  intros HL HS HB HT HN HR Hne Hlen HK.
  destruct (get_ok lhs st choice ent s seed (kind_budget s) ns) as [data E]; auto.
  { intros. now apply non_nested_total. }
  { intros. rewrite HN. apply non_nested_total; auto. lia. }
  exists data. split; auto.
  destruct (get_inv lhs st choice ent s seed
     (fun i n m => exists b, nth_error (mfs_spaces s) i = Some b /\ Forall (in_box b) m) (fun _ _ _ => True)) with (3 := E)
     as (_ & R2 & R3 & R4 & _).
  - intros n fid x H. destruct (non_nested_inbox _ _ _ _ _ _ _ _ HL HS HB HT H) as (b & ? & ? & ?). eauto.
  - intros k n fid below x _ H _. rewrite HN in H.
    destruct (non_nested_inbox _ _ _ _ _ _ _ _ HL HS HB HT H) as (b & ? & ? & ?). eauto.
  - split; auto. intros i b Hi Hb. rewrite <- R2 in Hi. split; auto.
    destruct (R4 i Hi) as (b' & Hb' & F). congruence.
Qed.

Theorem nested_levels lhs st choice ent s seed ns :
  lhs_ok lhs -> stream_ok st -> choice_ok choice -> spaces_ok s -> kind_tight s -> mfs_nested s = true ->
  mf_rules ns = true -> ns <> [] -> length ns <= length (mfs_spaces s) -> Forall (kind_budget s) ns ->
  exists data b, mf_get_samples lhs st choice ent s seed ns = (Ok data, []) /\
    length data = length ns /\
    nth_error (mfs_spaces s) (length ns - 1) = Some b /\
    (forall i, i < length ns -> length (nth i data []) = nth i ns 0 /\ Forall (in_box b) (nth i data [])) /\
    (forall i, S i < length ns -> distinct_rows_of (nth i data []) (nth (S i) data []) (nth i ns 0)) .
Proof.
  intros HL HS HC HB HT HN HR Hne Hlen HK.
  destruct (get_ok lhs st choice ent s seed (kind_budget s) ns) as [data E]; auto.
  { intros. now apply non_nested_total. }
  { intros. rewrite HN. now apply nested_total. }
  destruct (nth_error (mfs_spaces s) (length ns - 1)) as [b|] eqn:Eb.
  2:{ apply nth_error_None in Eb. destruct ns; [congruence|]. simpl in *. lia. }
  exists data, b. split; auto.
  (* first pass: counts and selections *)
  destruct (get_inv lhs st choice ent s seed (fun _ _ _ => True)
       (fun n x below => distinct_rows_of x below n)) with (3 := E)
     as (_ & R2 & R3 & _ & R5).
  - intros n fid x H. destruct (non_nested_inbox _ _ _ _ _ _ _ _ HL HS HB HT H) as (b' & ? & ? & ?). auto.
  - intros k n fid below x _ H Hle. rewrite HN in H.
    destruct (nested_distinct _ _ _ _ _ _ HC Hle H). auto.
  - split; auto. split; auto.
    assert (Last : Forall (in_box b) (nth (length ns - 1) data [])).
    { unfold mf_get_samples in E. rewrite HR in E.
      destruct (rev ns) as [|n todo] eqn:En; [discriminate|].
      assert (Ens : ns = rev todo ++ [n]) by (rewrite <- (rev_involutive ns), En; reflexivity).
      assert (Ln : length ns = length todo + 1) by (rewrite Ens, app_length, rev_length; reflexivity).
      destruct (mf_non_nested lhs st ent s seed n (length todo)) as [x|] eqn:Ex; [|discriminate].
      destruct (mf_loop lhs st choice ent s seed 0 todo [x]) as [r' rem] eqn:EL. destruct r' as [r'|]; [|discriminate].
      injection E as <- Erem.
      destruct (non_nested_inbox _ _ _ _ _ _ _ _ HL HS HB HT Ex) as (b' & E1 & E2 & E3).
      destruct (loop_inv lhs st choice ent s seed (fun _ _ _ => True) (fun _ _ _ => True)) with (2 := EL)
        as (_ & _ & _ & _ & _ & R6); auto.
      - intros k n0 fid below x0 _ H Hle. rewrite HN in H. simpl in H.
        destruct (nested_distinct _ _ _ _ _ _ HC Hle H). auto.
      - discriminate.
      - simpl. rewrite E3, <- Ens. exact HR.
      - specialize (R6 0 ltac:(simpl; lia)). rewrite Nat.add_0_r in R6. simpl in R6.
        replace (length ns - 1) with (length todo) in * by lia. rewrite R6. congruence. }
    split.
    + intros i Hi. rewrite <- R2 in Hi. split; [now apply R3|].
      enough (G : forall k i, i + k = length ns - 1 -> Forall (in_box b) (nth i data [])).
      { apply (G (length ns - 1 - i)). lia. }
      induction k as [|k IH]; intros j Hj.
      * replace j with (length ns - 1) by lia. exact Last.
      * apply Forall_forall. intros r Hr. specialize (IH (S j) ltac:(lia)). rewrite Forall_forall in IH.
        apply IH. eapply distinct_rows_in; [apply R5; lia|exact Hr].
    + intros i Hi. apply R5. lia.
Qed.

Theorem rules_error lhs st choice ent s seed ns :
  (exists i, S i < length ns /\ nth (S i) ns 0 < nth i ns 0) ->
  mf_get_samples lhs st choice ent s seed ns = (Raise AssertionError, ns).
Proof.
  intros (i & Hi & L). unfold mf_get_samples. destruct (mf_rules ns) eqn:HR; auto.
  rewrite mf_rules_spec in HR. specialize (HR i Hi). lia.
Qed.

(** The loop itself never raises AssertionError. *)
Lemma non_nested_no_assert lhs st ent s seed n fid : mf_non_nested lhs st ent s seed n fid <> Raise AssertionError.
Proof.
  unfold mf_non_nested, mf_scale. destruct (mfs_kind s).
  - destruct (nth_error _ _); [destruct (Nat.eqb _ _)|]; discriminate.
  - unfold sobol_random. destruct (N.eqb _ _); [|destruct (N.ltb _ _)]; simpl; try discriminate;
    (destruct (nth_error _ _); [destruct (Nat.eqb _ _)|]; discriminate).
Qed.

Lemma loop_no_assert lhs st choice ent s seed todo : forall k data,
  fst (mf_loop lhs st choice ent s seed k todo data) <> Raise AssertionError.
Proof.
  induction todo as [|n todo IH]; intros k data; simpl; [discriminate|].
  destruct (mfs_nested s).
  - unfold mf_nested_samples. destruct (mfs_kind s); [destruct (Nat.ltb _ _)|]; simpl; auto; discriminate.
  - destruct (mf_non_nested lhs st ent s seed n (length todo)) as [x|e] eqn:E; auto.
    simpl. intros [= ->]. now apply non_nested_no_assert in E.
Qed.

Theorem rules_error_only lhs st choice ent s seed ns :
  fst (mf_get_samples lhs st choice ent s seed ns) = Raise AssertionError ->
  exists i, S i < length ns /\ nth (S i) ns 0 < nth i ns 0.
Proof.
  unfold mf_get_samples. destruct (mf_rules ns) eqn:HR.
  - destruct (rev ns) as [|n todo]; [discriminate|].
    destruct (mf_non_nested lhs st ent s seed n (length todo)) as [x|e] eqn:E.
    + pose proof (loop_no_assert lhs st choice ent s seed todo 0 [x]) as N.
      destruct (mf_loop _ _ _ _ _ _ _ _ _). simpl in *. congruence.
    + simpl. intros [= ->]. exfalso. eapply non_nested_no_assert; eauto.
  - intros _. clear -HR. induction ns as [|a [|b t] IH]; try discriminate.
    change (mf_rules (a :: b :: t)) with (Nat.leb a b && mf_rules (b :: t)) in HR.
    apply andb_false_iff in HR as [H|H].
    + apply Nat.leb_gt in H. exists 0. simpl. split; [lia|auto].
    + destruct (IH H) as (i & Hi & L). exists (S i). simpl in *. split; [lia|exact L].
Qed.

Theorem list_consumed lhs st choice ent s seed ns data rest :
  mf_get_samples lhs st choice ent s seed ns = (Ok data, rest) ->
  rest = [] /\ mf_get_samples lhs st choice ent s seed rest = (Raise IndexError, []).
Proof.
  intros H. assert (rest = []); [|subst; split; reflexivity].
  unfold mf_get_samples in H. destruct (mf_rules ns); [|discriminate].
  destruct (rev ns) as [|n todo]; [discriminate|].
  destruct (mf_non_nested lhs st ent s seed n (length todo)) as [x|e]; [|discriminate].
  destruct (mf_loop lhs st choice ent s seed 0 todo [x]) as [r rem] eqn:E.
  injection H as -> <-.
  enough (G : forall todo k data r rem, mf_loop lhs st choice ent s seed k todo data = (Ok r, rem) -> rem = []).
  { apply G in E. now subst. }
  clear. induction todo as [|n todo IH]; intros k data r rem; simpl; [now intros [= _ <-]|].
  destruct (if mfs_nested s then _ else _); [|discriminate]. apply IH.
Qed.

(** Sobol, integer seed: the level arrays are slices of one and the same stream. *)
Lemma sobol_level lhs st ent s z n fid x skip : mfs_kind s = KSobol skip ->
  mf_non_nested lhs st ent s (Some z) n fid = Ok x ->
  exists b, nth_error (mfs_spaces s) fid = Some b /\
    x = map (scale_row scale_mul64 b) (map (st (mfs_dim s) (Seed z)) (seq (N.to_nat skip) n)) /\ length x = n.
Proof.
  unfold mf_non_nested. intros -> H.
  destruct (sobol_random _ _ _) as [[m e]|] eqn:R; simpl in H; [|discriminate].
  apply sobol_random_ok in R. simpl in R. rewrite Nat2N.id in R. subst m.
  unfold mf_scale in H. destruct (nth_error (mfs_spaces s) fid) as [b|]; [|discriminate].
  destruct (Nat.eqb_spec (length b) (mfs_dim s)) as [Eb|]; [|discriminate]. injection H as <-.
  exists b. repeat split. now rewrite !map_length, seq_length.
Qed.

Lemma seq_prefix a n m : n <= m -> exists c, seq a m = seq a n ++ c.
Proof.
  intros H. exists (seq (a + n) (m - n)). rewrite <- seq_app. f_equal. lia.
Qed.

Theorem sobol_slices lhs st choice ent s z skip ns data rest :
  mfs_kind s = KSobol skip -> mfs_nested s = false ->
  mf_get_samples lhs st choice ent s (Some z) ns = (Ok data, rest) ->
  length data = length ns /\
  forall i, i < length ns -> exists b, nth_error (mfs_spaces s) i = Some b /\
    nth i data [] = map (scale_row scale_mul64 b) (map (st (mfs_dim s) (Seed z)) (seq (N.to_nat skip) (nth i ns 0))).
Proof.
  intros HK HN E.
  destruct (get_inv lhs st choice ent s (Some z)
     (fun i n m => exists b, nth_error (mfs_spaces s) i = Some b /\
        m = map (scale_row scale_mul64 b) (map (st (mfs_dim s) (Seed z)) (seq (N.to_nat skip) n)))
     (fun _ _ _ => True)) with (3 := E) as (_ & R2 & R3 & R4 & _).
  - intros n fid x H. destruct (sobol_level _ _ _ _ _ _ _ _ _ HK H) as (b & ? & ? & ?). eauto.
  - intros k n fid below x _ H _. rewrite HN in H.
    destruct (sobol_level _ _ _ _ _ _ _ _ _ HK H) as (b & ? & ? & ?). eauto.
  - split; auto. intros i Hi. apply R4. lia.
Qed.

Theorem sobol_prefix lhs st choice ent s z skip ns data rest b :
  mfs_kind s = KSobol skip -> mfs_nested s = false -> Forall (fun b' => b' = b) (mfs_spaces s) ->
  mf_get_samples lhs st choice ent s (Some z) ns = (Ok data, rest) ->
  forall i, S i < length ns -> prefix_of (nth i data []) (nth (S i) data []).
Proof.
  intros HK HN HB E i Hi.
  destruct (sobol_slices _ _ _ _ _ _ _ _ _ _ HK HN E) as (L & S).
  destruct (S i ltac:(lia)) as (b1 & B1 & ->). destruct (S (Datatypes.S i) Hi) as (b2 & B2 & ->).
  rewrite Forall_forall in HB. apply nth_error_In in B1, B2. rewrite (HB _ B1), (HB _ B2).
  assert (nth i ns 0 <= nth (Datatypes.S i) ns 0) as Hle.
  { unfold mf_get_samples in E. destruct (mf_rules ns) eqn:HR; [|discriminate].
    rewrite mf_rules_spec in HR. auto. }
  destruct (seq_prefix (N.to_nat skip) _ _ Hle) as (c & ->).
  eexists. rewrite !map_app. reflexivity.
Qed.

(** Reproducibility *)
Theorem non_nested_reproducible lhs st s z ns c1 c2 e1 e2 :
  mfs_nested s = false ->
  mf_get_samples lhs st c1 e1 s (Some z) ns = mf_get_samples lhs st c2 e2 s (Some z) ns.
Proof.
  intros HN. unfold mf_get_samples.
  assert (B : forall n fid, mf_non_nested lhs st e1 s (Some z) n fid = mf_non_nested lhs st e2 s (Some z) n fid).
  { intros. unfold mf_non_nested. reflexivity. }
  assert (L : forall todo k data, mf_loop lhs st c1 e1 s (Some z) k todo data = mf_loop lhs st c2 e2 s (Some z) k todo data).
  { induction todo as [|n todo IH]; intros; simpl; auto. rewrite HN, B.
    destruct (mf_non_nested _ _ _ _ _ _ _); auto. }
  destruct (mf_rules ns); auto. destruct (rev ns); auto. rewrite B. destruct (mf_non_nested _ _ _ _ _ _ _); auto.
  now rewrite L.
Qed.

Theorem nested_sobol_reproducible lhs st s z skip ns c1 c2 e1 e2 :
  mfs_kind s = KSobol skip ->
  mf_get_samples lhs st c1 e1 s (Some z) ns = mf_get_samples lhs st c2 e2 s (Some z) ns.
Proof.
  intros HK. unfold mf_get_samples.
  assert (B : forall n fid, mf_non_nested lhs st e1 s (Some z) n fid = mf_non_nested lhs st e2 s (Some z) n fid).
  { intros. unfold mf_non_nested. reflexivity. }
  assert (L : forall todo k data, mf_loop lhs st c1 e1 s (Some z) k todo data = mf_loop lhs st c2 e2 s (Some z) k todo data).
  { induction todo as [|n todo IH]; intros; simpl; auto. rewrite B. unfold mf_nested_samples. rewrite HK.
    destruct (mfs_nested s); auto.
    destruct (mf_non_nested _ _ _ _ _ _ _); auto. }
  destruct (mf_rules ns); auto. destruct (rev ns); auto. rewrite B. destruct (mf_non_nested _ _ _ _ _ _ _); auto.
  now rewrite L.
Qed.

(** ** computable checks, for the concrete examples *)
Lemma unit_open_b u : isfin u && fle f0 u && flt u f1 = true -> unit_open u.
Proof.
  intros H. apply andb_true_iff in H as [H C]. apply andb_true_iff in H as [A B].
  split; auto. apply (fle_finite f0 u) in B; auto. apply (flt_finite u f1) in C; auto using isfin_f1.
  rewrite B2R_f0 in B. rewrite B2R_f1 in C. unfold val. split; assumption.
Qed.
Lemma unit_closed_b u : isfin u && fle f0 u && fle u f1 = true -> unit_closed u.
Proof.
  intros H. apply andb_true_iff in H as [H C]. apply andb_true_iff in H as [A B].
  split; auto. apply (fle_finite f0 u) in B; auto. apply (fle_finite u f1) in C; auto using isfin_f1.
  rewrite B2R_f0 in B. rewrite B2R_f1 in C. unfold val. split; assumption.
Qed.

(** constant engines *)
Definition const_lhs (u : b64) : lhs_engine := fun d _ n => repeat (repeat u d) n.
Lemma const_lhs_ok u : unit_closed u -> lhs_ok (const_lhs u).
Proof.
  intros H d s n. unfold const_lhs. split; [apply repeat_length|].
  apply Forall_forall. intros r Hr. apply repeat_spec in Hr. subst. split; [apply repeat_length|].
  apply Forall_forall. intros x Hx. apply repeat_spec in Hx. now subst.
Qed.
(** a stream whose points differ: point [i] is 2^-(i+1) in every coordinate (i capped) *)
Definition geo_stream : sobol_stream := fun d _ i => repeat (fbin 1 (- Z.of_nat (S (Nat.min i 7)))) d.
Lemma geo_stream_ok : stream_ok geo_stream.
Proof.
  intros d s i. split; [apply repeat_length|]. apply Forall_forall. intros x Hx. apply repeat_spec in Hx. subst.
  apply unit_open_b. generalize (Nat.min i 7) (Nat.le_min_r i 7). intros k Hk.
  do 8 (destruct k; [reflexivity|]). lia.
Qed.
Definition first_choice : nat -> nat -> nat -> list nat := fun _ _ size => seq 0 size.
Lemma first_choice_ok : choice_ok first_choice.
Proof.
  intros k n size H. unfold first_choice. repeat split; [apply seq_length|apply seq_NoDup|].
  apply Forall_forall. intros i Hi. apply in_seq in Hi. lia.
Qed.
Definition last_choice : nat -> nat -> nat -> list nat := fun _ n size => seq (n - size) size.
Lemma last_choice_ok : choice_ok last_choice.
Proof.
  intros k n size H. unfold last_choice. repeat split; [apply seq_length|apply seq_NoDup|].
  apply Forall_forall. intros i Hi. apply in_seq in Hi. lia.
Qed.

Lemma lhs_stratified (b : list (R * R)) (m : list (list R)) n :
  (forall j, j < length b -> (fst (nth j b (0,0)) < snd (nth j b (0,0)))%R) ->
  Forall (fun r => length r = length b) m ->
  (forall j, j < length b -> one_per_stratum 0 1 n (column j m)) ->
  forall j, j < length b ->
    one_per_stratum (fst (nth j b (0,0)))%R (snd (nth j b (0,0)))%R n (column j (map (scale_row scale_lbR b) m)).
Proof.
  intros Hb Hm Hs j Hj. rewrite column_scale by auto. apply stratified_scale; auto.
Qed.

Lemma exact_in_box (b : list (R * R)) (m : list (list R)) :
  Forall (fun lh => (fst lh <= snd lh)%R) b ->
  Forall (fun r => length r = length b /\ Forall (fun u => (0 <= u <= 1)%R) r) m ->
  Forall (Forall2 (fun lh x => (fst lh <= x <= snd lh)%R) b) (map (scale_row scale_lbR b) m).
Proof.
  intros Hb Hm. apply Forall_map. eapply Forall_impl; [|exact Hm]. intros r (L & U). clear Hm m.
  unfold scale_row. revert r L U. induction Hb as [|lh b H Hb IH]; intros [|u r] L U; simpl in *; try discriminate; constructor.
  - inversion U; subst. now apply scaleR_in.
  - inversion U; subst. apply IH; auto.
Qed.

Lemma fix_number_rows {T} (b : list (T * T)) n seed :
  length (fix_number_get_samples b n seed) = n /\
  forall r, In r (fix_number_get_samples b n seed) ->
    length r = 2 * length b /\ forall j lh, nth_error b j = Some lh ->
      nth_error r (2 * j) = Some (fst lh) /\ nth_error r (2 * j + 1) = Some (snd lh).
Proof.
  unfold fix_number_get_samples. split; [apply repeat_length|]. intros r Hr. apply repeat_spec in Hr. subst r.
  split.
  - induction b; simpl; auto. rewrite IHb. lia.
  - induction b as [|a b IH]; intros [|j] lh H; simpl in H; try discriminate.
    + injection H as ->. simpl. auto.
    + destruct (IH j lh H) as [A B].
      replace (2 * S j) with (S (S (2 * j))) by lia. simpl flat_map. simpl nth_error. simpl Nat.add in *. auto.
Qed.

Lemma random_deterministic {G} (np_seed : Z -> G) np_random b n seed g1 g2 :
  random_get_samples np_seed np_random b n seed g1 = random_get_samples np_seed np_random b n seed g2.
Proof. reflexivity. Qed.

(** ** samplers as constructed *)

Lemma shared_levels lhs st choice ent b m nested k seed ns :
  lhs_ok lhs -> stream_ok st -> choice_ok choice -> box_ok b -> (k = KLhs -> box_tight b) ->
  mf_rules ns = true -> ns <> [] -> length ns <= m ->
  (forall skip, k = KSobol skip -> Forall (fun n => (skip + N.of_nat n <= N.pow 2 30)%N) ns) ->
  exists s data, mk_mf_sampler (SharedSpace b) (Some m) nested k = Ok s /\
    mf_get_samples lhs st choice ent s seed ns = (Ok data, []) /\ levels_ok b ns data.
Proof.
  intros HL HS HC HB HT HR HN Hm HK. simpl. eexists. 
  set (s := {| mfs_spaces := repeat b m; mfs_dim := length b; mfs_nested := nested; mfs_kind := k |}).
  assert (A : spaces_ok s).
  { apply Forall_forall. intros b' Hb. apply repeat_spec in Hb. subst. auto. }
  assert (T : kind_tight s).
  { unfold kind_tight. simpl. destruct k; auto. apply Forall_forall. intros b' Hb. apply repeat_spec in Hb. subst. auto. }
  assert (G : Forall (kind_budget s) ns).
  { unfold kind_budget. simpl. destruct k as [|skip]; [apply Forall_forall; auto|]. now apply HK. }
  assert (L : length ns <= length (mfs_spaces s)) by (simpl; now rewrite repeat_length).
  assert (NE : forall i, i < m -> nth_error (mfs_spaces s) i = Some b).
  { intros i Hi. simpl. clear -Hi. revert i Hi. induction m; intros i Hi; [lia|]. destruct i; simpl; auto. apply IHm. lia. }
  destruct nested.
  - destruct (nested_levels lhs st choice ent s seed ns HL HS HC A T eq_refl HR HN L G) as (data & b' & E & LD & NB & P & _).
    exists data. split; [reflexivity|]. split; [exact E|]. split; [exact LD|].
    rewrite NE in NB by (destruct ns; simpl in *; [congruence|lia]). injection NB as <-. exact P.
  - destruct (non_nested_levels lhs st choice ent s seed ns HL HS A T eq_refl HR HN L G) as (data & E & LD & P).
    exists data. split; [reflexivity|]. split; [exact E|]. split; [exact LD|].
    intros i Hi. apply P; auto. apply NE. lia.
Qed.

Theorem shared_lhs lhs st choice ent b m nested seed ns :
  lhs_ok lhs -> stream_ok st -> choice_ok choice -> box_ok b -> box_tight b ->
  mf_rules ns = true -> ns <> [] -> length ns <= m ->
  exists s data, new_mf_lhs (SharedSpace b) (Some m) nested = Ok s /\
    mf_get_samples lhs st choice ent s seed ns = (Ok data, []) /\ levels_ok b ns data.
Proof. intros. apply shared_levels; auto. discriminate. Qed.

Theorem shared_sobol lhs st choice ent b m nested num_skip seed ns :
  lhs_ok lhs -> stream_ok st -> choice_ok choice -> box_ok b ->
  mf_rules ns = true -> ns <> [] -> length ns <= m ->
  Forall (fun n => (match num_skip with Some k => k | None => N.of_nat (length b) end + N.of_nat n <= N.pow 2 30)%N) ns ->
  exists s data, new_mf_sobol (SharedSpace b) (Some m) nested num_skip = Ok s /\
    mf_get_samples lhs st choice ent s seed ns = (Ok data, []) /\ levels_ok b ns data.
Proof.
  intros. apply shared_levels; auto; [discriminate|]. intros skip [= <-]. unfold mf_sobol_num_skip. destruct num_skip; auto.
Qed.

(** what the caller's list looks like after a failure: the counts up to and including the failing level are gone *)
Lemma loop_failure lhs st choice ent s seed : forall todo k data e rest,
  mf_loop lhs st choice ent s seed k todo data = (Raise e, rest) ->
  exists done n, todo = done ++ n :: rest /\
    exists k' data', (if mfs_nested s then mf_nested_samples choice s k' n (hd [] data') else mf_non_nested lhs st ent s seed n (length rest)) = Raise e.
Proof.
  induction todo as [|n todo IH]; intros k data e rest H; cbn [mf_loop] in H; [discriminate|].
  destruct (if mfs_nested s then _ else _) as [x|e'] eqn:E.
  - destruct (IH _ _ _ _ H) as (done & n' & -> & P). exists (n :: done), n'. split; [reflexivity|exact P].
  - injection H as <- <-. exists [], n. split; [reflexivity|]. exists k, data. exact E.
Qed.

Theorem list_after_failure lhs st choice ent s seed ns e rest :
  mfs_nested s = false -> mf_get_samples lhs st choice ent s seed ns = (Raise e, rest) ->
  (e = AssertionError /\ rest = ns) \/ (e = IndexError /\ ns = [] /\ rest = []) \/
  exists i, i < length ns /\ rest = firstn i ns /\ mf_non_nested lhs st ent s seed (nth i ns 0) i = Raise e.
Proof.
  intros HN H. unfold mf_get_samples in H. destruct (mf_rules ns); [|injection H as <- <-; auto].
  right. destruct (rev ns) as [|n todo] eqn:R.
  { injection H as <- <-. left. rewrite <- (rev_involutive ns), R. auto. }
  right. assert (EN : ns = rev todo ++ [n]).
  { rewrite <- (rev_involutive ns), R. reflexivity. }
  destruct (mf_non_nested lhs st ent s seed n (length todo)) as [x|e'] eqn:E.
  - destruct (mf_loop lhs st choice ent s seed 0 todo [x]) as [r rem] eqn:EL. injection H as -> <-.
    destruct (loop_failure _ _ _ _ _ _ _ _ _ _ _ EL) as (done & n' & -> & k' & d' & F). rewrite HN in F.
    exists (length rem). rewrite rev_app_distr in EN. simpl in EN.
    rewrite EN, <- !app_assoc. simpl. split; [rewrite app_length, rev_length; simpl; lia|].
    split.
    + rewrite firstn_app, rev_length, Nat.sub_diag. simpl. rewrite app_nil_r, <- (rev_length rem), firstn_all. reflexivity.
    + rewrite app_nth2 by (rewrite rev_length; lia). rewrite rev_length, Nat.sub_diag. exact F.
  - injection H as <- <-. exists (length todo). rewrite EN. split; [rewrite app_length, rev_length; simpl; lia|].
    split.
    + rewrite firstn_app, rev_length, Nat.sub_diag. simpl. rewrite app_nil_r, <- (rev_length todo), firstn_all. reflexivity.
    + rewrite app_nth2 by (rewrite rev_length; lia). rewrite rev_length, Nat.sub_diag. exact E.
Qed.

(** the points a single-fidelity Sobol sampler returns *)
Theorem sobol_points st num_skip b n seed m w :
  new_sobol_samples st num_skip b n seed = Ok (m, w) ->
  m = map (scale_row scale_lb64 b) (map (st (length b) seed)
        (seq (match num_skip with Some k => N.to_nat k | None => length b end) n)).
Proof.
  unfold new_sobol_samples, sobol_get_samples. intros H.
  destruct (sobol_random_base2 _ _ _) as [[a e]|] eqn:E; [|discriminate]. cbn [bind fst snd] in H.
  destruct (sobol_random _ _ _) as [[a' e']|] eqn:E'; [|discriminate]. cbn [bind fst snd] in H.
  injection H as <- _. unfold sobol_random in E'.
  assert (D : se_dim e = length b /\ se_seed e = seed).
  { unfold sobol_random_base2 in E. destruct (negb _); [discriminate|]. unfold sobol_random in E.
    destruct (N.eqb _ _); [injection E as _ <-; auto|]. destruct (N.ltb _ _); [discriminate|]. injection E as _ <-. auto. }
  destruct D as [D1 D2].
  destruct (N.eqb_spec (N.of_nat n) 0) as [Z|Z].
  - injection E' as <- _. assert (n = 0) by lia. subst. reflexivity.
  - destruct (N.ltb _ _); [discriminate|]. injection E' as <- _.
    unfold sobol_fast_forward, sobol_reset, sobol_at. cbn [se_dim se_seed se_generated].
    rewrite D1, D2, Nnat.Nat2N.id. f_equal. f_equal. unfold sobol_num_skip. f_equal. destruct num_skip; lia.
Qed.

Theorem mf_sobol_points lhs st choice ent ds nf num_skip s z ns data rest :
  new_mf_sobol ds nf false num_skip = Ok s ->
  mf_get_samples lhs st choice ent s (Some z) ns = (Ok data, rest) ->
  length data = length ns /\
  forall i, i < length ns -> exists b,
    match ds with SharedSpace b' => b = b' | PerLevel bs => nth_error bs i = Some b end /\
    nth i data [] = map (scale_row scale_mul64 b) (map (st (mfs_dim s) (Seed z))
      (seq (match num_skip, ds with Some k, _ => N.to_nat k | None, SharedSpace b' => length b' | None, PerLevel bs => length bs end)
           (nth i ns 0))).
Proof.
  unfold new_mf_sobol. intros H E.
  assert (K : mfs_kind s = KSobol (mf_sobol_num_skip num_skip ds) /\ mfs_nested s = false).
  { destruct ds as [b|[|b bs]]; simpl in H; [destruct nf|..]; try discriminate; injection H as <-; auto. }
  destruct K as [K1 K2]. destruct (sobol_slices _ _ _ _ _ _ _ _ _ _ K1 K2 E) as [L P].
  split; [exact L|]. intros i Hi. destruct (P i Hi) as (b & B & ->). exists b. split.
  - destruct ds as [b'|[|b' bs]]; simpl in H; [destruct nf|..]; try discriminate; injection H as <-; simpl in B; auto.
    apply nth_error_In, repeat_spec in B. auto.
  - do 2 f_equal. f_equal. unfold mf_sobol_num_skip. destruct num_skip; auto. destruct ds; apply Nnat.Nat2N.id.
Qed.
