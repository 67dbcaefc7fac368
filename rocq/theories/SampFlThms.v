(** The samplers in binary64: accuracy, order and strata. *)
From Coq Require Import ZArith NArith Reals Bool List Lia Lra Psatz.
From Flocq Require Import Core IEEE754.BinarySingleNaN.
From Verif Require Import Fl FlFacts FlErr OutputFlFacts NpList NpFacts Spec Samplers SamplersSpec SamplersFacts SampFlSpec SampFlMain.
Import ListNotations.
Local Open Scope R_scope.

Lemma open_rows d m : Forall (unit_row unit_open d) m -> Forall (unit_row unit_closed d) m.
Proof. apply Forall_impl. intros r [L U]. split; [exact L|]. revert U. apply Forall_impl. apply unit_open_closed. Qed.
Lemma moderate_ok b : moderate_box b -> box_ok b.
Proof.
  apply Forall_impl. intros [lo hi] (F1 & F2 & O & B1 & B2). cbn [fst snd] in *. unfold val in *. repeat split; auto; [now apply fle_finite|].
  assert (1 <= big) by (change 1 with (bpow radix2 0); apply bpow_le; lia). change (bpow radix2 1000) with big in *.
  apply fsub_spec; auto. apply rnd_room. apply Rabs_le. apply Rabs_le_inv in B1. apply Rabs_le_inv in B2. lra.
Qed.

(** ** every sampler *)
Lemma near_lhs eng b n seed i j : lhs_ok eng -> moderate_box b -> (i < n)%nat -> (j < length b)%nat ->
  isfin (entry (lhs_get_samples eng b n seed) i j) = true /\
  Rabs (val (entry (lhs_get_samples eng b n seed) i j) - ideal (lower b j) (upper b j) (val (entry (eng (length b) seed n) i j)))
    <= slack (lower b j) (upper b j).
Proof. intros E B I J. destruct (E (length b) seed n) as [L U]. apply near_array; auto. now rewrite L. Qed.
Lemma near_random {G} (np_seed : Z -> G) np_random b n seed g i j : np_random_ok np_random -> moderate_box b -> (i < n)%nat -> (j < length b)%nat ->
  let out := fst (random_get_samples np_seed np_random b n seed g) in
  isfin (entry out i j) = true /\
  Rabs (val (entry out i j) - ideal (lower b j) (upper b j) (val (entry (fst (np_random (np_seed seed) n (length b))) i j)))
    <= slack (lower b j) (upper b j).
Proof.
  intros E B I J. unfold random_get_samples. destruct (E (np_seed seed) n (length b)) as [L U].
  destruct (np_random (np_seed seed) n (length b)) as [s g']. cbn [fst] in *. apply near_array; auto; [now apply open_rows|now rewrite L].
Qed.
Lemma near_sobol st skip b n seed m w i j : stream_ok st -> moderate_box b -> sobol_get_samples st skip b n seed = Ok (m, w) ->
  (i < n)%nat -> (j < length b)%nat ->
  isfin (entry m i j) = true /\
  Rabs (val (entry m i j) - ideal (lower b j) (upper b j) (val (nth j (st (length b) seed (N.to_nat skip + i)%nat) f0)))
    <= slack (lower b j) (upper b j).
Proof.
  intros S B H I J. unfold sobol_get_samples in H.
  destruct (sobol_random_base2 _ _ _) as [[m1 e1]|] eqn:R0; cbn [bind] in H; [|discriminate].
  destruct (sobol_random _ _ _) as [[m2 e2]|] eqn:R; cbn [bind fst snd] in H; [|discriminate].
  apply sobol_random_ok in R. apply sobol_base2_keeps in R0 as [D0 S0]. simpl in D0, S0, R. rewrite D0, S0 in R. injection H as <- <-.
  rewrite Nat2N.id in R.
  assert (U : Forall (unit_row unit_closed (length b)) m2) by (apply open_rows; rewrite R; apply Forall_map, Forall_forall; intros; apply S).
  assert (L : length m2 = n) by (rewrite R, map_length; apply seq_length).
  pose proof (near_array b m2 B U i j ltac:(lia) J) as N.
  replace (entry m2 i j) with (nth j (st (length b) seed (N.to_nat skip + i)%nat) f0) in N; [exact N|].
  unfold entry. rewrite R. rewrite (nth_indep _ [] (st (length b) seed O)) by (rewrite map_length, seq_length; lia).
  rewrite map_nth, seq_nth by exact I. reflexivity.
Qed.
Lemma order_lhs eng b n seed i i' j : lhs_ok eng -> moderate_box b -> (i < n)%nat -> (i' < n)%nat -> (j < length b)%nat ->
  val (entry (eng (length b) seed n) i j) <= val (entry (eng (length b) seed n) i' j) ->
  fle (entry (lhs_get_samples eng b n seed) i j) (entry (lhs_get_samples eng b n seed) i' j) = true.
Proof. intros E B I I' J. destruct (E (length b) seed n) as [L U]. apply order_array; auto; now rewrite L. Qed.

Lemma scaled_strata b m j : moderate_box b -> Forall (unit_row unit_closed (length b)) m -> (j < length b)%nat ->
  one_per_stratum 0 1 (length m) (column j (reals m)) ->
  nearly_one_per_stratum (lower b j) (upper b j) (length m) (column j (reals (map (scale_row scale_lb64 b) m))).
Proof.
  intros B U J S. set (m' := map (scale_row scale_lb64 b) m). assert (L : length m' = length m) by apply map_length.
  split; [unfold column, reals; now rewrite !map_length|]. split.
  - intros k K. destruct (wide b m B U j J S k K) as (i & I & W). exists i. split; [exact I|]. rewrite (column_at m') by (apply (Nat.lt_le_trans _ _ _ I), Nat.eq_le_incl; symmetry; exact L). exact W.
  - intros k i i' K I I' A A'. rewrite (column_at m') in A by (apply (Nat.lt_le_trans _ _ _ I), Nat.eq_le_incl; symmetry; exact L). rewrite (column_at m') in A' by (apply (Nat.lt_le_trans _ _ _ I'), Nat.eq_le_incl; symmetry; exact L). exact (narrow b m B U j J S k i i' K I I' A A').
Qed.
Lemma strata_lhs eng b n seed j : lhs_ok eng -> moderate_box b -> (j < length b)%nat ->
  one_per_stratum 0 1 n (column j (reals (eng (length b) seed n))) ->
  nearly_one_per_stratum (lower b j) (upper b j) n (column j (reals (lhs_get_samples eng b n seed))).
Proof.
  intros E B J S. destruct (E (length b) seed n) as [L U]. unfold lhs_get_samples.
  pose proof (scaled_strata b _ j B U J) as G. rewrite L in G. exact (G S).
Qed.
Lemma apart_lhs eng b n seed i i' j k k' : lhs_ok eng -> moderate_box b -> (i < n)%nat -> (i' < n)%nat -> (j < length b)%nat ->
  2 * slack (lower b j) (upper b j) < (upper b j - lower b j) / INR n ->
  in_stratum 0 1 n k (val (entry (eng (length b) seed n) i j)) -> in_stratum 0 1 n k' (val (entry (eng (length b) seed n) i' j)) -> (k + 2 <= k')%nat ->
  flt (entry (lhs_get_samples eng b n seed) i j) (entry (lhs_get_samples eng b n seed) i' j) = true.
Proof.
  intros E B I I' J W A A' K. destruct (E (length b) seed n) as [L U].
  apply (apart b _ B U j J k k'); rewrite ?L; auto.
Qed.

(** ** the multi-fidelity sampler *)
Lemma mul_rows b m : box_ok b -> Forall (unit_row unit_closed (length b)) m -> map (scale_row scale_mul64 b) m = map (scale_row scale_lb64 b) m.
Proof.
  intros B U. apply map_ext_in. intros r I. rewrite Forall_forall in U. destruct (U r I) as [L V]. clear U I. unfold scale_row. revert r L V.
  induction B as [|lh b H B IH]; intros [|u r] L V; try discriminate; [reflexivity|]. cbn [map2]. inversion V; subst. f_equal; [now apply scale_mul_lb|].
  apply IH; [now injection L|assumption].
Qed.
Lemma strata_level lhs st ent s seed n fid x : lhs_ok lhs -> stratifies lhs n -> Forall moderate_box (mfs_spaces s) -> mfs_kind s = KLhs ->
  mf_non_nested lhs st ent s seed n fid = Ok x ->
  exists b, nth_error (mfs_spaces s) fid = Some b /\
    (forall j, (j < length b)%nat -> nearly_one_per_stratum (lower b j) (upper b j) n (column j (reals x))) /\ length x = n.
Proof.
  intros HL HS HB HK H. unfold mf_non_nested in H. rewrite HK in H. unfold mf_scale in H.
  destruct (nth_error (mfs_spaces s) fid) as [b|] eqn:E; [|discriminate].
  destruct (Nat.eqb_spec (length b) (mfs_dim s)) as [Eb|]; [|discriminate]. injection H as <-.
  exists b. split; [reflexivity|]. pose proof (nth_error_In _ _ E) as Hin. rewrite Forall_forall in HB. specialize (HB b Hin).
  set (sd := match seed with Some z => Seed (z + Z.of_nat fid) | None => Entropy (ent fid) end).
  rewrite <- Eb. destruct (HL (length b) sd n) as (L & U). split; [|rewrite map_length; exact L].
  intros j J. rewrite mul_rows; [|now apply moderate_ok|exact U].
  pose proof (scaled_strata b _ j HB U J) as G. rewrite L in G. apply G. now apply HS.
Qed.
Lemma mf_non_nested_length lhs st ent s seed n fid x : lhs_ok lhs -> mfs_kind s = KLhs -> mf_non_nested lhs st ent s seed n fid = Ok x -> length x = n.
Proof.
  intros HL HK. unfold mf_non_nested, mf_scale. rewrite HK. destruct (nth_error _ _) as [b|]; [|discriminate]. destruct (Nat.eqb _ _); [|discriminate].
  intros [= <-]. rewrite map_length. apply HL.
Qed.
Lemma strata_levels lhs st choice ent s seed ns data rest : lhs_ok lhs -> Forall (stratifies lhs) ns -> Forall moderate_box (mfs_spaces s) ->
  mfs_kind s = KLhs -> mfs_nested s = false ->
  mf_get_samples lhs st choice ent s seed ns = (Ok data, rest) ->
  length data = length ns /\ forall i, (i < length ns)%nat -> exists b, nth_error (mfs_spaces s) i = Some b /\
    forall j, (j < length b)%nat -> nearly_one_per_stratum (lower b j) (upper b j) (nth i ns O) (column j (reals (nth i data []))).
Proof.
  intros HL HS HB HK HN E.
  destruct (get_inv lhs st choice ent s seed
     (fun i n x => stratifies lhs n -> exists b, nth_error (mfs_spaces s) i = Some b /\
        forall j, (j < length b)%nat -> nearly_one_per_stratum (lower b j) (upper b j) n (column j (reals x)))
     (fun _ _ _ => True)) with (3 := E) as (_ & R2 & R3 & R4 & _).
  - intros n fid x H. split; [|apply (mf_non_nested_length _ _ _ _ _ _ _ _ HL HK H)]. intros S.
    destruct (strata_level _ _ _ _ _ _ _ _ HL S HB HK H) as (b & ? & ? & ?). eauto.
  - intros k n fid below x _ H _. rewrite HN in H. split; [|split; [apply (mf_non_nested_length _ _ _ _ _ _ _ _ HL HK H)|easy]]. intros S.
    destruct (strata_level _ _ _ _ _ _ _ _ HL S HB HK H) as (b & ? & ? & ?). eauto.
  - split; [exact R2|]. intros i Hi. apply R4; [lia|]. rewrite Forall_forall in HS. apply HS. now apply nth_In.
Qed.
Lemma get_level lhs st choice ent s seed ns data rest : mf_get_samples lhs st choice ent s seed ns = (Ok data, rest) ->
  exists x, mf_non_nested lhs st ent s seed (last ns O) (length ns - 1) = Ok x /\ last data [] = x.
Proof.
  unfold mf_get_samples. destruct (mf_rules ns); [|discriminate]. destruct (rev ns) as [|n todo] eqn:R; [discriminate|].
  assert (E : ns = rev todo ++ [n]) by (rewrite <- (rev_involutive ns), R; reflexivity).
  rewrite E, last_last, app_length, rev_length. cbn [length]. replace (length todo + 1 - 1)%nat with (length todo) by lia.
  destruct (mf_non_nested lhs st ent s seed n (length todo)) as [x|]; [|discriminate]. intros H. exists x. split; [reflexivity|].
  assert (G : forall todo k data r rem, mf_loop lhs st choice ent s seed k todo data = (Ok r, rem) -> data <> [] -> last r [] = last data []).
  { clear. induction todo as [|n todo IH]; intros k data r rem H N; cbn [mf_loop] in H; [now injection H as <- <-|].
    destruct (if mfs_nested s then _ else _) as [y|]; [|discriminate]. rewrite (IH _ _ _ _ H) by discriminate. now destruct data. }
  destruct (mf_loop lhs st choice ent s seed 0 todo [x]) as [r rem] eqn:L. injection H as -> <-. exact (G _ _ _ _ _ L ltac:(discriminate)).
Qed.
Lemma strata_nested lhs st choice ent s seed ns data rest : lhs_ok lhs -> stratifies lhs (last ns O) -> Forall moderate_box (mfs_spaces s) ->
  mfs_kind s = KLhs -> mf_get_samples lhs st choice ent s seed ns = (Ok data, rest) ->
  exists b, nth_error (mfs_spaces s) (length ns - 1) = Some b /\
    forall j, (j < length b)%nat -> nearly_one_per_stratum (lower b j) (upper b j) (last ns O) (column j (reals (last data []))).
Proof.
  intros HL HS HB HK E. destruct (get_level _ _ _ _ _ _ _ _ _ E) as (x & H & X).
  destruct (strata_level _ _ _ _ _ _ _ _ HL HS HB HK H) as (b & A & B & _). exists b. split; [exact A|]. now rewrite X.
Qed.
