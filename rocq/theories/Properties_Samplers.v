(** Properties C01-C11: the samplers. *)
From Coq Require Import ZArith NArith Reals Bool List Lia Lra.
From Verif Require Import Fl NpList Spec Samplers SamplersSpec SamplersFacts.
Import ListNotations.

(** Example data. *)
Definition box2 : box := [(fz (-5), fz 10); (fz 0, fz 15)].
Definition half : b64 := fbin 1 (-1).
Example box2_ok : box_ok box2 /\ box_tight box2.
Proof. split; repeat constructor. Qed.
Example half_unit : unit_open half.
Proof. apply unit_open_b. reflexivity. Qed.

(** ** C01 containment *)
Theorem C01_lhs_in_box : forall eng b n seed,
  lhs_ok eng -> box_ok b -> box_tight b ->
  length (lhs_get_samples eng b n seed) = n /\ Forall (in_box b) (lhs_get_samples eng b n seed).
Proof. exact lhs_in_box. Qed.
Print Assumptions C01_lhs_in_box.

Theorem C01_lhs_lower_bound : forall eng b n seed, lhs_ok eng -> box_ok b ->
  Forall (fun r => Forall2 (fun lh x => fle (fst lh) x = true) b r) (lhs_get_samples eng b n seed).
Proof. exact lhs_lower. Qed.
Print Assumptions C01_lhs_lower_bound.

Theorem C01_random_in_box : forall {G} (np_seed : Z -> G) np_random b n seed g,
  np_random_ok np_random -> box_ok b ->
  length (fst (random_get_samples np_seed np_random b n seed g)) = n /\
  Forall (in_box b) (fst (random_get_samples np_seed np_random b n seed g)).
Proof. exact @random_in_box. Qed.
Print Assumptions C01_random_in_box.

Theorem C01_sobol_in_box : forall st skip b n seed m w,
  stream_ok st -> box_ok b -> sobol_get_samples st skip b n seed = Ok (m, w) ->
  length m = n /\ Forall (in_box b) m.
Proof. exact sobol_in_box. Qed.
Print Assumptions C01_sobol_in_box.

Theorem C01_exact_in_box : forall (b : list (R * R)) (m : list (list R)),
  Forall (fun lh => (fst lh <= snd lh)%R) b ->
  Forall (fun r => length r = length b /\ Forall (fun u => (0 <= u <= 1)%R) r) m ->
  Forall (Forall2 (fun lh x => (fst lh <= x <= snd lh)%R) b) (map (scale_row scale_lbR b) m).
Proof. exact exact_in_box. Qed.
Print Assumptions C01_exact_in_box.

(** Without tightness a Latin hypercube sample can exceed the upper bound: [-3, 0.1], draw 1. *)
Definition loose_box : box := [(fz (-3), fbin 0x1999999999999a (-56))].
Theorem C01_lhs_upper_bound_refuted : exists eng b n seed,
  lhs_ok eng /\ box_ok b /\ Exists (Exists (fun x => flt (fbin 0x1999999999999a (-56)) x = true))
    (lhs_get_samples eng b n seed) /\ b = [(fz (-3), fbin 0x1999999999999a (-56))].
Proof.
  exists (const_lhs f1), loose_box, 1, (Seed 0). split; [|split; [|split; [|reflexivity]]].
  - apply const_lhs_ok. apply unit_closed_b. reflexivity.
  - repeat constructor.
  - apply Exists_cons_hd. apply Exists_cons_hd. reflexivity.
Qed.
Print Assumptions C01_lhs_upper_bound_refuted.

Example C01_example : lhs_ok (const_lhs half) /\ box_ok box2 /\ box_tight box2 /\
  map (map (fun x => feq x (fbin 5 (-1)))) (lhs_get_samples (const_lhs half) box2 2 (Seed 7)) =
  [[true; false]; [true; false]].
Proof.
  split; [apply const_lhs_ok; apply unit_closed_b; reflexivity|]. destruct box2_ok. repeat split; auto.
Qed.

(** ** C02 stratification *)
Theorem C02_lhs_stratified : forall (b : list (R * R)) (m : list (list R)) n,
  (forall j, j < length b -> (fst (nth j b (0,0)) < snd (nth j b (0,0)))%R) ->
  Forall (fun r => length r = length b) m ->
  (forall j, j < length b -> one_per_stratum 0 1 n (column j m)) ->
  forall j, j < length b ->
    one_per_stratum (fst (nth j b (0,0)))%R (snd (nth j b (0,0)))%R n (column j (map (scale_row scale_lbR b) m)).
Proof. exact lhs_stratified. Qed.
Print Assumptions C02_lhs_stratified.

Example C02_example : one_per_stratum 0 1 2 (column 0 [[1%R]; [(1/4)%R]]).
Proof.
  split; [reflexivity|]. intros [|[|k]] Hk; [exists 1|exists 0|lia].
  - split; [lia|]. unfold in_stratum, column; simpl. split; [lra|].
    intros [|[|i]] Hi H; try lia; lra.
  - split; [lia|]. unfold in_stratum, column; simpl. split; [lra|].
    intros [|[|i]] Hi H; try lia; lra.
Qed.

(** ** C03 FixNumberSampler *)
Theorem C03_fix_number : forall {T} (b : list (T * T)) n seed,
  length (fix_number_get_samples b n seed) = n /\
  forall r, In r (fix_number_get_samples b n seed) ->
    length r = 2 * length b /\ forall j lh, nth_error b j = Some lh ->
      nth_error r (2 * j) = Some (fst lh) /\ nth_error r (2 * j + 1) = Some (snd lh).
Proof. exact @fix_number_rows. Qed.
Print Assumptions C03_fix_number.

Example C03_example : fix_number_get_samples [(1, 2); (3, 4)] 2 7 = [[1; 2; 3; 4]; [1; 2; 3; 4]].
Proof. reflexivity. Qed.

(** ** C04 non-nested multi-fidelity sampling *)
Theorem C04_non_nested_levels : forall lhs st choice ent s seed ns,
  lhs_ok lhs -> stream_ok st -> spaces_ok s -> kind_tight s -> mfs_nested s = false ->
  mf_rules ns = true -> ns <> [] -> length ns <= length (mfs_spaces s) -> Forall (kind_budget s) ns ->
  exists data, mf_get_samples lhs st choice ent s seed ns = (Ok data, []) /\
    length data = length ns /\
    forall i b, i < length ns -> nth_error (mfs_spaces s) i = Some b ->
      length (nth i data []) = nth i ns 0 /\ Forall (in_box b) (nth i data []).
Proof. exact non_nested_levels. Qed.
Print Assumptions C04_non_nested_levels.

Definition box2' : box := [(fz (-1), fz 1); (fz 0, fz 2)].
Definition sampler2 (nested : bool) (k : mf_kind) : mf_sampler :=
  {| mfs_spaces := [box2'; box2]; mfs_dim := 2; mfs_nested := nested; mfs_kind := k |}.
Example C04_example : forall nested,
  lhs_ok (const_lhs half) /\ stream_ok geo_stream /\ choice_ok first_choice /\
  spaces_ok (sampler2 nested KLhs) /\ kind_tight (sampler2 nested KLhs) /\
  spaces_ok (sampler2 nested (KSobol 2)) /\ kind_tight (sampler2 nested (KSobol 2)) /\
  mf_rules [2; 3] = true /\ Forall (kind_budget (sampler2 nested (KSobol 2))) [2; 3] /\
  mk_mf_sampler (PerLevel [box2'; box2]) None nested KLhs = Ok (sampler2 nested KLhs).
Proof.
  intros. split; [apply const_lhs_ok, unit_closed_b; reflexivity|]. split; [apply geo_stream_ok|].
  split; [apply first_choice_ok|].
  repeat split; repeat constructor; unfold kind_budget; simpl; lia.
Qed.

(** samplers built from one shared design space *)
Theorem C04_shared_lhs : forall lhs st choice ent b m nested seed ns,
  lhs_ok lhs -> stream_ok st -> choice_ok choice -> box_ok b -> box_tight b ->
  mf_rules ns = true -> ns <> [] -> length ns <= m ->
  exists s data, new_mf_lhs (SharedSpace b) (Some m) nested = Ok s /\
    mf_get_samples lhs st choice ent s seed ns = (Ok data, []) /\ levels_ok b ns data.
Proof. exact shared_lhs. Qed.
Print Assumptions C04_shared_lhs.
Theorem C04_shared_sobol : forall lhs st choice ent b m nested num_skip seed ns,
  lhs_ok lhs -> stream_ok st -> choice_ok choice -> box_ok b ->
  mf_rules ns = true -> ns <> [] -> length ns <= m ->
  Forall (fun n => (match num_skip with Some k => k | None => N.of_nat (length b) end + N.of_nat n <= N.pow 2 30)%N) ns ->
  exists s data, new_mf_sobol (SharedSpace b) (Some m) nested num_skip = Ok s /\
    mf_get_samples lhs st choice ent s seed ns = (Ok data, []) /\ levels_ok b ns data.
Proof. exact shared_sobol. Qed.
Print Assumptions C04_shared_sobol.
Example C04_shared_example : box_ok box2 /\ box_tight box2 /\ mf_rules [2; 3] = true /\
  Forall (fun n => (N.of_nat (length box2) + N.of_nat n <= N.pow 2 30)%N) [2; 3].
Proof. repeat split; repeat constructor; vm_compute; discriminate. Qed.

(** ** C05 nested sampling *)
Theorem C05_nested_levels : forall lhs st choice ent s seed ns,
  lhs_ok lhs -> stream_ok st -> choice_ok choice -> spaces_ok s -> kind_tight s -> mfs_nested s = true ->
  mf_rules ns = true -> ns <> [] -> length ns <= length (mfs_spaces s) -> Forall (kind_budget s) ns ->
  exists data b, mf_get_samples lhs st choice ent s seed ns = (Ok data, []) /\
    length data = length ns /\
    nth_error (mfs_spaces s) (length ns - 1) = Some b /\
    (forall i, i < length ns -> length (nth i data []) = nth i ns 0 /\ Forall (in_box b) (nth i data [])) /\
    (forall i, S i < length ns -> distinct_rows_of (nth i data []) (nth (S i) data []) (nth i ns 0)).
Proof. exact nested_levels. Qed.
Print Assumptions C05_nested_levels.

(** ** C06 the count rule *)
Theorem C06_rule_violation : forall lhs st choice ent s seed ns,
  (exists i, S i < length ns /\ nth (S i) ns 0 < nth i ns 0) ->
  mf_get_samples lhs st choice ent s seed ns = (Raise AssertionError, ns).
Proof. exact rules_error. Qed.
Print Assumptions C06_rule_violation.

Theorem C06_rule_only : forall lhs st choice ent s seed ns,
  fst (mf_get_samples lhs st choice ent s seed ns) = Raise AssertionError ->
  exists i, S i < length ns /\ nth (S i) ns 0 < nth i ns 0.
Proof. exact rules_error_only. Qed.
Print Assumptions C06_rule_only.

Example C06_example : fst (mf_get_samples (const_lhs half) geo_stream first_choice (fun _ => 0%Z)
  (sampler2 false KLhs) (Some 1%Z) [3; 2]) = Raise AssertionError.
Proof. reflexivity. Qed.

(** ** C07 the caller's list is consumed *)
Theorem C07_list_consumed : forall lhs st choice ent s seed ns data rest,
  mf_get_samples lhs st choice ent s seed ns = (Ok data, rest) ->
  rest = [] /\ mf_get_samples lhs st choice ent s seed rest = (Raise IndexError, []).
Proof. exact list_consumed. Qed.
Print Assumptions C07_list_consumed.

Example C07_example : exists data, mf_get_samples (const_lhs half) geo_stream first_choice (fun _ => 0%Z)
  (sampler2 false KLhs) (Some 1%Z) [2; 3] = (Ok data, []).
Proof. eexists. reflexivity. Qed.

(** after a failure the counts of the failing level and of all lower fidelities are gone *)
Theorem C07_list_after_failure : forall lhs st choice ent s seed ns e rest,
  mfs_nested s = false -> mf_get_samples lhs st choice ent s seed ns = (Raise e, rest) ->
  (e = AssertionError /\ rest = ns) \/ (e = IndexError /\ ns = [] /\ rest = []) \/
  exists i, i < length ns /\ rest = firstn i ns /\ mf_non_nested lhs st ent s seed (nth i ns 0) i = Raise e.
Proof. exact list_after_failure. Qed.
Print Assumptions C07_list_after_failure.
Example C07_failure_example : mf_get_samples (const_lhs half) geo_stream first_choice (fun _ => 0%Z)
  (sampler2 false KLhs) (Some 1%Z) [1; 2; 3] = (Raise IndexError, [1; 2]).
Proof. reflexivity. Qed.

(** ** C08 Sobol prefixes *)
Theorem C08_sobol_slices : forall lhs st choice ent s z skip ns data rest,
  mfs_kind s = KSobol skip -> mfs_nested s = false ->
  mf_get_samples lhs st choice ent s (Some z) ns = (Ok data, rest) ->
  length data = length ns /\
  forall i, i < length ns -> exists b, nth_error (mfs_spaces s) i = Some b /\
    nth i data [] = map (scale_row scale_mul64 b) (map (st (mfs_dim s) (Seed z)) (seq (N.to_nat skip) (nth i ns 0))).
Proof. exact sobol_slices. Qed.
Print Assumptions C08_sobol_slices.

Theorem C08_sobol_prefix : forall lhs st choice ent s z skip ns data rest b,
  mfs_kind s = KSobol skip -> mfs_nested s = false -> Forall (fun b' => b' = b) (mfs_spaces s) ->
  mf_get_samples lhs st choice ent s (Some z) ns = (Ok data, rest) ->
  forall i, S i < length ns -> prefix_of (nth i data []) (nth (S i) data []).
Proof. exact sobol_prefix. Qed.
Print Assumptions C08_sobol_prefix.

Example C08_example : exists s data, mk_mf_sampler (SharedSpace box2) (Some 2) false (KSobol 2) = Ok s /\
  Forall (fun b' => b' = box2) (mfs_spaces s) /\
  mf_get_samples (const_lhs half) geo_stream first_choice (fun _ => 0%Z) s (Some 1%Z) [2; 3] = (Ok data, []).
Proof. do 2 eexists. split; [reflexivity|]. split; [repeat constructor|]. reflexivity. Qed.

(** ** C09 reproducibility *)
Theorem C09_non_nested_reproducible : forall lhs st s z ns c1 c2 e1 e2,
  mfs_nested s = false ->
  mf_get_samples lhs st c1 e1 s (Some z) ns = mf_get_samples lhs st c2 e2 s (Some z) ns.
Proof. exact non_nested_reproducible. Qed.
Print Assumptions C09_non_nested_reproducible.

Theorem C09_sobol_reproducible : forall lhs st s z skip ns c1 c2 e1 e2,
  mfs_kind s = KSobol skip ->
  mf_get_samples lhs st c1 e1 s (Some z) ns = mf_get_samples lhs st c2 e2 s (Some z) ns.
Proof. exact nested_sobol_reproducible. Qed.
Print Assumptions C09_sobol_reproducible.

Theorem C09_random_sampler_reproducible : forall {G} (np_seed : Z -> G) np_random b n seed g1 g2,
  random_get_samples np_seed np_random b n seed g1 = random_get_samples np_seed np_random b n seed g2.
Proof. exact @random_deterministic. Qed.
Print Assumptions C09_random_sampler_reproducible.

(** Nested Latin hypercube sampling depends on the global generator. *)
Definition ramp_lhs : lhs_engine := fun d _ n => map (fun i => repeat (fbin 1 (- Z.of_nat (S (Nat.min i 7)))) d) (seq 0 n).
Lemma ramp_lhs_ok : lhs_ok ramp_lhs.
Proof.
  intros d s n. unfold ramp_lhs. split; [now rewrite map_length, seq_length|].
  apply Forall_map. apply Forall_forall. intros i _.
  destruct (geo_stream_ok d s i) as [L U]. split; [exact L|].
  eapply Forall_impl; [|exact U]. apply unit_open_closed.
Qed.
Theorem C09_nested_lhs_refuted : exists lhs st s z ns c1 c2 ent,
  lhs_ok lhs /\ stream_ok st /\ choice_ok c1 /\ choice_ok c2 /\ spaces_ok s /\ kind_tight s /\
  mf_rules ns = true /\
  mf_get_samples lhs st c1 ent s (Some z) ns <> mf_get_samples lhs st c2 ent s (Some z) ns.
Proof.
  exists ramp_lhs, geo_stream, (sampler2 true KLhs), 1%Z, [1; 2], first_choice, last_choice, (fun _ => 0%Z).
  split; [apply ramp_lhs_ok|]. split; [apply geo_stream_ok|]. split; [apply first_choice_ok|].
  split; [apply last_choice_ok|]. destruct (C04_example true) as (_&_&_&A&B&_).
  split; [exact A|]. split; [exact B|]. split; [reflexivity|].
  intros H.
  assert (E : forall x y : result (list mat) * list nat, x = y ->
     match fst x with Ok ((r :: _) :: _) => feq (hd f0 r) (fbin 5 (-1)) | _ => false end =
     match fst y with Ok ((r :: _) :: _) => feq (hd f0 r) (fbin 5 (-1)) | _ => false end) by (intros ? ? ->; reflexivity).
  apply E in H. cut (true = false); [discriminate|exact H].
Qed.
Print Assumptions C09_nested_lhs_refuted.

(** ** C10 a nested level need not lie in its own box *)
Theorem C10_nested_own_box_refuted : exists lhs st choice ent s seed ns data b0,
  lhs_ok lhs /\ stream_ok st /\ choice_ok choice /\ spaces_ok s /\ kind_tight s /\ mfs_nested s = true /\
  mf_get_samples lhs st choice ent s seed ns = (Ok data, []) /\
  nth_error (mfs_spaces s) 0 = Some b0 /\ ~ Forall (in_box b0) (nth 0 data []).
Proof.
  exists (const_lhs half), geo_stream, first_choice, (fun _ => 0%Z), (sampler2 true KLhs), (Some 1%Z), [1; 2].
  destruct (C04_example true) as (A&B&C&D&E&_).
  eexists. exists box2'. repeat (split; [eassumption || reflexivity|]).
  intros H. inversion H as [|? ? H1 _]; subst. inversion H1 as [|? ? ? ? H2 _]; subst. destruct H2 as [_ H2].
  cut (false = true); [discriminate|exact H2].
Qed.
Print Assumptions C10_nested_own_box_refuted.

(** ** C11 Sobol budget *)
Theorem C11_sobol_too_many : forall st skip b n seed, (30 < n)%nat ->
  exists e, sobol_get_samples st skip b n seed = Raise e.
Proof. exact sobol_too_many. Qed.
Print Assumptions C11_sobol_too_many.

Theorem C11_sobol_work : forall st skip b n seed, (n <= 30)%nat -> (skip + N.of_nat n <= N.pow 2 30)%N ->
  exists m, sobol_get_samples st skip b n seed = Ok (m, N.pow 2 (N.of_nat n)).
Proof. exact sobol_small. Qed.
Print Assumptions C11_sobol_work.

Example C11_example : (30 < 31)%nat /\ (5 <= 30)%nat /\ (sobol_num_skip None box2 + N.of_nat 5 <= N.pow 2 30)%N.
Proof. repeat split; try lia. vm_compute. discriminate. Qed.

(** ** C79 which points of the Sobol sequence are used *)
Theorem C79_sobol_points : forall st num_skip b n seed m w,
  new_sobol_samples st num_skip b n seed = Ok (m, w) ->
  m = map (scale_row scale_lb64 b) (map (st (length b) seed)
        (seq (match num_skip with Some k => N.to_nat k | None => length b end) n)).
Proof. exact sobol_points. Qed.
Print Assumptions C79_sobol_points.
Example C79_example : exists m w, new_sobol_samples geo_stream None box2 3 (Seed 1) = Ok (m, w).
Proof. do 2 eexists. reflexivity. Qed.
Theorem C79_mf_sobol_points : forall lhs st choice ent ds nf num_skip s z ns data rest,
  new_mf_sobol ds nf false num_skip = Ok s ->
  mf_get_samples lhs st choice ent s (Some z) ns = (Ok data, rest) ->
  length data = length ns /\
  forall i, i < length ns -> exists b,
    match ds with SharedSpace b' => b = b' | PerLevel bs => nth_error bs i = Some b end /\
    nth i data [] = map (scale_row scale_mul64 b) (map (st (mfs_dim s) (Seed z))
      (seq (match num_skip, ds with Some k, _ => N.to_nat k | None, SharedSpace b' => length b' | None, PerLevel bs => length bs end)
           (nth i ns 0))).
Proof. exact mf_sobol_points. Qed.
Print Assumptions C79_mf_sobol_points.
