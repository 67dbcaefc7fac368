(** C134: what rounding does to the samples, and which samples are Latin hypercubes. *)
From Coq Require Import ZArith NArith Reals Bool List Lia.
From Flocq Require Import Core.
From Verif Require Import Fl NpList Spec Samplers SamplersSpec SamplersFacts SampFlSpec SampFlMain SampFlThms SampFlWit.
Import ListNotations.
Local Open Scope R_scope.

(** ** every sample is the scaled draw up to [slack] *)
Theorem C134_near_lhs : forall eng b n seed i j, lhs_ok eng -> moderate_box b -> (i < n)%nat -> (j < length b)%nat ->
  isfin (entry (lhs_get_samples eng b n seed) i j) = true /\
  Rabs (val (entry (lhs_get_samples eng b n seed) i j) - ideal (lower b j) (upper b j) (val (entry (eng (length b) seed n) i j)))
    <= slack (lower b j) (upper b j).
Proof. exact near_lhs. Qed.
Print Assumptions C134_near_lhs.
Theorem C134_near_random : forall {G} (np_seed : Z -> G) np_random b n seed g i j, np_random_ok np_random -> moderate_box b ->
  (i < n)%nat -> (j < length b)%nat ->
  let out := fst (random_get_samples np_seed np_random b n seed g) in
  isfin (entry out i j) = true /\
  Rabs (val (entry out i j) - ideal (lower b j) (upper b j) (val (entry (fst (np_random (np_seed seed) n (length b))) i j)))
    <= slack (lower b j) (upper b j).
Proof. exact @near_random. Qed.
Print Assumptions C134_near_random.
Theorem C134_near_sobol : forall st skip b n seed m w i j, stream_ok st -> moderate_box b ->
  sobol_get_samples st skip b n seed = Ok (m, w) -> (i < n)%nat -> (j < length b)%nat ->
  isfin (entry m i j) = true /\
  Rabs (val (entry m i j) - ideal (lower b j) (upper b j) (val (nth j (st (length b) seed (N.to_nat skip + i)%nat) f0)))
    <= slack (lower b j) (upper b j).
Proof. exact near_sobol. Qed.
Print Assumptions C134_near_sobol.

(** ** the order of the draws is kept *)
Theorem C134_order : forall eng b n seed i i' j, lhs_ok eng -> moderate_box b -> (i < n)%nat -> (i' < n)%nat -> (j < length b)%nat ->
  val (entry (eng (length b) seed n) i j) <= val (entry (eng (length b) seed n) i' j) ->
  fle (entry (lhs_get_samples eng b n seed) i j) (entry (lhs_get_samples eng b n seed) i' j) = true.
Proof. exact order_lhs. Qed.
Print Assumptions C134_order.

(** ** strata *)
Theorem C134_strata : forall eng b n seed j, lhs_ok eng -> moderate_box b -> (j < length b)%nat ->
  one_per_stratum 0 1 n (column j (reals (eng (length b) seed n))) ->
  nearly_one_per_stratum (lower b j) (upper b j) n (column j (reals (lhs_get_samples eng b n seed))).
Proof. exact strata_lhs. Qed.
Print Assumptions C134_strata.
Theorem C134_apart : forall eng b n seed i i' j k k', lhs_ok eng -> moderate_box b -> (i < n)%nat -> (i' < n)%nat -> (j < length b)%nat ->
  2 * slack (lower b j) (upper b j) < (upper b j - lower b j) / INR n ->
  in_stratum 0 1 n k (val (entry (eng (length b) seed n) i j)) ->
  in_stratum 0 1 n k' (val (entry (eng (length b) seed n) i' j)) -> (k + 2 <= k')%nat ->
  flt (entry (lhs_get_samples eng b n seed) i j) (entry (lhs_get_samples eng b n seed) i' j) = true.
Proof. exact apart_lhs. Qed.
Print Assumptions C134_apart.
(** On [1000, 1001] the draws 1/4 and 1/2 + 2^-53 become 1000.25 and 1000.5: the upper half is left empty. *)
Theorem C134_strata_exact_refuted : exists eng b seed, lhs_ok eng /\ moderate_box b /\ stratifies eng 2 /\
  lower b 0 = 1000 /\ upper b 0 = 1001 /\ length b = 1%nat /\
  ~ one_per_stratum (lower b 0) (upper b 0) 2 (column 0 (reals (lhs_get_samples eng b 2 seed))).
Proof.
  exact (ex_intro _ (table_lhs edge) (ex_intro _ thousand (ex_intro _ (Seed 0) (conj edge_ok (conj thousand_ok (conj edge_two
    (conj (proj1 thousand_bounds) (conj (proj2 thousand_bounds) (conj eq_refl strata_exact_false))))))))).
Qed.
Print Assumptions C134_strata_exact_refuted.

(** ** the multi-fidelity Latin hypercube *)
Theorem C134_levels : forall lhs st choice ent s seed ns data rest, lhs_ok lhs -> Forall (stratifies lhs) ns ->
  Forall moderate_box (mfs_spaces s) -> mfs_kind s = KLhs -> mfs_nested s = false ->
  mf_get_samples lhs st choice ent s seed ns = (Ok data, rest) ->
  length data = length ns /\ forall i, (i < length ns)%nat -> exists b, nth_error (mfs_spaces s) i = Some b /\
    forall j, (j < length b)%nat -> nearly_one_per_stratum (lower b j) (upper b j) (nth i ns O) (column j (reals (nth i data []))).
Proof. exact strata_levels. Qed.
Print Assumptions C134_levels.
(** nested or not, the last level is a Latin hypercube *)
Theorem C134_last_level : forall lhs st choice ent s seed ns data rest, lhs_ok lhs -> stratifies lhs (last ns O) ->
  Forall moderate_box (mfs_spaces s) -> mfs_kind s = KLhs ->
  mf_get_samples lhs st choice ent s seed ns = (Ok data, rest) ->
  exists b, nth_error (mfs_spaces s) (length ns - 1) = Some b /\
    forall j, (j < length b)%nat -> nearly_one_per_stratum (lower b j) (upper b j) (last ns O) (column j (reals (last data []))).
Proof. exact strata_nested. Qed.
Print Assumptions C134_last_level.
(** the others are not, when nested: two of four samples may lie in the same half *)
Theorem C134_nested_refuted : exists lhs st choice ent s ns data, lhs_ok lhs /\ Forall (stratifies lhs) ns /\ choice_ok choice /\
  Forall moderate_box (mfs_spaces s) /\ mfs_kind s = KLhs /\ mfs_nested s = true /\ ns = [2; 4]%nat /\
  mf_get_samples lhs st choice ent s (Some 0%Z) ns = (Ok data, []) /\
  exists b, nth_error (mfs_spaces s) 0 = Some b /\ length b = 1%nat /\
    ~ nearly_one_per_stratum (lower b 0) (upper b 0) 2 (column 0 (reals (nth 0 data []))).
Proof.
  exists (table_lhs grid), geo_stream, first_choice, (fun _ => 0%Z), nested_lhs, [2; 4]%nat, nested_data.
  split; [exact grid_ok|]. split; [exact (Forall_cons _ grid_two (Forall_cons _ grid_four (Forall_nil _)))|].
  split; [exact first_choice_ok|]. split; [exact (Forall_cons _ unit_box_ok (Forall_cons _ unit_box_ok (Forall_nil _)))|].
  split; [reflexivity|]. split; [reflexivity|]. split; [reflexivity|]. split; [exact (nested_run geo_stream (fun _ => 0%Z))|].
  exists unit_box. split; [reflexivity|]. split; [reflexivity|]. exact nested_not_strata.
Qed.
Print Assumptions C134_nested_refuted.

(** the hypotheses hold for four points on [1000, 1001], where the strata are much wider than the slack *)
Example C134_example : lhs_ok (table_lhs grid) /\ moderate_box thousand /\ stratifies (table_lhs grid) 4 /\
  2 * slack (lower thousand 0) (upper thousand 0) < (upper thousand 0 - lower thousand 0) / INR 4 /\
  in_stratum 0 1 4 0 (val (entry (table_lhs grid 1%nat (Seed 0) 4%nat) 0 0)) /\ in_stratum 0 1 4 2 (val (entry (table_lhs grid 1%nat (Seed 0) 4%nat) 2 0)) /\
  mk_mf_sampler (PerLevel [unit_box; unit_box]) None true KLhs = Ok nested_lhs.
Proof. exact strata_example. Qed.
