(** Latin hypercubes on which rounding matters, and nested samples that are not one. *)
From Coq Require Import ZArith NArith Reals Bool List Lia Lra Psatz.
From Flocq Require Import Core IEEE754.BinarySingleNaN.
From Verif Require Import Fl FlFacts FlErr NpList NpFacts Spec Samplers SamplersSpec SamplersFacts SampFlSpec SampFlMain SampFlThms AcqFlFacts.
Import ListNotations.
Local Open Scope R_scope.

(** an engine that repeats a table of [n] numbers on every axis *)
Definition table_lhs (t : nat -> list b64) : lhs_engine := fun d _ n => map (fun u => repeat u d) (t n).
Lemma table_ok t : (forall n, length (t n) = n /\ Forall unit_closed (t n)) -> lhs_ok (table_lhs t).
Proof.
  intros H d s n. destruct (H n) as [L U]. unfold table_lhs. split; [now rewrite map_length|]. apply Forall_map. revert U. apply Forall_impl.
  intros u Hu. split; [apply repeat_length|]. apply Forall_forall. intros x I. apply repeat_spec in I. now subst.
Qed.
Lemma table_column t d s n j : (j < d)%nat -> column j (reals (table_lhs t d s n)) = map val (t n).
Proof.
  intros J. unfold column, reals, table_lhs. rewrite !map_map. apply map_ext. intros u.
  rewrite (nth_indep _ 0 (val u)) by (rewrite map_length, repeat_length; exact J). rewrite (map_nth val).
  f_equal. apply nth_repeat.
Qed.

Definition e1 : b64 := @B754_finite 53 1024 false 4503599627370496 (-55) eq_refl.
Definition e2 : b64 := @B754_finite 53 1024 false 4503599627370496 (-54) eq_refl.
Definition e3 : b64 := @B754_finite 53 1024 false 6755399441055744 (-54) eq_refl.
Definition e4 : b64 := @B754_finite 53 1024 false 4503599627370496 (-53) eq_refl.
Definition e5 : b64 := @B754_finite 53 1024 false 5629499534213120 (-53) eq_refl.
Definition e6 : b64 := @B754_finite 53 1024 false 6755399441055744 (-53) eq_refl.
Definition e7 : b64 := @B754_finite 53 1024 false 7881299347898368 (-53) eq_refl.
(** the first number above 1/2 *)
Definition above_half : b64 := @B754_finite 53 1024 false 4503599627370497 (-53) eq_refl.
Ltac value := unfold val, B2R, F2R; simpl; lra.
Lemma e1_val : val e1 = / 8. Proof. value. Qed.
Lemma e2_val : val e2 = / 4. Proof. value. Qed.
Lemma e3_val : val e3 = 3 / 8. Proof. value. Qed.
Lemma e4_val : val e4 = / 2. Proof. value. Qed.
Lemma e5_val : val e5 = 5 / 8. Proof. value. Qed.
Lemma e6_val : val e6 = 3 / 4. Proof. value. Qed.
Lemma e7_val : val e7 = 7 / 8. Proof. value. Qed.
Lemma above_val : / 2 < val above_half <= 1. Proof. value. Qed.
Lemma closed_of u : isfin u = true -> 0 <= val u <= 1 -> unit_closed u. Proof. now split. Qed.

Definition edge (n : nat) : list b64 := match n with 2%nat => [e2; above_half] | _ => repeat e4 n end.
Definition grid (n : nat) : list b64 := match n with 2%nat => [e2; e6] | 4%nat => [e1; e3; e5; e7] | _ => repeat e4 n end.
Lemma half_ok n : length (repeat e4 n) = n /\ Forall unit_closed (repeat e4 n).
Proof.
  split; [apply repeat_length|]. apply Forall_forall. intros x I. apply repeat_spec in I. subst. apply closed_of; [reflexivity|]. rewrite e4_val. lra.
Qed.
Lemma edge_ok : lhs_ok (table_lhs edge).
Proof.
  apply table_ok. intros n. destruct (Nat.eq_dec n 2) as [->|N].
  - split; [reflexivity|]. repeat apply Forall_cons; try apply Forall_nil; (apply closed_of; [reflexivity|]); [rewrite e2_val; lra|pose proof above_val; lra].
  - replace (edge n) with (repeat e4 n) by (destruct n as [|[|[|n]]]; easy). apply half_ok.
Qed.
Lemma grid_ok : lhs_ok (table_lhs grid).
Proof.
  apply table_ok. intros n. destruct (Nat.eq_dec n 2) as [->|N]; [|destruct (Nat.eq_dec n 4) as [->|N4]].
  - split; [reflexivity|]. repeat apply Forall_cons; try apply Forall_nil; (apply closed_of; [reflexivity|]); [rewrite e2_val|rewrite e6_val]; lra.
  - split; [reflexivity|]. repeat apply Forall_cons; try apply Forall_nil; (apply closed_of; [reflexivity|]);
      [rewrite e1_val|rewrite e3_val|rewrite e5_val|rewrite e7_val]; lra.
  - replace (grid n) with (repeat e4 n) by (destruct n as [|[|[|[|[|n]]]]]; easy). apply half_ok.
Qed.
Lemma edge_two : stratifies (table_lhs edge) 2.
Proof.
  intros d s j J. rewrite table_column by exact J. pose proof above_val as A. cbn [edge map]. rewrite e2_val.
  split; [reflexivity|]. intros [|[|k]] K; [exists 0%nat|exists 1%nat|lia]; (split; [lia|]); unfold in_stratum; cbn [nth INR];
    (split; [lra|]); intros [|[|i]] I H; try lia; cbn [nth] in H; lra.
Qed.
Lemma grid_two : stratifies (table_lhs grid) 2.
Proof.
  intros d s j J. rewrite table_column by exact J. cbn [grid map]. rewrite e2_val, e6_val.
  split; [reflexivity|]. intros [|[|k]] K; [exists 0%nat|exists 1%nat|lia]; (split; [lia|]); unfold in_stratum; cbn [nth INR];
    (split; [lra|]); intros [|[|i]] I H; try lia; cbn [nth] in H; lra.
Qed.
Lemma grid_four : stratifies (table_lhs grid) 4.
Proof.
  intros d s j J. rewrite table_column by exact J. cbn [grid map]. rewrite e1_val, e3_val, e5_val, e7_val.
  split; [reflexivity|]. intros [|[|[|[|k]]]] K; [exists 0%nat|exists 1%nat|exists 2%nat|exists 3%nat|lia]; (split; [lia|]); unfold in_stratum; cbn [nth INR];
    (split; [lra|]); intros [|[|[|[|i]]]] I H; try lia; cbn [nth] in H; lra.
Qed.

(** [1000, 1001] *)
Definition thousand : box := [(fz 1000, fz 1001)].
Lemma thousand_bounds : lower thousand 0 = 1000 /\ upper thousand 0 = 1001.
Proof. split; [apply (fz_val 1000); reflexivity|apply (fz_val 1001); reflexivity]. Qed.
Lemma room_1000 : 1048576 <= bpow radix2 1000.
Proof. change 1048576 with (bpow radix2 20). apply bpow_le. lia. Qed.
Lemma thousand_ok : moderate_box thousand.
Proof.
  destruct thousand_bounds as [A B]. unfold lower, upper in A, B. cbn [thousand nth fst snd] in A, B. pose proof room_1000 as R.
  constructor; [|constructor]. cbn [fst snd]. rewrite A, B. set (q := bpow radix2 1000) in *. clearbody q. rewrite !Rabs_pos_eq by lra.
  repeat split; auto; lra.
Qed.
Definition r1 : b64 := @B754_finite 53 1024 false 8798292045463552 (-43) eq_refl.
Definition r2 : b64 := @B754_finite 53 1024 false 8800491068719104 (-43) eq_refl.
Lemma rounded : feq (entry (lhs_get_samples (table_lhs edge) thousand 2 (Seed 0)) 0 0) r1
             && feq (entry (lhs_get_samples (table_lhs edge) thousand 2 (Seed 0)) 1 0) r2 = true.
Proof. reflexivity. Qed.
Lemma feq_val x y : isfin x = true -> isfin y = true -> feq x y = true -> val x = val y.
Proof. intros Fx Fy H. apply feq_iff in H as [A B]. apply fle_finite in A; auto. apply fle_finite in B; auto. unfold val. lra. Qed.
Lemma rounded_vals : column 0 (reals (lhs_get_samples (table_lhs edge) thousand 2 (Seed 0))) = [4001 / 4; 2001 / 2].
Proof.
  assert (L : forall i, (i < 2)%nat -> nth i (column 0 (reals (lhs_get_samples (table_lhs edge) thousand 2 (Seed 0)))) 0 = nth i [4001 / 4; 2001 / 2] 0).
  { pose proof rounded as R. apply andb_true_iff in R as [R1 R2]. intros i I. rewrite column_at by exact I.
    destruct i as [|[|i]]; [| |lia].
    - rewrite (feq_val _ r1); [|reflexivity|reflexivity|exact R1]. cbn [nth]. value.
    - rewrite (feq_val _ r2); [|reflexivity|reflexivity|exact R2]. cbn [nth]. value. }
  apply (nth_ext _ _ 0 0); [reflexivity|]. exact L.
Qed.
Lemma strata_exact_false : ~ one_per_stratum (lower thousand 0) (upper thousand 0) 2 (column 0 (reals (lhs_get_samples (table_lhs edge) thousand 2 (Seed 0)))).
Proof.
  rewrite rounded_vals. destruct thousand_bounds as [-> ->]. intros [_ H]. destruct (H 1%nat ltac:(lia)) as (i & I & A & _).
  unfold in_stratum in A. cbn [INR] in A. destruct i as [|[|i]]; [| |lia]; cbn [nth] in A; lra.
Qed.

(** two levels on [0, 1], nested *)
Definition unit_box : box := [(f0, f1)].
Definition nested_lhs : mf_sampler := {| mfs_spaces := [unit_box; unit_box]; mfs_dim := 1; mfs_nested := true; mfs_kind := KLhs |}.
Definition nested_data : list mat := map (map (scale_row scale_mul64 unit_box)) [[[e1]; [e3]]; [[e1]; [e3]; [e5]; [e7]]].
Lemma nested_run st ent : mf_get_samples (table_lhs grid) st first_choice ent nested_lhs (Some 0%Z) [2; 4]%nat = (Ok nested_data, []).
Proof. reflexivity. Qed.
Lemma unit_bounds : lower unit_box 0 = 0 /\ upper unit_box 0 = 1.
Proof. split; [reflexivity|apply B2R_f1]. Qed.
Lemma unit_box_ok : moderate_box unit_box.
Proof.
  destruct unit_bounds as [A B]. unfold lower, upper in A, B. cbn [unit_box nth fst snd] in A, B. pose proof room_1000 as R.
  constructor; [|constructor]. cbn [fst snd]. rewrite A, B. set (q := bpow radix2 1000) in *. clearbody q. rewrite Rabs_R0, Rabs_R1.
  repeat split; auto; lra.
Qed.
Lemma nested_exact : feq (entry (nth 0 nested_data []) 0 0) e1 && feq (entry (nth 0 nested_data []) 1 0) e3 = true.
Proof. reflexivity. Qed.
Lemma slack_small lo hi : Rabs lo <= 1000000 -> Rabs hi <= 1000000 -> 0 <= slack lo hi <= / 1000000.
Proof.
  intros A B. unfold slack. change (bpow radix2 (-53)) with uro. rewrite uro_val.
  assert (E : 0 < bpow radix2 (-1074) <= / 9007199254740992). { split; [apply bpow_gt_0|]. rewrite <- uro_val. apply bpow_le. lia. }
  set (q := bpow radix2 (-1074)) in *. clearbody q.
  assert (M : 0 <= Rmax (Rabs lo) (Rabs hi) <= 1000000) by (split; [apply Rle_trans with (1 := Rabs_pos lo), Rmax_l|now apply Rmax_lub]). lra.
Qed.
Lemma nested_not_strata : ~ nearly_one_per_stratum (lower unit_box 0) (upper unit_box 0) 2 (column 0 (reals (nth 0 nested_data []))).
Proof.
  destruct unit_bounds as [A B]. rewrite A, B.
  pose proof (slack_small 0 1 ltac:(rewrite Rabs_R0; lra) ltac:(rewrite Rabs_R1; lra)) as S.
  pose proof nested_exact as R. apply andb_true_iff in R as [R1 R2].
  intros (_ & _ & H). specialize (H 0%nat 0%nat 1%nat ltac:(lia) ltac:(lia) ltac:(lia)). unfold in_stratum_by in H.
  rewrite !column_at in H by (cbn; lia). apply feq_val in R1; [|reflexivity|reflexivity]. apply feq_val in R2; [|reflexivity|reflexivity]. rewrite R1, R2 in H.
  rewrite e1_val, e3_val in H. cbn [INR] in H. discriminate H; lra.
Qed.
Lemma strata_example : lhs_ok (table_lhs grid) /\ moderate_box thousand /\ stratifies (table_lhs grid) 4 /\
  2 * slack (lower thousand 0) (upper thousand 0) < (upper thousand 0 - lower thousand 0) / INR 4 /\
  in_stratum 0 1 4 0 (val (entry (table_lhs grid 1%nat (Seed 0) 4%nat) 0 0)) /\ in_stratum 0 1 4 2 (val (entry (table_lhs grid 1%nat (Seed 0) 4%nat) 2 0)) /\
  mk_mf_sampler (PerLevel [unit_box; unit_box]) None true KLhs = Ok nested_lhs.
Proof.
  split; [exact grid_ok|]. split; [exact thousand_ok|]. split; [exact grid_four|]. split.
  { destruct thousand_bounds as [A B]. rewrite A, B. pose proof (slack_small 1000 1001 ltac:(rewrite Rabs_pos_eq; lra) ltac:(rewrite Rabs_pos_eq; lra)). cbn [INR]. lra. }
  cbn [entry table_lhs grid map repeat nth]. rewrite e1_val, e5_val. unfold in_stratum. cbn [INR]. repeat split; lra.
Qed.
