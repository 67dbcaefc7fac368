(** Rounding in the scaling of samples. *)
From Coq Require Import ZArith NArith Reals Bool List Lia Lra Psatz.
From Flocq Require Import Core IEEE754.BinarySingleNaN.
From Verif Require Import Fl FlFacts FlErr OutputFlFacts NpList NpFacts Spec Samplers SamplersSpec SamplersFacts SampFlSpec.
Import ListNotations.
Local Open Scope R_scope.

Lemma eta_two : bpow radix2 (-1074) = 2 * eta.
Proof. unfold eta. change (-1074)%Z with (-1075 + 1)%Z. rewrite bpow_plus. change (bpow radix2 1) with 2. ring. Qed.

(** ** one coordinate *)
Section One.
Variables lo hi u : b64.
Hypothesis Flo : isfin lo = true.
Hypothesis Fhi : isfin hi = true.
Hypothesis Ord : B2R lo <= B2R hi.
Hypothesis Blo : Rabs (B2R lo) <= big.
Hypothesis Bhi : Rabs (B2R hi) <= big.
Hypothesis Fu : isfin u = true.
Hypothesis Hu : 0 <= B2R u <= 1.

Lemma near_one : isfin (scale_lb64 lo hi u) = true /\
  Rabs (B2R (scale_lb64 lo hi u) - ideal (B2R lo) (B2R hi) (B2R u)) <= slack (B2R lo) (B2R hi).
Proof.
  unfold scale_lb64, scale_lb, ideal, slack. rewrite eta_two. change (bpow radix2 (-53)) with uro.
  pose proof big_pos as Pb. pose proof uro_pos as Pu. pose proof eta_pos as Pe.
  assert (Ul : uro <= / 1000000) by (rewrite uro_val; lra).
  set (M := Rmax (Rabs (B2R lo)) (Rabs (B2R hi))).
  assert (Ml : Rabs (B2R lo) <= M) by apply Rmax_l. assert (Mh : Rabs (B2R hi) <= M) by apply Rmax_r.
  assert (Mb : M <= big) by (apply Rmax_lub; assumption). clearbody M.
  assert (Eu : eta <= uro) by (apply bpow_le; lia). assert (B1 : 1 <= big) by (change 1 with (bpow radix2 0); apply bpow_le; lia).
  assert (D0 : 0 <= B2R hi - B2R lo <= 2 * M).
  { split; [lra|]. pose proof (Rle_abs (B2R hi)). pose proof (Rle_abs (- B2R lo)) as Hn. rewrite Rabs_Ropp in Hn. lra. }
  assert (IM : Rabs (B2R lo + B2R u * (B2R hi - B2R lo)) <= M).
  { apply Rabs_le. apply Rabs_le_inv in Ml. apply Rabs_le_inv in Mh. nra. }
  assert (W : isfin (fsub hi lo) = true /\ Rabs (B2R (fsub hi lo) - (B2R hi - B2R lo)) <= uro * (B2R hi - B2R lo)).
  { assert (E : Rabs (rnd (B2R hi - B2R lo) - (B2R hi - B2R lo)) <= uro * Rabs (B2R hi - B2R lo)).
    { replace (B2R hi - B2R lo) with (B2R hi + - B2R lo) by ring. apply rnd_plus; [apply format_B2R|].
      apply generic_format_opp, format_B2R. }
    rewrite (Rabs_pos_eq (B2R hi - B2R lo)) in E by lra.
    destruct (fsub_spec hi lo Fhi Flo) as [V F]; [|rewrite V; split; [exact F|exact E]].
    apply rnd_room. rewrite Rabs_pos_eq by lra. lra. }
  destruct W as [Fw Ew]. set (w := fsub hi lo) in *. clearbody w. set (d := B2R hi - B2R lo) in *.
  assert (W0 : 0 <= B2R w <= 3 * M). { apply Rabs_le_inv in Ew. split; nra. }
  assert (P : 0 <= B2R u * B2R w <= B2R w) by nra.
  destruct (fmul_err u w Fu Fw) as [Fm Em]; [rewrite Rabs_pos_eq by lra; lra|]. rewrite (Rabs_pos_eq (B2R u * B2R w)) in Em by lra.
  set (m := fmul u w) in *. clearbody m.
  assert (EM : Rabs (B2R m - B2R u * d) <= uro * (2 * M) + (uro * (2 * M + uro * (2 * M)) + eta)).
  { replace (B2R m - B2R u * d) with ((B2R m - B2R u * B2R w) + B2R u * (B2R w - d)) by ring.
    apply Rle_trans with (1 := Rabs_triang _ _). rewrite Rabs_mult, (Rabs_pos_eq (B2R u)) by lra.
    assert (A1 : B2R u * Rabs (B2R w - d) <= uro * (2 * M)). { pose proof (Rabs_pos (B2R w - d)). nra. }
    assert (A2 : B2R u * B2R w <= 2 * M + uro * (2 * M)). { apply Rabs_le_inv in Ew. nra. }
    nra. }
  assert (T : Rabs (B2R lo + B2R m) <= M + (uro * (2 * M) + (uro * (2 * M + uro * (2 * M)) + eta))).
  { replace (B2R lo + B2R m) with ((B2R lo + B2R u * d) + (B2R m - B2R u * d)) by ring.
    apply Rle_trans with (1 := Rabs_triang _ _). lra. }
  assert (M0 : 0 <= M) by (pose proof (Rabs_pos (B2R lo)); lra).
  assert (UM : uro * M <= / 1000000 * M) by (apply Rmult_le_compat_r; lra).
  assert (UUM : uro * (uro * M) <= / 1000000 * (uro * M)) by (apply Rmult_le_compat_r; [nra|lra]).
  destruct (fadd_err lo m Flo Fm) as [Fs Es]; [lra|]. split; [exact Fs|].
  replace (B2R (fadd lo m) - (B2R lo + B2R u * d)) with ((B2R (fadd lo m) - (B2R lo + B2R m)) + (B2R m - B2R u * d)) by ring.
  apply Rle_trans with (1 := Rabs_triang _ _).
  assert (Q : uro * Rabs (B2R lo + B2R m) <= uro * (M + (uro * (2 * M) + (uro * (2 * M + uro * (2 * M)) + eta)))) by (apply Rmult_le_compat_l; lra).
  assert (UE : uro * eta <= / 1000000 * eta) by (apply Rmult_le_compat_r; lra).
  assert (UUU : uro * (uro * (uro * M)) <= / 1000000 * (uro * (uro * M))) by (apply Rmult_le_compat_r; [nra|lra]).
  assert (0 <= uro * M) by nra. assert (0 <= uro * (uro * M)) by nra.
  replace (uro * (M + (uro * (2 * M) + (uro * (2 * M + uro * (2 * M)) + eta))))
    with (uro * M + 4 * (uro * (uro * M)) + 2 * (uro * (uro * (uro * M))) + uro * eta) in Q by ring.
  replace (uro * (2 * M) + (uro * (2 * M + uro * (2 * M)) + eta)) with (4 * (uro * M) + 2 * (uro * (uro * M)) + eta) in EM by ring.
  replace (6 * uro * M) with (6 * (uro * M)) by ring. lra.
Qed.
End One.

Lemma order_one lo hi u v : isfin lo = true -> isfin hi = true -> B2R lo <= B2R hi -> Rabs (B2R lo) <= big -> Rabs (B2R hi) <= big ->
  isfin u = true -> isfin v = true -> 0 <= B2R u <= B2R v -> B2R v <= 1 ->
  fle (scale_lb64 lo hi u) (scale_lb64 lo hi v) = true.
Proof.
  intros Fl Fh O Bl Bh Fu Fv Huv Hv.
  destruct (near_one lo hi u Fl Fh O Bl Bh Fu ltac:(lra)) as [F1 _]. destruct (near_one lo hi v Fl Fh O Bl Bh Fv ltac:(lra)) as [F2 _].
  assert (B1 : 1 <= big) by (change 1 with (bpow radix2 0); apply bpow_le; lia).
  assert (Fw : isfin (fsub hi lo) = true).
  { apply fsub_spec; auto. apply rnd_room. apply Rabs_le. apply Rabs_le_inv in Bl. apply Rabs_le_inv in Bh. lra. }
  assert (W : 0 <= B2R (fsub hi lo)). { apply width_nonneg; auto. now apply fle_finite. }
  apply fle_finite; auto. unfold scale_lb64, scale_lb in *.
  destruct (unit_mul u _ Fu Fw ltac:(lra) W) as (G1 & V1 & _). destruct (unit_mul v _ Fv Fw ltac:(lra) W) as (G2 & V2 & _).
  rewrite (fadd_fin lo _ Fl G1 F1), (fadd_fin lo _ Fl G2 F2). apply rnd_le. rewrite V1, V2. apply Rplus_le_compat_l, rnd_le. nra.
Qed.

(** ** arrays *)
Lemma map_nth_row (f : row -> row) m i : (i < length m)%nat -> nth i (map f m) [] = f (nth i m []).
Proof. intros H. rewrite (nth_indep _ [] (f [])) by now rewrite map_length. apply map_nth. Qed.
Section Array.
Variables (b : box) (m : mat).
Hypothesis Hb : moderate_box b.
Hypothesis Hm : Forall (unit_row unit_closed (length b)) m.
Notation S' := (map (scale_row scale_lb64 b) m).

Lemma entry_scaled i j : (i < length m)%nat -> (j < length b)%nat ->
  entry S' i j = scale_lb64 (fst (nth j b (f0, f0))) (snd (nth j b (f0, f0))) (entry m i j).
Proof.
  intros I J. unfold entry. rewrite map_nth_row by exact I. unfold scale_row.
  apply (map2_nth (fun lh u => scale_lb64 (fst lh) (snd lh) u) b (nth i m []) j (f0, f0) f0 f0 J).
  rewrite Forall_forall in Hm. destruct (Hm (nth i m [])) as [L _]; [now apply nth_In|]. now rewrite L.
Qed.
Lemma box_at j : (j < length b)%nat -> let lh := nth j b (f0, f0) in
  isfin (fst lh) = true /\ isfin (snd lh) = true /\ B2R (fst lh) <= B2R (snd lh) /\ Rabs (B2R (fst lh)) <= big /\ Rabs (B2R (snd lh)) <= big.
Proof. intros J lh. unfold moderate_box in Hb. rewrite Forall_forall in Hb. apply (Hb lh). now apply nth_In. Qed.
Lemma draw_at i j : (i < length m)%nat -> (j < length b)%nat -> unit_closed (entry m i j).
Proof.
  intros I J. rewrite Forall_forall in Hm. destruct (Hm (nth i m [])) as [L U]; [now apply nth_In|].
  rewrite Forall_forall in U. apply U. apply nth_In. now rewrite L.
Qed.

Lemma near_array i j : (i < length m)%nat -> (j < length b)%nat ->
  isfin (entry S' i j) = true /\
  Rabs (val (entry S' i j) - ideal (lower b j) (upper b j) (val (entry m i j))) <= slack (lower b j) (upper b j).
Proof.
  intros I J. rewrite entry_scaled by assumption. destruct (box_at j J) as (F1 & F2 & O & B1 & B2). destruct (draw_at i j I J) as [Fu Hu].
  apply near_one; assumption.
Qed.
Lemma order_array i1 i2 j : (i1 < length m)%nat -> (i2 < length m)%nat -> (j < length b)%nat ->
  val (entry m i1 j) <= val (entry m i2 j) -> fle (entry S' i1 j) (entry S' i2 j) = true.
Proof.
  intros I1 I2 J O. rewrite !entry_scaled by assumption. destruct (box_at j J) as (F1 & F2 & Q & B1 & B2).
  destruct (draw_at i1 j I1 J) as [Fu Hu]. destruct (draw_at i2 j I2 J) as [Fv Hv]. unfold val in *. apply order_one; auto; lra.
Qed.
Lemma column_at j i : (i < length m)%nat -> nth i (column j (reals m)) 0 = val (entry m i j).
Proof.
  intros I. unfold column, reals, entry. rewrite map_map.
  set (g := fun r : row => nth j (map val r) 0).
  rewrite (nth_indep _ 0 (g [])) by now rewrite map_length. rewrite (map_nth g). unfold g. change 0 with (val f0). apply map_nth.
Qed.

Section Strata.
Variable j : nat.
Hypothesis J : (j < length b)%nat.
Hypothesis Hs : one_per_stratum 0 1 (length m) (column j (reals m)).
Notation lo := (lower b j).
Notation hi := (upper b j).
Notation n := (length m).

Lemma lo_hi : lo <= hi. Proof. apply (box_at j J). Qed.
Lemma in_unit k u : in_stratum 0 1 n k u <-> INR k / INR n < u <= INR (S k) / INR n.
Proof. unfold in_stratum. rewrite !Rminus_0_r, !Rmult_1_r, !Rplus_0_l. reflexivity. Qed.

Lemma wide k : (k < n)%nat -> exists i, (i < n)%nat /\ in_stratum_by (slack lo hi) lo hi n k (val (entry S' i j)).
Proof.
  intros K. destruct Hs as [_ H]. destruct (H k K) as (i & I & A & _). exists i. split; [exact I|].
  rewrite column_at in A by exact I. apply in_unit in A. destruct (near_array i j I J) as [_ E]. apply Rabs_le_inv in E. unfold ideal in E.
  unfold in_stratum_by. pose proof lo_hi as O. destruct (Rle_lt_or_eq_dec _ _ O) as [P|P].
  - split; [|nra]. assert (INR k / INR n * (hi - lo) < val (entry m i j) * (hi - lo)) by (apply Rmult_lt_compat_r; lra). lra.
  - rewrite <- P. replace (lo - lo) with 0 by ring. rewrite !Rmult_0_r, !Rplus_0_r. clear E.
    (* a box of no width: the sample is its only point *)
    destruct (box_at j J) as (F1 & F2 & _ & B1 & B2). rewrite entry_scaled in * by assumption. destruct (draw_at i j I J) as [Fu Hu].
    assert (S0 : 0 < bpow radix2 (-1074)) by apply bpow_gt_0. unfold slack in *.
    assert (X : B2R (scale_lb64 (fst (nth j b (f0, f0))) (snd (nth j b (f0, f0))) (entry m i j)) = lo).
    { unfold lower, upper, val in *. set (l := fst (nth j b (f0, f0))) in *. set (h := snd (nth j b (f0, f0))) in *.
      destruct (near_one l h (entry m i j) F1 F2 ltac:(lra) B1 B2 Fu Hu) as [Fs _].
      unfold scale_lb64, scale_lb in *.
      destruct (fsub_spec h l F2 F1) as [Vd Fd]; [rewrite <- P, Rminus_diag_eq, rnd_0, Rabs_R0 by easy; apply bpow_gt_0|].
      rewrite <- P, Rminus_diag_eq, rnd_0 in Vd by easy.
      destruct (unit_mul _ _ Fu Fd Hu ltac:(lra)) as (Fm & Vm & _). rewrite Vd, Rmult_0_r, rnd_0 in Vm.
      rewrite (fadd_fin l _ F1 Fm Fs), Vm, Rplus_0_r. apply rnd_B2R. }
    unfold val in *. unfold lower, val in *. rewrite X. pose proof uro_pos as U. change (bpow radix2 (-53)) with uro.
    pose proof (Rle_trans _ _ _ (Rabs_pos (B2R (fst (nth j b (f0, f0))))) (Rmax_l (Rabs (B2R (fst (nth j b (f0, f0))))) (Rabs (B2R (fst (nth j b (f0, f0))))))) as Q.
    assert (0 <= 6 * uro * Rmax (Rabs (B2R (fst (nth j b (f0, f0))))) (Rabs (B2R (fst (nth j b (f0, f0)))))) by nra. lra.
Qed.

Lemma narrow k i1 i2 : (k < n)%nat -> (i1 < n)%nat -> (i2 < n)%nat ->
  in_stratum_by (- slack lo hi) lo hi n k (val (entry S' i1 j)) -> in_stratum_by (- slack lo hi) lo hi n k (val (entry S' i2 j)) -> i1 = i2.
Proof.
  intros K I1 I2 A1 A2. destruct Hs as [_ H]. destruct (H k K) as (i & I & _ & U).
  assert (G : forall i', (i' < n)%nat -> in_stratum_by (- slack lo hi) lo hi n k (val (entry S' i' j)) -> i' = i).
  { intros i' I' A. apply U; [exact I'|]. rewrite column_at by exact I'. apply in_unit. destruct (near_array i' j I' J) as [_ E].
    apply Rabs_le_inv in E. unfold ideal in E. unfold in_stratum_by in A. pose proof lo_hi as O.
    assert (P : 0 < hi - lo).
    { destruct (Rle_lt_or_eq_dec _ _ O) as [P|P]; [lra|]. exfalso. rewrite <- P in A. replace (lo - lo) with 0 in A by ring.
      rewrite !Rmult_0_r in A. assert (0 < slack lo lo); [|lra]. unfold slack. pose proof (bpow_gt_0 radix2 (-1074)). pose proof (bpow_gt_0 radix2 (-53)).
      pose proof (Rle_trans _ _ _ (Rabs_pos lo) (Rmax_l (Rabs lo) (Rabs lo))). nra. }
    split.
    - apply (Rmult_lt_reg_r (hi - lo)); [exact P|]. lra.
    - apply (Rmult_le_reg_r (hi - lo)); [exact P|]. lra. }
  rewrite (G i1 I1 A1). now rewrite (G i2 I2 A2).
Qed.

Lemma apart k1 k2 i1 i2 : (k1 + 2 <= k2)%nat -> (i1 < n)%nat -> (i2 < n)%nat -> 2 * slack lo hi < (hi - lo) / INR n ->
  in_stratum 0 1 n k1 (val (entry m i1 j)) -> in_stratum 0 1 n k2 (val (entry m i2 j)) -> flt (entry S' i1 j) (entry S' i2 j) = true.
Proof.
  intros K I1 I2 W A1 A2. apply in_unit in A1. apply in_unit in A2.
  destruct (near_array i1 j I1 J) as [F1 E1]. destruct (near_array i2 j I2 J) as [F2 E2].
  apply flt_finite; auto. apply Rabs_le_inv in E1. apply Rabs_le_inv in E2. unfold ideal, val in *.
  assert (N : 0 < INR n) by (apply lt_0_INR; lia).
  assert (Q : INR (S k1) / INR n + / INR n <= INR k2 / INR n).
  { replace (INR (S k1) / INR n + / INR n) with (INR (S (S k1)) / INR n) by (rewrite (S_INR (S k1)); field; lra).
    apply Rmult_le_compat_r; [left; now apply Rinv_0_lt_compat|]. apply le_INR. lia. }
  pose proof lo_hi as O. assert (G : / INR n <= B2R (entry m i2 j) - B2R (entry m i1 j)) by lra.
  assert (/ INR n * (hi - lo) <= (B2R (entry m i2 j) - B2R (entry m i1 j)) * (hi - lo)) by (apply Rmult_le_compat_r; lra).
  unfold Rdiv in W. lra.
Qed.
End Strata.
End Array.
