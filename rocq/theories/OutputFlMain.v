(** Scaled responses in binary64: size, moments, order, restoration; constant and non-finite responses. *)
From Coq Require Import ZArith Bool List Reals Lra Lia Psatz Permutation.
From Flocq Require Import Core IEEE754.BinarySingleNaN.
From Verif Require Import Fl Spec NpList FlFacts FlMag KernelFl KernelFlSpec FlErr KernelFlFacts CholFl RSum CholFlFacts KernelFlMain KernelFlRef KernelFlWit KernelFlThms OutputFl OutputFlSpec OutputFlFacts.
Import ListNotations.
Local Open Scope R_scope.

Lemma pow_bpow (k : nat) : 2 ^ k = bpow radix2 (Z.of_nat k).
Proof. rewrite bpow_powerRZ, <- pow_powerRZ. reflexivity. Qed.
Lemma lim_pow : 2 ^ 400 = lim. Proof. apply pow_bpow. Qed.
Lemma inv_pow (k : nat) : / 2 ^ k = bpow radix2 (- Z.of_nat k). Proof. rewrite pow_bpow. symmetry. apply bpow_opp. Qed.

Section Data.
Variable np_sum : list b64 -> b64.
Hypothesis sum_ok : forall l, sum_of l (np_sum l).
Variables (M : R) (Y : list b64).
Hypotheses (HM : M <= lim) (HY : responses M Y).
Local Notation n := (INR (length Y)).
Local Notation m := (B2R (mean64 np_sum Y)).
Local Notation s := (B2R (std64 np_sum Y)).
Local Notation e y := (B2R y - m).
Local Notation E := (rsum (map (fun y : b64 => (B2R y - m) ^ 2) Y)).
Local Notation r := (sqrt (E / n)).
Local Notation theta := (/ 2147483648).
Definition scaled (y : b64) : b64 := fdiv (fsub y (mean64 np_sum Y)) (std64 np_sum Y).

Lemma E_member y : In y Y -> e y ^ 2 <= E.
Proof. apply (rsum_member (fun y : b64 => e y ^ 2)). intros. apply pow2_ge_0. Qed.
Lemma member_low t : bpow radix2 (-920) <= t -> t <= E -> low <= E / n.
Proof.
  intros H1 H2. pose proof (n_1 M Y HY) as N1. pose proof (n_2 M Y HY) as N2. apply (Rmult_le_reg_r n); [lra|]. unfold Rdiv. rewrite Rmult_assoc, Rinv_l by lra. rewrite Rmult_1_r.
  apply Rle_trans with t; [|exact H2]. apply Rle_trans with (2 := H1). apply Rle_trans with (low * 1048576); [apply Rmult_le_compat_l; [left; apply low_pos|lra]|].
  change 1048576 with (bpow radix2 20). unfold low. rewrite <- bpow_plus. apply bpow_le. lia.
Qed.
Lemma spread_dev : spread Y -> exists y, In y Y /\ bpow radix2 (-401) <= Rabs (e y) /\ bpow radix2 (-401) <= M.
Proof.
  intros (y & z & Iy & Iz & H). rewrite inv_pow in H. change (- Z.of_nat 400)%Z with (-401 + 1)%Z in H. rewrite bpow_double in H. unfold val in H. set (h := bpow radix2 (-401)) in *.
  pose proof (abs_Y M Y HY y Iy) as A. pose proof (abs_Y M Y HY z Iz) as B. pose proof (Rle_abs (B2R y)). pose proof (Rle_abs (- B2R z)) as C. rewrite Rabs_Ropp in C.
  assert (HMM : h <= M) by lra. destruct (Rle_lt_dec h (e y)) as [G|G].
  - exists y. pose proof (Rle_abs (e y)). repeat split; [exact Iy|lra|exact HMM].
  - exists z. pose proof (Rle_abs (- e z)) as K. rewrite Rabs_Ropp in K. repeat split; [exact Iz|lra|exact HMM].
Qed.
Lemma dev_low y k : (-460 <= k)%Z -> In y Y -> bpow radix2 k <= Rabs (e y) -> low <= E / n.
Proof.
  intros K I H. apply (member_low (e y ^ 2)); [|now apply E_member]. rewrite <- (pow2_abs (e y)). apply Rle_trans with (bpow radix2 (k + k)); [apply bpow_le; lia|].
  rewrite bpow_plus. pose proof (bpow_gt_0 radix2 k). replace (Rabs (e y) ^ 2) with (Rabs (e y) * Rabs (e y)) by ring. apply mul_bound; lra.
Qed.
Lemma spread_low : spread Y -> low <= E / n.
Proof. intros H. destruct (spread_dev H) as (y & I & A & _). apply (dev_low y (-401)); [lia|exact I|exact A]. Qed.

Section Wide.
Hypothesis LOW : low <= E / n.
Lemma r_pos : low <= r. Proof. apply Rle_trans with (1 := sqrt_low), sqrt_le_1_alt, LOW. Qed.
Lemma r_sq : r * r = E / n. Proof. apply sqrt_sqrt. pose proof low_pos. lra. Qed.
Lemma s_between : (1 - theta) * r <= s <= (1 + theta) * r.
Proof. destruct (std_near np_sum sum_ok M Y HM HY LOW) as [_ H]. apply Rabs_le_inv in H. lra. Qed.
Lemma s_pos : 0 < s. Proof. pose proof s_between. pose proof r_pos. pose proof low_pos. lra. Qed.
Lemma s_fin : isfin (std64 np_sum Y) = true. Proof. apply (std_near np_sum sum_ok M Y HM HY LOW). Qed.
Lemma dev_r y : In y Y -> Rabs (e y) <= sqrt n * r.
Proof.
  intros I. pose proof (n_1 M Y HY) as N1. rewrite <- sqrt_mult by (try (pose proof low_pos; lra); lra). replace (n * (E / n)) with E by (field; lra).
  rewrite <- sqrt_Rsqr_abs. apply sqrt_le_1_alt. unfold Rsqr. pose proof (E_member y I). lra.
Qed.
(** relative to the exact quotient *)
Lemma scaled_near y : In y Y -> isfin (scaled y) = true /\ Rabs (B2R (scaled y) - e y / r) <= 1.01 * theta * Rabs (e y / r) + eta.
Proof.
  intros I. destruct (dev_near np_sum sum_ok M Y HM HY y I) as [Fd Ed]. pose proof (dev_lim np_sum sum_ok M Y HM HY y I) as DL. pose proof s_between as SB. pose proof r_pos as RP. pose proof low_pos as LP. pose proof s_pos as SP.
  pose proof (n_1 M Y HY) as N1. pose proof (n_2 M Y HY) as N2. pose proof (dev_r y I) as DR. unfold scaled. set (d := B2R (fsub y (mean64 np_sum Y))) in *. set (t := e y) in *. set (q := r) in *.
  pose proof uro_pos as U. pose proof uro_val as UV. pose proof big_large as BL.
  assert (SN : 1 <= sqrt n <= 1024). { split; [rewrite <- sqrt_1; apply sqrt_le_1_alt; lra|]. replace 1024 with (sqrt (1024 * 1024)) by (apply sqrt_square; lra). apply sqrt_le_1_alt; lra. }
  set (x := t / q). assert (T : t = x * q) by (unfold x; field; lra). pose proof (Rabs_pos x) as XP.
  assert (AT : Rabs t = Rabs x * q) by (rewrite T, Rabs_mult, (Rabs_pos_eq q) by lra; reflexivity).
  assert (X1 : Rabs x <= 1024). { apply (Rmult_le_reg_r q); [lra|]. rewrite <- AT. apply Rle_trans with (1 := DR). apply Rmult_le_compat_r; lra. }
  assert (B0 : Rabs (d / s - x) <= 1.001 * theta * Rabs x).
  { replace (d / s - x) with ((d - x * s) * / s) by (field; lra). rewrite Rabs_mult, (Rabs_pos_eq (/ s)) by (left; now apply Rinv_0_lt_compat).
    apply (Rmult_le_reg_r s); [exact SP|]. rewrite Rmult_assoc, Rinv_l, Rmult_1_r by lra.
    replace (d - x * s) with ((d - t) + x * (q - s)) by (rewrite T; ring). eapply Rle_trans; [apply Rabs_triang|]. rewrite (Rabs_mult x).
    assert (Rabs (q - s) <= theta * q) by (apply Rabs_le; lra).
    assert (Rabs x * Rabs (q - s) <= Rabs x * (theta * q)) by (apply Rmult_le_compat_l; lra).
    rewrite AT in Ed. set (xa := Rabs x) in *. set (w := xa * q) in *. assert (0 <= w) by (unfold w; nra).
    assert (1.001 * theta * w * (1 - theta) <= 1.001 * theta * xa * s). { replace (1.001 * theta * xa * s) with (1.001 * theta * (xa * s)) by ring. replace (1.001 * theta * w * (1 - theta)) with (1.001 * theta * (xa * ((1 - theta) * q))) by (unfold w; ring). apply Rmult_le_compat_l; [lra|]. apply Rmult_le_compat_l; lra. }
    assert (uro * w <= / 1000000000000000 * w) by (apply Rmult_le_compat_r; [lra|rewrite UV; lra]). replace (xa * (theta * q)) with (theta * w) in * by (unfold w; ring). lra. }
  pose proof (Rabs_near _ _ _ B0) as BN.
  destruct (fdiv_err (fsub y (mean64 np_sum Y)) (std64 np_sum Y) Fd) as [Fv Ev]; [lra|fold d; lra|]. fold d in Ev. split; [exact Fv|].
  set (v := B2R (fdiv _ _)) in *. replace (v - x) with ((v - d / s) + (d / s - x)) by ring. eapply Rle_trans; [apply Rabs_triang|].
  assert (uro * Rabs (d / s) <= uro * (2 * Rabs x)) by (apply Rmult_le_compat_l; lra).
  assert (uro * Rabs x <= / 1000000000000000 * Rabs x) by (apply Rmult_le_compat_r; [lra|rewrite UV; lra]). lra.
Qed.
Lemma quot_abs y : In y Y -> Rabs (e y / r) <= sqrt n.
Proof.
  intros I. pose proof (dev_r y I) as D. pose proof r_pos as RP. pose proof low_pos. set (q := r) in *. unfold Rdiv. rewrite Rabs_mult, (Rabs_pos_eq (/ q)) by (left; apply Rinv_0_lt_compat; lra).
  apply (Rmult_le_reg_r q); [lra|]. rewrite Rmult_assoc, Rinv_l by lra. lra.
Qed.
Lemma sqrt_n : 1 <= sqrt n <= 1024.
Proof. pose proof (n_1 M Y HY) as N1. pose proof (n_2 M Y HY) as N2. split; [rewrite <- sqrt_1; apply sqrt_le_1_alt; lra|]. replace 1024 with (sqrt (1024 * 1024)) by (apply sqrt_square; lra). apply sqrt_le_1_alt; lra. Qed.
Lemma scaled_abs y : In y Y -> isfin (scaled y) = true /\ Rabs (B2R (scaled y)) <= sqrt n * (1 + / 2 ^ 30).
Proof.
  intros I. destruct (scaled_near y I) as [F H]. split; [exact F|]. pose proof (Rabs_near _ _ _ H) as N. pose proof (quot_abs y I) as Q. pose proof sqrt_n as SN. pose proof eta_tiny as ET. pose proof uro_val as UV.
  replace (/ 2 ^ 30) with (/ 1073741824) by (f_equal; ring). rewrite UV in ET. lra.
Qed.
Lemma second_moment : Rabs (rsum (map (fun y => B2R (scaled y) ^ 2) Y) / n - 1) <= / 2 ^ 29.
Proof.
  pose proof (n_1 M Y HY) as N1. pose proof sqrt_n as SN. pose proof eta_tiny as ET. pose proof eta_pos as EP. pose proof uro_val as UV. pose proof r_pos as RP. pose proof low_pos as LP.
  destruct (rsum_near (fun y : b64 => B2R (scaled y) ^ 2) (fun y : b64 => (e y / r) ^ 2) (2.1 * theta) (/ 1000000000000) Y) as (Q & _ & _); [lra|lra| |].
  - intros y I. split; [apply pow2_ge_0|]. destruct (scaled_near y I) as [_ H]. pose proof (quot_abs y I) as QA. set (v := B2R (scaled y)) in *. set (x := e y / r) in *.
    replace (v ^ 2 - x ^ 2) with ((v - x) * ((v - x) + 2 * x)) by ring. rewrite Rabs_mult.
    assert (A : Rabs (v - x + 2 * x) <= 2.01 * Rabs x + eta). { eapply Rle_trans; [apply Rabs_triang|]. rewrite (Rabs_mult 2), (Rabs_pos_eq 2) by lra. pose proof (Rabs_pos x). lra. }
    pose proof (Rabs_pos x) as XP. replace (x ^ 2) with (Rabs x * Rabs x) by (rewrite <- (pow2_abs x); ring). set (a := Rabs x) in *.
    assert (B : Rabs (v - x) * Rabs (v - x + 2 * x) <= (1.01 * theta * a + eta) * (2.01 * a + eta)) by (apply mul_bound; split; try apply Rabs_pos; lra).
    eapply Rle_trans; [exact B|]. assert (eta * a <= eta * 1024) by (apply Rmult_le_compat_l; lra). assert (eta * eta <= eta) by (pose proof eta_1; nra). assert (E16 : eta <= / 10000000000000000) by (rewrite UV in ET; lra).
    replace ((1.01 * theta * a + eta) * (2.01 * a + eta)) with (1.01 * 2.01 * theta * (a * a) + (1.01 * theta + 2.01) * (eta * a) + eta * eta) by ring.
    assert (0 <= a * a) by nra. lra.
  - assert (G : rsum (map (fun y : b64 => (e y / r) ^ 2) Y) = n).
    { assert (NE : E <> 0) by (intros Z; unfold Rdiv in LOW; rewrite Z, Rmult_0_l in LOW; lra). assert (NN : n <> 0) by lra.
      transitivity (E / (r * r)); [|rewrite r_sq; field; auto].
      assert (r <> 0) by lra. clear - H. set (q := r) in *. clearbody q. set (c := m). clearbody c. induction Y as [|y l IH]; [cbn; field; exact H|]. cbn [map]. rewrite !rsum_cons, IH. field. exact H. }
    rewrite G in Q. set (Z0 := rsum (map (fun y => B2R (scaled y) ^ 2) Y)) in *. replace (Z0 / n - 1) with ((Z0 - n) * / n) by (field; lra). rewrite Rabs_mult, (Rabs_pos_eq (/ n)) by (left; apply Rinv_0_lt_compat; lra).
    apply (Rmult_le_reg_r n); [lra|]. rewrite Rmult_assoc, Rinv_l by lra. replace (/ 2 ^ 29) with (/ 536870912) by (f_equal; ring). lra.
Qed.
Lemma scaled_value y : In y Y -> B2R (scaled y) = rnd (rnd (e y) / s).
Proof.
  intros I. destruct (dev_near np_sum sum_ok M Y HM HY y I) as [Fd Ed]. destruct (scaled_near y I) as [Fv _]. pose proof s_pos as SP.
  pose proof (fsub_fin y (mean64 np_sum Y) (fin_Y M Y HY y I) (proj1 (mean_near np_sum sum_ok M Y HM HY)) Fd) as Vd. unfold scaled in *. rewrite <- Vd.
  pose proof (quot_abs y I) as QA. pose proof sqrt_n as SN. pose proof (scaled_near y I) as [_ H].
  destruct (fdiv_spec (fsub y (mean64 np_sum Y)) (std64 np_sum Y) Fd ltac:(lra)) as [V _]; [|exact V].
  apply rnd_room. pose proof big_large as BL. pose proof s_between as SB. pose proof r_pos as RP. pose proof low_pos as LP. pose proof (dev_r y I) as DR. pose proof uro_val as UV. rewrite UV in Ed.
  pose proof (Rabs_near _ _ _ Ed) as N. unfold Rdiv. rewrite Rabs_mult, (Rabs_pos_eq (/ s)) by (left; now apply Rinv_0_lt_compat).
  apply (Rmult_le_reg_r s); [lra|]. rewrite Rmult_assoc, Rinv_l by lra. assert (sqrt n * r <= 1024 * r) by (apply Rmult_le_compat_r; lra). nra.
Qed.
Lemma scaled_mono y z : In y Y -> In z Y -> B2R y <= B2R z -> B2R (scaled y) <= B2R (scaled z).
Proof.
  intros I J H. rewrite (scaled_value y I), (scaled_value z J). apply rnd_le. unfold Rdiv. apply Rmult_le_compat_r; [left; apply Rinv_0_lt_compat, s_pos|]. apply rnd_le. lra.
Qed.
Lemma r_lim : r <= 3 * lim.
Proof.
  pose proof (n_1 M Y HY) as N1. rewrite <- (sqrt_square (3 * lim)) by (pose proof lim_pos; lra). apply sqrt_le_1_alt. apply (Rmult_le_reg_r n); [lra|]. unfold Rdiv. rewrite Rmult_assoc, Rinv_l by lra.
  pose proof (E_lim np_sum sum_ok M Y HM HY). lra.
Qed.
Lemma restored_near y : bpow radix2 (-401) <= M -> In y Y ->
  isfin (restored64 np_sum Y (scaled y)) = true /\ Rabs (B2R (restored64 np_sum Y (scaled y)) - B2R y) <= / 2 ^ 50 * M.
Proof.
  intros ML I. destruct (dev_near np_sum sum_ok M Y HM HY y I) as [Fd Ed]. destruct (mean_near np_sum sum_ok M Y HM HY) as [Fm _]. pose proof (mean_abs np_sum sum_ok M Y HM HY) as MA. pose proof (dev_abs np_sum sum_ok M Y HM HY y I) as DA.
  pose proof (dev_lim np_sum sum_ok M Y HM HY y I) as DL. destruct (scaled_near y I) as [Fv _]. pose proof (scaled_abs y I) as [_ VA]. pose proof (scaled_value y I) as VV. pose proof s_between as SB. pose proof s_pos as SP. pose proof s_fin as SF. pose proof r_lim as RL. pose proof r_pos as RP. pose proof low_pos as LP.
  pose proof (abs_Y M Y HY y I) as AY. pose proof uro_pos as U. pose proof uro_val as UV. pose proof eta_pos as EP. pose proof lim_1 as L1. pose proof lim_big as LB. pose proof sqrt_n as SN.
  pose proof (fsub_fin y (mean64 np_sum Y) (fin_Y M Y HY y I) Fm Fd) as Vd. set (t := e y) in *. set (d := B2R (fsub y (mean64 np_sum Y))) in *.
  (* the smallest error term *)
  assert (ES : eta * (6 * lim) <= / 1000 * (uro * M)).
  { apply Rle_trans with (bpow radix2 (-1075 + 3 + 400)).
    - rewrite !bpow_plus. fold eta lim. change (bpow radix2 3) with 8. pose proof lim_pos. nra.
    - apply Rle_trans with (bpow radix2 (-10 + (-53 + -401))); [apply bpow_le; lia|]. rewrite bpow_plus, (bpow_plus _ (-53)). fold uro. change (bpow radix2 (-10)) with (/ 1024). pose proof (bpow_gt_0 radix2 (-401)).
      assert (uro * bpow radix2 (-401) <= uro * M) by (apply Rmult_le_compat_l; lra). nra. }
  assert (DD : Rabs d <= (1 + uro) * Rabs t) by (pose proof (Rabs_near _ _ _ Ed); lra). pose proof (Rabs_pos t) as TP.
  assert (EV : Rabs (B2R (scaled y) - d / s) <= uro * Rabs (d / s) + eta) by (rewrite VV, <- Vd; apply rnd_err). set (v := B2R (scaled y)) in *.
  assert (P : Rabs (v * s - d) <= uro * Rabs d + eta * s).
  { replace (v * s - d) with ((v - d / s) * s) by (field; lra). rewrite Rabs_mult, (Rabs_pos_eq s) by lra. replace (uro * Rabs d + eta * s) with ((uro * Rabs (d / s) + eta) * s).
    - apply Rmult_le_compat_r; lra. - unfold Rdiv. rewrite Rabs_mult, (Rabs_pos_eq (/ s)) by (left; now apply Rinv_0_lt_compat). field. lra. }
  assert (es : eta * s <= eta * (4 * lim)) by (apply Rmult_le_compat_l; lra).
  assert (M0 : 0 < M) by (pose proof (bpow_gt_0 radix2 (-401)); lra).
  assert (uM : 0 < uro * M) by (apply Rmult_lt_0_compat; lra).
  assert (eM : eta <= / 1000 * (uro * M)) by nra.
  assert (UT : uro * Rabs t <= 2.0001 * (uro * M)). { apply Rle_trans with (uro * (2.0001 * M)); [|lra]. apply Rmult_le_compat_l; [lra|]. rewrite UV in eM. lra. }
  assert (UD : uro * Rabs d <= 2.001 * (uro * M)). { apply Rle_trans with (uro * ((1 + uro) * Rabs t)); [apply Rmult_le_compat_l; lra|]. replace (uro * ((1 + uro) * Rabs t)) with ((1 + uro) * (uro * Rabs t)) by ring. rewrite UV in *. lra. }
  assert (P2 : Rabs (v * s - d) <= 2.01 * (uro * M)) by lra.
  pose proof (Rabs_near _ _ _ P2) as PN.
  assert (UP : uro * Rabs (v * s) <= 2.02 * (uro * M)). { apply Rle_trans with (uro * (Rabs d + 2.01 * (uro * M))); [apply Rmult_le_compat_l; lra|]. rewrite Rmult_plus_distr_l. assert (uro * (2.01 * (uro * M)) <= / 1000 * (uro * M)); [|lra]. replace (uro * (2.01 * (uro * M))) with ((2.01 * uro) * (uro * M)) by ring. apply Rmult_le_compat_r; [lra|rewrite UV; lra]. }
  assert (LM : 1000 * lim <= big) by nra.
  assert (uMM : uro * M <= M) by (rewrite UV; lra). assert (Rabs d <= 2 * Rabs t) by (rewrite UV in *; lra).
  destruct (fmul_err (scaled y) (std64 np_sum Y) Fv SF) as [Fp Ep]; [fold v; lra|]. fold v in Ep. set (p := B2R (fmul (scaled y) (std64 np_sum Y))) in *.
  assert (PT : Rabs (p - t) <= 6.1 * (uro * M)).
  { replace (p - t) with ((p - v * s) + ((v * s - d) + (d - t))) by ring. eapply Rle_trans; [apply Rabs_triang|]. pose proof (Rabs_triang (v * s - d) (d - t)). lra. }
  assert (PM : p + m - B2R y = p - t) by (unfold t; ring).
  assert (PA : Rabs (p + m) <= M + 6.1 * (uro * M)). { replace (p + m) with (B2R y + (p - t)) by (rewrite <- PM; ring). eapply Rle_trans; [apply Rabs_triang|]. lra. }
  destruct (fadd_err (fmul (scaled y) (std64 np_sum Y)) (mean64 np_sum Y) Fp Fm) as [Fr Er]; [fold p; lra|]. fold p in Er. unfold restored64. split; [exact Fr|].
  set (z := B2R (fadd _ _)) in *. replace (z - B2R y) with ((z - (p + m)) + (p - t)) by (rewrite <- PM; ring). eapply Rle_trans; [apply Rabs_triang|].
  assert (uro * Rabs (p + m) <= uro * (M + 6.1 * (uro * M))) by (apply Rmult_le_compat_l; lra).
  assert (uro * (6.1 * (uro * M)) <= / 1000 * (uro * M)) by (replace (uro * (6.1 * (uro * M))) with ((6.1 * uro) * (uro * M)) by ring; apply Rmult_le_compat_r; [lra|rewrite UV; lra]).
  replace (/ 2 ^ 50 * M) with (8 * (uro * M)); [lra|]. rewrite UV. replace (2 ^ 50) with 1125899906842624 by ring. lra.
Qed.
End Wide.
End Data.
