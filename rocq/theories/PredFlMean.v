(** Predicted means in binary64 are close to the exact prediction with the stored weights. *)
From Coq Require Import ZArith Bool List Reals Lra Lia Psatz Permutation.
From Flocq Require Import Core IEEE754.BinarySingleNaN.
From Verif Require Import Fl Spec NpList FlFacts FlMag KernelFl KernelFlSpec FlErr KernelFlFacts CholFl RSum CholFlFacts KernelFlMain KernelFlRef KernelFlThms OutputFl OutputFlSpec OutputFlFacts OutputFlMain OutputFlThms TrainFl PredFlSpec.
Import ListNotations.
Local Open Scope R_scope.

Lemma rs_abs_mul k (f g : nat -> R) a : (forall l, (l < k)%nat -> Rabs (f l) <= a) -> rs k (fun l => Rabs (f l * g l)) <= a * rs k (fun l => Rabs (g l)).
Proof. intros H. rewrite <- rs_scal. apply rs_le. intros l Hl. rewrite Rabs_mult. apply Rmult_le_compat_r; [apply Rabs_pos|auto]. Qed.
Lemma pow_uro_le k : INR k <= 1048576 -> 0 <= (1 + uro) ^ k - 1 <= (INR k + 1) * uro /\ (1 + uro) ^ k <= 2.
Proof. intros H. pose proof (pow_uro_lin k H). pose proof (pow_uro_two k H). lra. Qed.

Section Dot.
Variable np_dot : list (b64 * b64) -> b64.
Hypothesis dot_ok : forall l, dot_of l (np_dot l).
Lemma dot_rs k (A B : array) i j a : 0 <= a -> INR k <= 1048576 ->
  (forall l, (l < k)%nat -> isfin (A i l) = true /\ Rabs (B2R (A i l)) <= a) -> (forall l, (l < k)%nat -> isfin (B l j) = true) ->
  a * rs k (fun l => Rabs (B2R (B l j))) <= big ->
  isfin (dot64 np_dot k A B i j) = true /\
  Rabs (B2R (dot64 np_dot k A B i j) - rs k (fun l => B2R (A i l) * B2R (B l j))) <= (INR k + 1) * uro * (a * rs k (fun l => Rabs (B2R (B l j)))) + 2 * INR k * eta.
Proof.
  intros a0 K FA FB S. unfold dot64. set (l := map _ (seq 0 k)).
  assert (LL : length l = k) by (unfold l; rewrite map_length, seq_length; reflexivity).
  assert (EP : prods l = map (fun q => B2R (A i q) * B2R (B q j)) (seq 0 k)) by (unfold prods, l; rewrite map_map; reflexivity).
  assert (FP : fin_pairs l).
  { apply Forall_forall. intros q Hq. unfold l in Hq. apply in_map_iff in Hq. destruct Hq as (z & <- & Hz). apply in_seq in Hz. cbn [fst snd]. split; [apply FA; lia|apply FB; lia]. }
  assert (ES : asum (prods l) <= a * rs k (fun q => Rabs (B2R (B q j)))).
  { rewrite EP. unfold asum. rewrite map_map, seq_rs. apply rs_abs_mul. intros q Hq. apply FA, Hq. }
  assert (E0 : 0 <= asum (prods l)). { rewrite EP. unfold asum. rewrite map_map, seq_rs. apply rs_ge0. intros. apply Rabs_pos. }
  destruct (dot_of_err l (np_dot l) (dot_ok l) FP) as [F Er]; [now rewrite LL|lra|]. rewrite LL in Er. split; [exact F|].
  rewrite EP, seq_rs, <- EP in Er. eapply Rle_trans; [exact Er|]. destruct (pow_uro_le k K) as [[P0 P1] P2]. pose proof eta_pos as EPo. pose proof (pos_INR k) as K0.
  apply Rplus_le_compat.
  - apply Rmult_le_compat; lra.
  - replace (2 * INR k * eta) with (INR k * eta * 2) by ring. apply Rmult_le_compat_l; [|lra]. apply Rmult_le_pos; lra.
Qed.
End Dot.

Lemma room500 : 1024 * 2 ^ 500 <= big.
Proof. rewrite pow_bpow. unfold big. change 1024 with (bpow radix2 10). rewrite <- bpow_plus. apply bpow_le. lia. Qed.
Lemma room900 : 1024 * (4 * lim * 2 ^ 500) <= big.
Proof. rewrite pow_bpow. unfold big, lim. change 1024 with (bpow radix2 10). change 4 with (bpow radix2 2). rewrite <- !bpow_plus. apply bpow_le. lia. Qed.
Lemma tiny600 : 16777216 * eta * (4 * lim + 1) <= bpow radix2 (-620).
Proof.
  apply Rle_trans with (16777216 * eta * (8 * lim)).
  - apply Rmult_le_compat_l; [pose proof eta_pos; lra|]. pose proof lim_1. lra.
  - change 16777216 with (bpow radix2 24). change 8 with (bpow radix2 3). unfold eta, lim. rewrite <- !bpow_plus. apply bpow_le. lia.
Qed.

Section Mean.
Variables (np_sum : list b64 -> b64) (np_dot : list (b64 * b64) -> b64) (np_exp : b64 -> b64).
Hypotheses (sum_ok : forall l, sum_of l (np_sum l)) (dot_ok : forall l, dot_of l (np_dot l)) (E_ok : exp_ok np_exp).
Variables (d p : nat) (W M : R) (w : row) (basis : row -> row) (Xs Xn : mat) (Y : list b64) (beta gamma : array).
Hypotheses (d1 : (1 <= d)%nat) (W1 : 1 <= W) (Pw : param_row d W w) (SE : entry_units d W * uro <= / 1000000000).
Hypotheses (P20 : INR p <= 1048576) (Bo : basis_ok d p basis).
Hypotheses (HM : M <= lim) (HY : responses M Y) (HS : spread Y) (XY : length Xs = length Y).
Hypotheses (FX : Forall (scaled_row d) Xs) (FB : finite_weights p beta) (FG : finite_weights (length Xs) gamma).
Local Notation n := (length Xs).
Local Notation Eu := (entry_units d W).
Local Notation m := (B2R (mean64 np_sum Y)).
Local Notation s := (B2R (std64 np_sum Y)).
Local Notation Ab := (mass p beta).
Local Notation Ag := (mass n gamma).
Hypothesis AG : Ab + Ag <= 2 ^ 500.
Variable j : nat.
Hypothesis Hx : scaled_row d (nth j Xn []).
Local Notation knew := (kernel64 np_sum np_dot np_exp w Xs Xn).
Local Notation f := (regr64 basis Xn).
Definition mean_cell : b64 := fadd (dot64 np_dot p f beta j 0%nat) (dot64 np_dot n (transpose knew) gamma j 0%nat).
Definition kx (i : nat) : R := exp (- wdist64 w (nth i Xs []) (nth j Xn [])) + if Nat.eqb i j then / 10 ^ 10 else 0.

Lemma n_small : INR n <= 1048576.
Proof. rewrite XY. apply (n_2 M Y HY). Qed.
Lemma mass_pos q c : 0 <= mass q c. Proof. unfold mass. rewrite total_rs. apply rs_ge0. intros. apply Rabs_pos. Qed.
Lemma wd_unit x y : scaled_row d x -> scaled_row d y -> 0 < exp (- wdist64 w x y) <= 1.
Proof.
  intros _ _. destruct Pw as [_ Fw]. pose proof (wdist64_ge0 W w x y Fw) as G. split; [apply exp_pos|]. rewrite <- exp_0.
  destruct (Req_dec (wdist64 w x y) 0) as [->|N]; [rewrite Ropp_0; lra|left; apply exp_increasing; lra].
Qed.
Lemma ten : 10 ^ 10 = 10000000000. Proof. ring. Qed.
Lemma k_near i : (i < n)%nat -> isfin (knew i j) = true /\ Rabs (B2R (knew i j) - kx i) <= Eu * uro /\ Rabs (kx i) <= 1.001 /\ Rabs (B2R (knew i j)) <= 1.01.
Proof.
  intros Hi. assert (Xi : scaled_row d (nth i Xs [])) by (rewrite Forall_forall in FX; apply FX, nth_In, Hi).
  destruct (kernel64_err d W d1 W1 SE np_sum np_dot np_exp sum_ok dot_ok E_ok w Pw Xs Xn i j Xi Hx) as [F Er]. split; [exact F|].
  unfold kx. rewrite ten. split; [exact Er|]. pose proof (wd_unit _ _ Xi Hx) as U. set (e := exp _) in *. apply Rabs_near in Er.
  assert (A : Rabs (e + (if Nat.eqb i j then / 10000000000 else 0)) <= 1.001) by (destruct (Nat.eqb i j); rewrite Rabs_pos_eq by lra; lra).
  split; [exact A|lra].
Qed.
(** before scaling back *)
Lemma cell_near : isfin mean_cell = true /\
  Rabs (B2R mean_cell - latent w p (basis (nth j Xn [])) beta Xs gamma j (nth j Xn [])) <= (INR p + 1.1 * INR n + Eu + 4) * uro * (Ab + Ag) + 4194304 * 2 * eta.
Proof.
  pose proof room500 as R5. pose proof (mass_pos p beta) as Ab0. pose proof (mass_pos n gamma) as Ag0. pose proof n_small as N20. pose proof uro_pos as U. pose proof uro_val as UV. pose proof eta_pos as EP.
  pose proof (pos_INR p) as P0. pose proof (pos_INR n) as N0. set (lim5 := 2 ^ 500) in *. clearbody lim5.
  assert (EA : rs p (fun l => Rabs (B2R (beta l 0%nat))) = Ab) by (unfold mass; rewrite total_rs; reflexivity).
  assert (EG : rs n (fun l => Rabs (B2R (gamma l 0%nat))) = Ag) by (unfold mass; rewrite total_rs; reflexivity).
  destruct (dot_rs np_dot dot_ok p f beta j 0%nat 1 ltac:(lra) P20) as [F1 E1].
  { intros l Hl. exact (Bo _ Hx l Hl). } { exact FB. } { rewrite EA. lra. }
  destruct (dot_rs np_dot dot_ok n (transpose knew) gamma j 0%nat 1.01 ltac:(lra) N20) as [F2 E2].
  { intros l Hl. unfold transpose. destruct (k_near l Hl) as (F & _ & _ & K). now split. } { exact FG. } { rewrite EG. lra. }
  rewrite EA in E1. rewrite EG in E2. unfold mean_cell. set (a := B2R (dot64 np_dot p f beta j 0%nat)) in *. set (b := B2R (dot64 np_dot n (transpose knew) gamma j 0%nat)) in *.
  set (S1 := rs p _) in E1. set (S2 := rs n _) in E2. set (S3 := rs n (fun i => kx i * B2R (gamma i 0%nat))).
  assert (L : latent w p (basis (nth j Xn [])) beta Xs gamma j (nth j Xn []) = S1 + S3).
  { unfold latent. rewrite !total_rs. reflexivity. }
  assert (D3 : Rabs (S2 - S3) <= Eu * uro * Ag).
  { unfold S2, S3. rewrite <- rs_minus. eapply Rle_trans; [apply rs_abs|]. rewrite <- EG, <- rs_scal. apply rs_le. intros i Hi. unfold transpose.
    replace (B2R (knew i j) * B2R (gamma i 0%nat) - kx i * B2R (gamma i 0%nat)) with ((B2R (knew i j) - kx i) * B2R (gamma i 0%nat)) by ring. rewrite Rabs_mult. apply Rmult_le_compat_r; [apply Rabs_pos|]. apply k_near, Hi. }
  assert (B1 : Rabs S1 <= 1 * Ab). { rewrite <- EA. unfold S1. eapply Rle_trans; [apply rs_abs|]. apply rs_abs_mul. intros l Hl. exact (proj2 (Bo _ Hx l Hl)). }
  assert (B2 : Rabs S3 <= 1.001 * Ag). { rewrite <- EG. unfold S3. eapply Rle_trans; [apply rs_abs|]. apply rs_abs_mul. intros l Hl. apply (k_near l Hl). }
  assert (PU : (INR p + 1) * uro * (1 * Ab) <= 0.001 * Ab). { rewrite Rmult_1_l. apply Rmult_le_compat_r; [lra|]. rewrite UV. lra. }
  assert (NUu : (INR n + 1) * uro * (1.01 * Ag) <= 0.001 * Ag). { rewrite <- Rmult_assoc. apply Rmult_le_compat_r; [lra|]. rewrite UV. lra. }
  assert (EU : Eu * uro * Ag <= 0.001 * Ag) by (apply Rmult_le_compat_r; lra).
  assert (H1 : 2 * INR p * eta <= 2097152 * eta) by (apply Rmult_le_compat_r; lra).
  assert (H2 : 2 * INR n * eta <= 2097152 * eta) by (apply Rmult_le_compat_r; lra).
  pose proof eta_tiny as ET. assert (ET' : 4194304 * eta <= 1) by (rewrite UV in ET; lra).
  pose proof big_large as BL.
  assert (SUM : Rabs (a + b - (S1 + S3)) <= (INR p + 1) * uro * Ab + ((INR n + 1) * 1.01 + Eu) * uro * Ag + 4194304 * eta).
  { replace (a + b - (S1 + S3)) with ((a - S1) + ((b - S2) + (S2 - S3))) by ring. eapply Rle_trans; [apply Rabs_triang|]. pose proof (Rabs_triang (b - S2) (S2 - S3)). lra. }
  assert (AB : Rabs (a + b) <= 1.01 * (Ab + Ag) + 4194304 * eta).
  { apply Rabs_near in SUM. pose proof (Rabs_triang S1 S3). lra. }
  destruct (fadd_err _ _ F1 F2) as [F Er]; [fold a b; lra|]. split; [exact F|]. fold a b in Er. set (v := B2R (fadd _ _)) in *. rewrite L.
  replace (v - (S1 + S3)) with ((v - (a + b)) + (a + b - (S1 + S3))) by ring. eapply Rle_trans; [apply Rabs_triang|].
  assert (X1 : uro * Rabs (a + b) <= uro * (1.01 * (Ab + Ag) + 4194304 * eta)) by (apply Rmult_le_compat_l; lra).
  assert (X2 : uro * (4194304 * eta) <= 4194304 * eta) by (rewrite UV; lra).
  assert (Y1 : 0 <= uro * Ab) by (apply Rmult_le_pos; lra). assert (Y2 : 0 <= uro * Ag) by (apply Rmult_le_pos; lra).
  assert (E0 : 4 <= Eu) by (unfold entry_units; pose proof (D_ge1 d d1); assert (0 <= INR d * W) by nra; nra).
  replace ((INR p + 1.1 * INR n + Eu + 4) * uro * (Ab + Ag)) with ((INR p + 1.1 * INR n + Eu + 4) * (uro * Ab) + (INR p + 1.1 * INR n + Eu + 4) * (uro * Ag)) by ring.
  assert (Z1 : (INR p + 2.02) * (uro * Ab) <= (INR p + 1.1 * INR n + Eu + 4) * (uro * Ab)) by (apply Rmult_le_compat_r; lra).
  assert (Z2 : ((INR n + 1) * 1.01 + Eu + 1.01) * (uro * Ag) <= (INR p + 1.1 * INR n + Eu + 4) * (uro * Ag)) by (apply Rmult_le_compat_r; lra).
  lra.
Qed.
Lemma s_lim : 0 < s <= 4 * lim.
Proof.
  pose proof (spread_low np_sum M Y HY HS) as LOW. pose proof (s_pos np_sum sum_ok M Y HM HY LOW). pose proof (s_between np_sum sum_ok M Y HM HY LOW) as B. pose proof (r_lim np_sum sum_ok M Y HM HY) as Rl.
  pose proof lim_pos. set (r := sqrt _) in *. split; [easy|]. lra.
Qed.
Theorem mean_pred : isfin (restored64 np_sum Y mean_cell) = true /\
  Rabs (B2R (restored64 np_sum Y mean_cell) - (m + s * latent w p (basis (nth j Xn [])) beta Xs gamma j (nth j Xn []))) <=
    uro * ((INR p + 2 * INR n + Eu + 8) * s * (Ab + Ag) + 2 * Rabs m) + bpow radix2 (-610).
Proof.
  pose proof (spread_low np_sum M Y HY HS) as LOW. pose proof s_lim as [S0 S4]. pose proof room900 as R9. pose proof tiny600 as T6.
  destruct (mean_near np_sum sum_ok M Y HM HY) as [Fm _]. pose proof (mean_abs np_sum sum_ok M Y HM HY) as MA. pose proof (s_fin np_sum sum_ok M Y HM HY LOW) as Fs.
  destruct cell_near as [Fc Ec]. set (la := latent w p (basis (nth j Xn [])) beta Xs gamma j (nth j Xn [])) in *. set (v := B2R mean_cell) in *.
  pose proof (mass_pos p beta) as Ab0. pose proof (mass_pos n gamma) as Ag0. pose proof n_small as N20. pose proof uro_pos as U. pose proof uro_val as UV. pose proof eta_pos as EP. pose proof lim_1 as L1. pose proof lim_big as LB.
  pose proof (pos_INR p) as P0. pose proof (pos_INR n) as N0. set (lim5 := 2 ^ 500) in *. clearbody lim5.
  assert (E0 : 4 <= Eu) by (unfold entry_units; pose proof (D_ge1 d d1); assert (0 <= INR d * W) by nra; nra).
  assert (LA : Rabs la <= 1.01 * (Ab + Ag)).
  { unfold la, latent. rewrite !total_rs. eapply Rle_trans; [apply Rabs_triang|].
    assert (X1 : Rabs (rs p (fun k => val (nth k (basis (nth j Xn [])) f0) * val (beta k 0%nat))) <= 1 * Ab).
    { unfold mass. rewrite total_rs. eapply Rle_trans; [apply rs_abs|]. apply rs_abs_mul. intros l Hl. exact (proj2 (Bo _ Hx l Hl)). }
    assert (X2 : Rabs (rs n (fun i => kx i * val (gamma i 0%nat))) <= 1.001 * Ag).
    { unfold mass. rewrite total_rs. eapply Rle_trans; [apply rs_abs|]. apply rs_abs_mul. intros l Hl. apply (k_near l Hl). }
    unfold kx in X2. lra. }
  set (A := Ab + Ag) in *. assert (A0 : 0 <= A) by (unfold A; lra). clearbody A.
  set (c := INR p + 1.1 * INR n + Eu + 4) in *.
  assert (CU : c * uro <= 0.001). { unfold c. rewrite !Rmult_plus_distr_r. rewrite UV in *. lra. }
  assert (C0 : 0 <= c) by (unfold c; lra).
  assert (CA : c * uro * A <= 0.001 * A) by (apply Rmult_le_compat_r; lra).
  clearbody la. set (h := 4194304 * 2 * eta) in *. assert (h0 : 0 < h) by (unfold h; lra).
  pose proof eta_tiny as ET. assert (h1 : h <= 0.001) by (unfold h; rewrite UV in ET; lra).
  assert (SA0 : 0 <= s * A) by (apply Rmult_le_pos; lra). assert (SAl : s * A <= 4 * lim * lim5) by (apply Rmult_le_compat; lra).
  assert (SH : s * h <= 4 * lim * h) by (apply Rmult_le_compat_r; lra).
  assert (VS : Rabs (v * s - s * la) <= c * uro * (s * A) + s * h).
  { replace (v * s - s * la) with (s * (v - la)) by ring. rewrite Rabs_mult, (Rabs_pos_eq s) by lra. replace (c * uro * (s * A) + s * h) with (s * (c * uro * A + h)) by ring. apply Rmult_le_compat_l; lra. }
  assert (VB : Rabs (v * s) <= 1.02 * (s * A) + s * h).
  { apply Rabs_near in VS. rewrite (Rabs_mult s la), (Rabs_pos_eq s) in VS by lra. assert (s * Rabs la <= s * (1.01 * A)) by (apply Rmult_le_compat_l; lra). assert (c * uro * (s * A) <= 0.001 * (s * A)) by (apply Rmult_le_compat_r; lra). lra. }
  pose proof (big_large) as BL. assert (S5 : s * h <= 0.001 * (4 * lim)). { apply Rle_trans with (4 * lim * h); [exact SH|]. rewrite (Rmult_comm 0.001). apply Rmult_le_compat_l; lra. }
  assert (L4 : 4 * lim * 268435456 <= big) by nra.
  assert (M0 : 0 <= M) by (apply (M_0 M Y HY)).
  destruct (fmul_err mean_cell (std64 np_sum Y) Fc Fs) as [F1 E1]; [fold v; lra|]. fold v in E1. set (q := B2R (fmul mean_cell (std64 np_sum Y))) in *.
  assert (USA : uro * (s * A) <= 0.001 * (s * A)) by (apply Rmult_le_compat_r; [lra|rewrite UV; lra]).
  assert (US : uro * (s * h) <= 0.001 * (s * h)) by (apply Rmult_le_compat_r; [apply Rmult_le_pos; lra|rewrite UV; lra]).
  assert (UVS : uro * Rabs (v * s) <= 1.02 * (uro * (s * A)) + uro * (s * h)).
  { replace (1.02 * (uro * (s * A)) + uro * (s * h)) with (uro * (1.02 * (s * A) + s * h)) by ring. apply Rmult_le_compat_l; lra. }
  pose proof (Rabs_near _ _ _ E1) as QN.
  assert (SH0 : 0 <= s * h) by (apply Rmult_le_pos; lra).
  assert (QB : Rabs q <= 1.03 * (s * A) + 1.01 * (s * h) + eta) by (set (vs := Rabs (v * s)) in *; set (sA := s * A) in *; set (sh := s * h) in *; clear - QN UVS USA US VB SA0 SH0; lra).
  assert (QM : Rabs (q + m) <= 1.03 * (s * A) + 1.01 * (s * h) + eta + Rabs m) by (pose proof (Rabs_triang q m); lra).
  assert (e1 : eta <= 0.001) by (rewrite UV in ET; lra).
  destruct (fadd_err _ _ F1 Fm) as [F2 E2]; [fold q; lra|]. fold q in E2. unfold restored64. split; [exact F2|]. set (z := B2R (fadd _ _)) in *.
  replace (z - (m + s * la)) with ((z - (q + m)) + ((q - v * s) + (v * s - s * la))) by ring. eapply Rle_trans; [apply Rabs_triang|]. pose proof (Rabs_triang (q - v * s) (v * s - s * la)) as T2.
  assert (U2 : uro * Rabs (q + m) <= 1.03 * (uro * (s * A)) + 1.01 * (uro * (s * h)) + uro * eta + uro * Rabs m).
  { replace (1.03 * (uro * (s * A)) + 1.01 * (uro * (s * h)) + uro * eta + uro * Rabs m) with (uro * (1.03 * (s * A) + 1.01 * (s * h) + eta + Rabs m)) by ring. apply Rmult_le_compat_l; lra. }
  assert (Ue : uro * eta <= eta) by (rewrite UV; lra).
  assert (UM : 0 <= uro * Rabs m) by (apply Rmult_le_pos; [lra|apply Rabs_pos]).
  assert (US0 : 0 <= uro * (s * A)) by (apply Rmult_le_pos; lra).
  assert (CC : (c + 2.1) * (uro * (s * A)) <= (INR p + 2 * INR n + Eu + 8) * (uro * (s * A))) by (apply Rmult_le_compat_r; [lra|unfold c; lra]).
  assert (TT : 2 * (s * h) + 2 * eta <= bpow radix2 (-610)).
  { apply Rle_trans with (bpow radix2 (-620)); [|apply bpow_le; lia]. apply Rle_trans with (2 := T6).
    replace (2 * (s * h) + 2 * eta) with (16777216 * (s * eta) + 2 * eta) by (unfold h; ring). assert (s * eta <= 4 * lim * eta) by (apply Rmult_le_compat_r; lra). lra. }
  replace (uro * ((INR p + 2 * INR n + Eu + 8) * s * A + 2 * Rabs m)) with ((INR p + 2 * INR n + Eu + 8) * (uro * (s * A)) + 2 * (uro * Rabs m)) by ring.
  set (tt := bpow radix2 (-610)) in *. clearbody tt. lra.
Qed.
End Mean.
