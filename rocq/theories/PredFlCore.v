(** The computed factor and the computed solution of the two triangular systems. *)
From Coq Require Import ZArith Bool List Reals Lra Lia Psatz Permutation.
From Flocq Require Import Core IEEE754.BinarySingleNaN.
From Verif Require Import Fl Spec NpList FlFacts FlMag KernelFl KernelFlSpec FlErr KernelFlFacts CholFl RSum CholFlFacts KernelFlMain KernelFlThms PredFlSpec PredFlMean.
Import ListNotations.
Local Open Scope R_scope.

(** two solves, in the reals *)
Section Two.
Variables (n : nat) (l : nat -> nat -> R) (x z b : nat -> R) (a eps tau : R).
Hypotheses (a0 : 0 <= a) (e0 : 0 <= eps <= / 10) (t0 : 0 <= tau) (la : forall i k, (i < n)%nat -> (k < n)%nat -> Rabs (l i k) <= a).
Local Notation G := (rs n (fun k => Rabs (x k))).
Hypothesis H1 : forall i, (i < n)%nat -> Rabs (rs n (fun k => l i k * z k) - b i) <= eps * a * rs n (fun k => Rabs (z k)) + (1 + a) * tau.
Hypothesis H2 : forall k, (k < n)%nat -> Rabs (rs n (fun i => l i k * x i) - z k) <= eps * a * G + (1 + a) * tau.
Lemma two_solves i : (i < n)%nat ->
  Rabs (rs n (fun j => rs n (fun k => l i k * l j k) * x j) - b i) <= 2.1 * INR n * eps * (a * a) * G + (1 + a) * (1 + 1.1 * INR n * a) * tau.
Proof.
  intros Hi. set (t := (1 + a) * tau) in *. assert (T0 : 0 <= t) by (unfold t; apply Rmult_le_pos; lra). pose proof (pos_INR n) as N0.
  assert (G0 : 0 <= G) by (apply rs_ge0; intros; apply Rabs_pos). set (g := G) in *.
  assert (EA : 0 <= eps * a) by (apply Rmult_le_pos; lra).
  assert (E : rs n (fun j => rs n (fun k => l i k * l j k) * x j) = rs n (fun k => l i k * rs n (fun j => l j k * x j))).
  { transitivity (rs n (fun j => rs n (fun k => l i k * l j k * x j))).
    - apply rs_ext. intros j _. rewrite (Rmult_comm (rs n _)), <- rs_scal. apply rs_ext. intros. ring.
    - rewrite rs_swap. apply rs_ext. intros k _. rewrite <- rs_scal. apply rs_ext. intros. ring. }
  rewrite E. clear E.
  set (S := rs n (fun k => l i k * rs n (fun j => l j k * x j))). set (S' := rs n (fun k => l i k * z k)).
  assert (D1 : Rabs (S - S') <= INR n * (a * (eps * a * g + t))).
  { unfold S, S'. rewrite <- rs_minus. eapply Rle_trans; [apply rs_abs|]. rewrite <- rs_const. apply rs_le. intros k Hk.
    rewrite <- Rmult_minus_distr_l, Rabs_mult. apply Rmult_le_compat; try apply Rabs_pos; [now apply la|now apply H2]. }
  assert (Z : rs n (fun k => Rabs (z k)) <= INR n * (a * g + (eps * a * g + t))).
  { rewrite <- rs_const. apply rs_le. intros k Hk. pose proof (H2 k Hk) as Q. rewrite Rabs_minus_sym in Q. apply Rabs_near in Q.
    assert (Rabs (rs n (fun j => l j k * x j)) <= a * g). { eapply Rle_trans; [apply rs_abs|]. apply rs_abs_mul. intros j Hj. now apply la. } lra. }
  pose proof (H1 i Hi) as Q1. fold S' in Q1.
  assert (Z2 : eps * a * rs n (fun k => Rabs (z k)) <= eps * a * (INR n * (a * g + (eps * a * g + t)))) by (apply Rmult_le_compat_l; lra).
  replace (S - b i) with ((S - S') + (S' - b i)) by ring. eapply Rle_trans; [apply Rabs_triang|].
  set (q := INR n * eps * (a * a) * g). assert (q0 : 0 <= q) by (unfold q; repeat apply Rmult_le_pos; lra).
  set (y := INR n * a * t). assert (y0 : 0 <= y) by (unfold y; repeat apply Rmult_le_pos; lra).
  replace (INR n * (a * (eps * a * g + t))) with (q + y) in D1 by (unfold q, y; ring).
  replace (eps * a * (INR n * (a * g + (eps * a * g + t)))) with (q + eps * q + eps * y) in Z2 by (unfold q, y; ring).
  assert (eps * q <= / 10 * q) by (apply Rmult_le_compat_r; lra). assert (eps * y <= / 10 * y) by (apply Rmult_le_compat_r; lra).
  replace ((1 + a) * (1 + 1.1 * INR n * a) * tau) with (t + 1.1 * y) by (unfold y, t; ring). replace (2.1 * INR n * eps * (a * a) * g) with (2.1 * q) by (unfold q; ring). lra.
Qed.
End Two.

Section Main.
Variables (np_sum : list b64 -> b64) (np_dot : list (b64 * b64) -> b64) (np_exp : b64 -> b64).
Hypotheses (sum_ok : forall l, sum_of l (np_sum l)) (dot_ok : forall l, dot_of l (np_dot l)) (E_ok : exp_ok np_exp).
Variables (d : nat) (W : R) (w : row) (sigma : b64) (X : mat).
Hypotheses (d1 : (1 <= d)%nat) (W1 : 1 <= W) (Pw : param_row d W w) (Fs : isfin sigma = true) (Bs : Rabs (val sigma) <= 2 ^ 400).
Hypotheses (X1 : X <> []) (FX : Forall (scaled_row d) X) (SZ : safe_size (length X) d W).
Local Notation n := (length X).
Local Notation E := (entry_units d W).
Local Notation nu := (B2R (fmul sigma sigma)).
Local Notation M := (covariance64 np_sum np_dot np_exp w sigma X).
(** the exact covariance *)
Definition kk (i j : nat) : R := exp (- wdist64 w (nth i X []) (nth j X [])) + if Nat.eqb i j then / 10000000000 + nu else 0.
Lemma kk_sym i j : kk i j = kk j i.
Proof. unfold kk. rewrite (wdist64_sym w (nth i X []) (nth j X [])), (Nat.eqb_sym i j). reflexivity. Qed.
Lemma nu_pos : 0 <= nu. Proof. apply (square_val sigma Fs Bs). Qed.
Lemma entry_cov i j : (i < n)%nat -> (j < n)%nat -> isfin (M i j) = true /\ Rabs (B2R (M i j) - kk i j) <= (E + 2) * uro + (if Nat.eqb i j then nu * uro else 0).
Proof. apply (entry_err np_sum np_dot np_exp sum_ok dot_ok E_ok d W w sigma X d1 W1 Pw Fs Bs X1 FX SZ). Qed.
Lemma kk_diag i : (i < n)%nat -> kk i i <= 1.0001 + nu.
Proof. intros _. unfold kk. rewrite (wdist64_self w), Nat.eqb_refl, Ropp_0, exp_0. lra. Qed.
Lemma factor_sharp r : cholesky64 n M r ->
  exists L, r = Ok L /\ (forall i j, (j <= i < n)%nat -> isfin (L i j) = true) /\
    forall i j, (j <= i < n)%nat -> Rabs (rs (S j) (fun k => B2R (L i k) * B2R (L j k)) - B2R (M i j)) <= cdel n (1.01 * (1 + nu)).
Proof.
  intros R. destruct (square_val sigma Fs Bs) as [_ [N0 N2]].
  destruct (margin_big d W sigma X d1 W1 Fs Bs X1 FX SZ) as [MB _].
  pose proof (n_ge1 d W X X1 FX SZ) as N1. pose proof (E_ge4 d W d1 W1) as E4. pose proof uro_pos as UP.
  pose proof SZ as H. unfold safe_size in H.
  assert (P1 : 0 <= INR n * (E + 2)) by nra. assert (NS : INR n <= 1000000) by nra.
  destruct (chol64_succeeds n M (1.01 * (1 + nu)) (margin d W sigma X) r NS) as (L & RL & L1 & L2 & L3);
    [lra| | |exact (covariance_margin np_sum np_dot np_exp sum_ok dot_ok E_ok d W w sigma X d1 W1 Pw Fs Bs X1 FX SZ)|exact MB|exact R|].
  - assert (2 ^ 900 + 1 <= 2 ^ 901). { change (2 ^ 901) with (2 * 2 ^ 900). assert (1 <= 2 ^ 900) by (apply pow_R1_Rle; lra). lra. }
    assert (2 ^ 901 * 2 ^ 41 <= big).
    { rewrite <- pow_add. unfold big. rewrite bpow_powerRZ. change 1000%Z with (Z.of_nat 1000). rewrite <- pow_powerRZ. change (IZR (radix_val radix2)) with 2. apply Rle_pow; [lra|lia]. }
    assert (1.01 * 1000000000000 <= 2 ^ 41) by (replace (2 ^ 41) with 2199023255552 by ring; lra).
    apply Rle_trans with (2 ^ 901 * 2 ^ 41); [|easy]. replace (1.01 * (1 + nu) * 1000000000000) with ((1 + nu) * (1.01 * 1000000000000)) by lra.
    apply Rmult_le_compat; lra.
  - intros i j Hi. destruct (entry_cov i j ltac:(lia) ltac:(lia)) as [F e]. split; [exact F|]. apply Rabs_near in e. unfold kk in e.
    destruct Pw as [_ Fw]. pose proof (wdist64_ge0 W w (nth i X []) (nth j X []) Fw) as G.
    assert (K1 : 0 < exp (- wdist64 w (nth i X []) (nth j X [])) <= 1).
    { split; [apply exp_pos|]. rewrite <- exp_0. destruct (Req_dec (wdist64 w (nth i X []) (nth j X [])) 0) as [->|N]; [rewrite Ropp_0; lra|left; apply exp_increasing; lra]. }
    pose proof (E_small d W X d1 W1 X1 FX SZ) as ES. assert (NU : nu * uro <= nu * 0.001) by (apply Rmult_le_compat_l; [lra|]; rewrite uro_val; lra). assert (U2 : 2 * uro <= 0.001) by (rewrite uro_val; lra).
    apply Rle_trans with (1 := e). set (kx := exp _) in *. clear e. destruct (Nat.eqb i j); rewrite Rabs_pos_eq by lra; lra.
  - exists L. split; [exact RL|]. split; [exact L1|]. exact L3.
Qed.
(** all entries, the factor being zero above the diagonal *)
Lemma factor_full L : cholesky64 n M (Ok L) -> (forall i j, (i < j < n)%nat -> L i j = f0) ->
  (forall i k, (i < n)%nat -> (k < n)%nat -> isfin (L i k) = true /\ Rabs (B2R (L i k)) <= sqrt (1.02 * (1 + nu))) /\
  (forall i j, (i < n)%nat -> (j < n)%nat ->
    Rabs (rs n (fun k => B2R (L i k) * B2R (L j k)) - kk i j) <= cdel n (1.01 * (1 + nu)) + (E + 2) * uro + (if Nat.eqb i j then nu * uro else 0)).
Proof.
  intros R Z. destruct (factor_sharp _ R) as (L' & EL & F & B). injection EL as <-. pose proof nu_pos as N0.
  assert (LE : forall i k, (i < n)%nat -> (k < n)%nat -> B2R (L i k) = Lz L i k).
  { intros i k Hi Hk. destruct (Nat.le_gt_cases k i) as [H|H]; [now rewrite Lz_le|]. rewrite Lz_gt, Z by lia. reflexivity. }
  assert (TR : forall i j, (i < n)%nat -> (j < n)%nat -> rs n (fun k => B2R (L i k) * B2R (L j k)) = rs (S j) (fun k => B2R (L i k) * B2R (L j k))).
  { intros i j Hi Hj. rewrite (rs_ext n _ (fun k => Lz L i k * Lz L j k)) by (intros; rewrite !LE by assumption; reflexivity).
    rewrite Lz_trunc by exact Hj. apply rs_ext. intros k Hk. rewrite !LE by lia. reflexivity. }
  assert (LOW : forall i j, (j <= i < n)%nat -> Rabs (rs n (fun k => B2R (L i k) * B2R (L j k)) - kk i j) <= cdel n (1.01 * (1 + nu)) + (E + 2) * uro + (if Nat.eqb i j then nu * uro else 0)).
  { intros i j Hi. rewrite TR by lia. pose proof (B i j Hi) as Q. destruct (entry_cov i j ltac:(lia) ltac:(lia)) as [_ e].
    set (q := rs _ _) in *. replace (q - kk i j) with ((q - B2R (M i j)) + (B2R (M i j) - kk i j)) by ring. eapply Rle_trans; [apply Rabs_triang|]. lra. }
  split.
  - intros i k Hi Hk. destruct (Nat.le_gt_cases k i) as [H|H]; [|rewrite Z by lia; split; [reflexivity|cbn; rewrite Rabs_R0; apply sqrt_pos]].
    split; [apply F; lia|]. rewrite <- sqrt_Rsqr_abs. apply sqrt_le_1_alt. unfold Rsqr.
    assert (Q : B2R (L i k) * B2R (L i k) <= rs n (fun k => B2R (L i k) * B2R (L i k))) by (apply (rs_term n (fun k => B2R (L i k) * B2R (L i k)) k Hk); intros; nra).
    pose proof (LOW i i ltac:(lia)) as P. rewrite Nat.eqb_refl in P. apply Rabs_le_inv in P. pose proof (kk_diag i Hi) as D.
    pose proof (E_small d W X d1 W1 X1 FX SZ) as ES. assert (NU : nu * uro <= nu * 0.001) by (apply Rmult_le_compat_l; [lra|]; rewrite uro_val; lra). assert (U2 : 2 * uro <= 0.001) by (rewrite uro_val; lra).
    assert (CD : cdel n (1.01 * (1 + nu)) <= 0.001 * (1 + nu)).
    { unfold cdel. pose proof SZ as SZ'. unfold safe_size in SZ'. pose proof (n_ge1 d W X X1 FX SZ) as N1. pose proof (E_ge4 d W d1 W1) as E4.
      assert (P1 : 0 <= INR n * (E + 2)) by nra. assert ((INR n + 6) * 3 <= (INR n + 6) * (INR n + 2)) by (apply Rmult_le_compat_l; lra).
      replace ((INR n + 6) * 2.1 * uro * (1.01 * (1 + nu))) with ((1 + nu) * ((INR n + 6) * (2.121 * uro))) by lra. rewrite (Rmult_comm 0.001). apply Rmult_le_compat_l; [lra|]. rewrite uro_val. lra. }
    lra.
  - intros i j Hi Hj. destruct (Nat.le_gt_cases j i) as [H|H]; [now apply LOW|].
    rewrite kk_sym, Nat.eqb_sym. rewrite (rs_ext n _ (fun k => B2R (L j k) * B2R (L i k))) by (intros; ring). apply LOW. lia.
Qed.
End Main.
