(** Predictions in binary64: their accuracy, and what they give at the samples after training. *)
From Coq Require Import ZArith Bool List Reals Lra Lia Psatz Permutation.
From Flocq Require Import Core IEEE754.BinarySingleNaN.
From Verif Require Import Fl Spec NpList FlFacts FlMag KernelFl KernelFlSpec FlErr KernelFlFacts CholFl RSum CholFlFacts KernelFlMain KernelFlRef KernelFlThms OutputFl OutputFlSpec OutputFlFacts OutputFlMain OutputFlThms TrainFl TrainFlMain PredFlSpec PredFlMean PredFlCore.
Import ListNotations.
Local Open Scope R_scope.

Lemma rs_pick n q c (g : nat -> R) : rs n (fun m => (if Nat.eqb m q then c else 0) * g m) = if Nat.ltb q n then c * g q else 0.
Proof.
  destruct (Nat.ltb_spec q n) as [H|H].
  - rewrite (rs_sup 0 n q) by (try lia; intros k _ N; apply Nat.eqb_neq in N; rewrite N; ring). cbn [rs]. rewrite Nat.eqb_refl. ring.
  - apply rs_zero. intros k Hk. destruct (Nat.eqb_spec k q); [lia|ring].
Qed.
(** the scaled response, scaled back in exact arithmetic *)
Lemma unscaled np_sum M Y y : (forall l, sum_of l (np_sum l)) -> M <= lim -> responses M Y -> spread Y -> In y Y ->
  isfin (scaled np_sum Y y) = true /\ Rabs (B2R (scaled np_sum Y y)) <= 1.01 * INR (length Y) /\
  Rabs (B2R (std64 np_sum Y) * B2R (scaled np_sum Y y) + B2R (mean64 np_sum Y) - B2R y) <= 4.1 * uro * M + bpow radix2 (-610).
Proof.
  intros sum_ok HM HY HS I. pose proof (spread_low np_sum M Y HY HS) as LOW.
  destruct (dev_near np_sum sum_ok M Y HM HY y I) as [Fd Ed]. destruct (mean_near np_sum sum_ok M Y HM HY) as [Fm _]. pose proof (mean_abs np_sum sum_ok M Y HM HY) as MA.
  destruct (scaled_abs np_sum sum_ok M Y HM HY LOW y I) as [Fv VA]. pose proof (scaled_value np_sum sum_ok M Y HM HY LOW y I) as VV.
  pose proof (s_lim np_sum sum_ok M Y HM HY HS) as [S0 S4]. pose proof (abs_Y M Y HY y I) as AY. pose proof uro_pos as U. pose proof uro_val as UV. pose proof eta_pos as EP. pose proof eta_1 as E1. pose proof tiny600 as T6.
  pose proof (fsub_fin y (mean64 np_sum Y) (fin_Y M Y HY y I) Fm Fd) as Vd. pose proof (M_0 M Y HY) as M0. pose proof (n_1 M Y HY) as N1.
  set (mm := B2R (mean64 np_sum Y)) in *. set (t := B2R y - mm) in *. set (dd := B2R (fsub y (mean64 np_sum Y))) in *. set (s := B2R (std64 np_sum Y)) in *.
  split; [exact Fv|]. split.
  { assert (sqrt (INR (length Y)) <= INR (length Y)). { rewrite <- (sqrt_square (INR (length Y))) at 2 by lra. apply sqrt_le_1_alt. nra. }
    assert (/ 2 ^ 30 <= 0.001) by (replace (/ 2 ^ 30) with (/ 1073741824) by (f_equal; ring); lra).
    pose proof (sqrt_pos (INR (length Y))) as SP. eapply Rle_trans; [exact VA|]. set (q := sqrt _) in *. set (z := / 2 ^ 30) in *. apply Rle_trans with (q * 1.01); [apply Rmult_le_compat_l; lra|lra]. }
  assert (EV : Rabs (B2R (scaled np_sum Y y) - dd / s) <= uro * Rabs (dd / s) + eta) by (rewrite VV, <- Vd; apply rnd_err). set (v := B2R (scaled np_sum Y y)) in *.
  assert (P : Rabs (v * s - dd) <= uro * Rabs dd + eta * s).
  { replace (v * s - dd) with ((v - dd / s) * s) by (field; lra). rewrite Rabs_mult, (Rabs_pos_eq s) by lra. replace (uro * Rabs dd + eta * s) with ((uro * Rabs (dd / s) + eta) * s).
    - apply Rmult_le_compat_r; lra. - unfold Rdiv. rewrite Rabs_mult, (Rabs_pos_eq (/ s)) by (left; now apply Rinv_0_lt_compat). field. lra. }
  assert (TA : Rabs t <= 2.00001 * M + eta). { unfold t. replace (B2R y - mm) with (B2R y + - mm) by ring. eapply Rle_trans; [apply Rabs_triang|]. rewrite Rabs_Ropp. lra. }
  pose proof (Rabs_near _ _ _ Ed) as DN. pose proof (Rabs_pos t) as TP.
  assert (UT : uro * Rabs t <= uro * (2.00001 * M + eta)) by (apply Rmult_le_compat_l; lra).
  assert (UD : uro * Rabs dd <= uro * (1.0001 * (2.00001 * M + eta))). { apply Rmult_le_compat_l; [lra|]. assert (uro * Rabs t <= 0.0001 * Rabs t) by (apply Rmult_le_compat_r; [lra|rewrite UV; lra]). lra. }
  replace (s * v + mm - B2R y) with ((v * s - dd) + (dd - t)) by (unfold t; ring). eapply Rle_trans; [apply Rabs_triang|].
  assert (UM : 0 <= uro * M) by (apply Rmult_le_pos; lra).
  assert (es : eta * s <= eta * (4 * lim)) by (apply Rmult_le_compat_l; lra). assert (Ue : uro * eta <= eta) by (rewrite UV; lra).
  assert (TT : 4 * eta + eta * (4 * lim) <= bpow radix2 (-610)). { apply Rle_trans with (bpow radix2 (-620)); [|apply bpow_le; lia]. apply Rle_trans with (2 := T6). pose proof lim_pos. nra. }
  set (tt := bpow radix2 (-610)) in *. clearbody tt. lra.
Qed.

Section Main.
Variables (np_sum : list b64 -> b64) (np_dot : list (b64 * b64) -> b64) (np_exp np_log np_pow10 : b64 -> b64).
Variable np_cholesky : nat -> array -> result array.
Variable np_solve : nat -> nat -> array -> array -> result array.
Variables (basis : row -> row) (p : nat).
Variable bounds : box.
Local Notation train := (train64 np_sum np_dot np_exp np_log np_pow10 np_cholesky np_solve basis p bounds).
Local Notation update := (update64 np_sum np_dot np_exp np_log np_pow10 np_cholesky np_solve basis p).
Local Notation predict := (predict64 np_sum np_dot np_exp basis p bounds).
Local Notation solve2 := (solve2 np_solve).
Local Notation dot := (dot64 np_dot).
Local Notation dataset := (dataset64 np_sum bounds).
Local Notation d := (length bounds).
Hypotheses (sum_ok : forall l, sum_of l (np_sum l)) (dot_ok : forall l, dot_of l (np_dot l)) (E_ok : exp_ok np_exp).

Lemma scaled_rows X : finite_box bounds -> Forall (inside bounds) X -> Forall (scaled_row d) (map (normalize64 bounds) X).
Proof. intros B H. apply Forall_forall. intros z I. apply in_map_iff in I. destruct I as (x & <- & Ix). rewrite Forall_forall in H. exact (normalize_scaled bounds x B (H x Ix)). Qed.
Lemma nth_scaled X j : (j < length X)%nat -> nth j (map (normalize64 bounds) X) [] = normalize64 bounds (nth j X []).
Proof. intros H. rewrite (nth_indep _ [] (normalize64 bounds [])) by (rewrite map_length; exact H). apply map_nth. Qed.

Theorem predict_near o X Y Xq beta gamma W M : (1 <= d)%nat -> 1 <= W -> entry_units d W <= 9000000 -> finite_box bounds -> Forall (inside bounds) X ->
  length X = length Y -> M <= 2 ^ 400 -> responses M Y -> spread Y -> INR p <= 2 ^ 20 -> basis_ok d p basis ->
  g_data o = Some (dataset X Y) -> param_row d W (g_param o) ->
  get_rows (g_attr o abeta) p = Ok beta -> get_rows (g_attr o agamma) (length X) = Ok gamma ->
  finite_weights p beta -> finite_weights (length X) gamma -> mass p beta + mass (length X) gamma <= 2 ^ 500 ->
  exists out, predict o Xq = Ok out /\ length out = length Xq /\
    forall j, (j < length Xq)%nat -> inside bounds (nth j Xq []) ->
      let x := normalize64 bounds (nth j Xq []) in
      isfin (nth j out f0) = true /\
      Rabs (val (nth j out f0) - (val (mean64 np_sum Y) + val (std64 np_sum Y) * latent (g_param o) p (basis x) beta (map (normalize64 bounds) X) gamma j x)) <=
        / 2 ^ 53 * ((INR p + 2 * INR (length X) + entry_units d W + 8) * val (std64 np_sum Y) * (mass p beta + mass (length X) gamma) + 2 * Rabs (val (mean64 np_sum Y))) + / 2 ^ 600.
Proof.
  intros d1 W1 EW B FX XY HM HY HS P20 Bo D Pw Hb Hg FB FG AG. unfold predict64. rewrite D. cbn [get64 bind dataset64 d_x d_scaled_x d_y]. cbv zeta. rewrite Hb, Hg. cbn [bind].
  eexists. split; [reflexivity|]. split; [rewrite map_length, seq_length; reflexivity|]. intros j Hj Ij. cbv zeta.
  set (cell := fun j : nat => _). rewrite (nth_indep _ f0 (cell 0%nat)) by (rewrite map_length, seq_length; exact Hj). rewrite (map_nth cell). rewrite seq_nth by exact Hj. cbn [Nat.add].
  set (Xs := map (normalize64 bounds) X). set (Xn := map (normalize64 bounds) Xq).
  assert (LX : length Xs = length X) by apply map_length. assert (EX : nth j Xn [] = normalize64 bounds (nth j Xq [])) by (apply nth_scaled, Hj).
  assert (SE : entry_units d W * uro <= / 1000000000) by (rewrite uro_val; lra).
  rewrite lim_pow in HM. rewrite <- LX in FG, AG.
  destruct (mean_pred np_sum np_dot np_exp sum_ok dot_ok E_ok d p W M (g_param o) basis Xs Xn Y beta gamma d1 W1 Pw SE) with (j := j) as [F Er].
  - replace (2 ^ 20) with 1048576 in P20 by ring. exact P20.
  - exact Bo. - exact HM. - exact HY. - exact HS. - now rewrite LX. - apply scaled_rows; assumption. - exact FB. - exact FG. - exact AG.
  - rewrite EX. apply normalize_scaled; [exact B|exact Ij].
  - assert (EC : cell j = restored64 np_sum Y (mean_cell np_sum np_dot np_exp p (g_param o) basis Xs Xn beta gamma j)).
    { unfold cell, mean_cell. rewrite LX. reflexivity. }
    rewrite EC, <- EX, <- LX. split; [exact F|]. unfold val. eapply Rle_trans; [exact Er|]. rewrite (inv_pow 53), (inv_pow 600). fold uro. apply Rplus_le_compat_l, bpow_le. cbn. lia.
Qed.

(** the attributes after a successful training *)
Lemma trained o X Y s o' : train o X Y s = (o', Ok tt) -> exists noise L beta gamma,
  g_data o' = Some (dataset X Y) /\ g_noise o' = Some noise /\
  np_cholesky (length X) (covariance64 np_sum np_dot np_exp (g_param o') (fdiv noise (std64 np_sum Y)) (map (normalize64 bounds) X)) = Ok L /\
  g_attr o' abeta = Some (Arr p beta) /\ g_attr o' agamma = Some (Arr (length X) gamma) /\
  solve2 (length X) 1 L (minus (column (normalize_output64 np_sum Y)) (dot p (regr64 basis (map (normalize64 bounds) X)) beta)) = Ok gamma.
Proof.
  intros E. destruct (train_cases np_sum np_dot np_exp np_log np_pow10 np_cholesky np_solve basis p bounds o X Y s) as [(e & _ & F)|(h & _ & F)]; rewrite E in F; [discriminate F|].
  symmetry in F. revert F. unfold update64. cbn [put_opt64 put_data64 g_data g_opt get64 step dataset64 d_x d_scaled_x d_y d_scaled_y]. cbv zeta.
  set (noise := match g_noise _ with None => _ | Some s0 => s0 end).
  cbn [g_param put_noise64 put_param64]. set (K := covariance64 _ _ _ _ _ _).
  destruct (np_cholesky (length X) K) as [L|] eqn:C; cbn [step]; [|discriminate].
  destruct (solve2 (length X) 1 L (column _)) as [alpha|]; cbn [step]; [|discriminate].
  destruct (solve2 (length X) p L _) as [KF|]; cbn [step]; [|discriminate].
  destruct (np_cholesky p _) as [ld|]; cbn [step]; [|discriminate].
  destruct (solve2 p 1 ld _) as [beta|]; cbn [step]; [|discriminate].
  destruct (solve2 (length X) 1 L _) as [gamma|] eqn:G; cbn [step]; [|discriminate].
  intros Q. injection Q as <-. exists noise, L, beta, gamma. split; [reflexivity|]. split; [reflexivity|]. split; [exact C|]. split; [reflexivity|]. split; [reflexivity|]. exact G.
Qed.

Section After.
Variables (eps W M : R) (o : gp64) (X : mat) (Y : list b64) (se : search64) (o' : gp64) (noise : b64) (beta gamma : array).
Hypotheses (Ch : forall n A, cholesky64 n A (np_cholesky n A)) (Lo : lower_factor np_cholesky) (So : backward_stable eps np_solve) (e0 : 0 <= eps <= / 10).
Hypotheses (d1 : (1 <= d)%nat) (W1 : 1 <= W) (SZ : safe_size (length X) d W) (Bx : finite_box bounds) (FX : Forall (inside bounds) X).
Hypotheses (XY : length X = length Y) (HM : M <= 2 ^ 400) (HY : responses M Y) (HS : spread Y) (P20 : INR p <= 2 ^ 20) (Bo : basis_ok d p basis).
Hypothesis T : train o X Y se = (o', Ok tt).
Hypotheses (Pw : param_row d W (g_param o')) (Hn : g_noise o' = Some noise).
Local Notation sg := (fdiv noise (std64 np_sum Y)).
Hypotheses (Fs : isfin sg = true) (Bs : Rabs (val sg) <= 2 ^ 100).
Hypotheses (Hb : g_attr o' abeta = Some (Arr p beta)) (Hg : g_attr o' agamma = Some (Arr (length X) gamma)).
Hypotheses (FB : finite_weights p beta) (FG : finite_weights (length X) gamma) (AG : mass p beta + mass (length X) gamma <= 2 ^ 500).
Local Notation n := (length X).
Local Notation Eu := (entry_units d W).
Local Notation nu := (B2R (fmul sg sg)).
Local Notation Xs := (map (normalize64 bounds) X).
Local Notation G := (mass n gamma).
Local Notation Ab := (mass p beta).
Local Notation f := (regr64 basis Xs).
Local Notation b := (minus (column (normalize_output64 np_sum Y)) (dot p f beta)).

Lemma LXs : length Xs = n. Proof. apply map_length. Qed.
Lemma XsN : Xs <> [].
Proof. intros H. apply (f_equal (@length _)) in H. rewrite LXs in H. destruct HY as (L & _). cbn in H. lia. Qed.
Lemma Bs' : Rabs (val sg) <= 2 ^ 400.
Proof. apply Rle_trans with (1 := Bs). apply Rle_pow; [lra|lia]. Qed.
Lemma FXs : Forall (scaled_row d) Xs. Proof. apply scaled_rows; assumption. Qed.
Lemma SZs : safe_size (length Xs) d W. Proof. rewrite LXs. exact SZ. Qed.
Lemma nu_small : nu <= bpow radix2 201.
Proof.
  assert (H : Rabs (B2R sg * B2R sg) <= bpow radix2 200).
  { rewrite Rabs_mult. change 200%Z with (100 + 100)%Z. rewrite bpow_plus. change (bpow radix2 100) with (bpow radix2 (Z.of_nat 100)). rewrite <- pow_bpow. apply Rmult_le_compat; try apply Rabs_pos; exact Bs. }
  assert (B2 : bpow radix2 200 <= big) by (apply bpow_le; lia).
  assert (B3 : bpow radix2 201 = 2 * bpow radix2 200) by (change 201%Z with (1 + 200)%Z; rewrite bpow_plus; reflexivity).
  assert (B4 : 1 <= bpow radix2 200) by (change 1 with (bpow radix2 0); apply bpow_le; lia).
  destruct (fmul_err sg sg Fs Fs) as [_ Er]; [pose proof big_pos; lra|]. apply Rabs_near in Er. pose proof (Rle_abs nu). pose proof uro_val as UV. pose proof eta_1.
  assert (uro * Rabs (B2R sg * B2R sg) <= 0.001 * Rabs (B2R sg * B2R sg)) by (apply Rmult_le_compat_r; [apply Rabs_pos|rewrite UV; lra]).
  assert (B5 : 1024 <= bpow radix2 200) by (change 1024 with (bpow radix2 10); apply bpow_le; lia). lra.
Qed.
(** the weights solve the exact system, nearly *)
Lemma weights_near i : (i < n)%nat ->
  isfin (b i 0%nat) = true /\
  Rabs (rs n (fun j => kk (g_param o') sg Xs i j * B2R (gamma j 0%nat)) - B2R (b i 0%nat)) <=
    2.2 * INR n * eps * (1 + nu) * G + (cdel n (1.01 * (1 + nu)) + (Eu + 2) * uro + nu * uro) * G + bpow radix2 (-770).
Proof.
  intros Hi. destruct (trained o X Y se o' T) as (no & L & be & ga & Dt & Nn & C & Eb & Eg & S2).
  rewrite Hn in Nn. injection Nn as <-. rewrite Hb in Eb. injection Eb as <-. rewrite Hg in Eg. injection Eg as <-.
  pose proof (Ch n (covariance64 np_sum np_dot np_exp (g_param o') sg Xs)) as CC. rewrite C in CC.
  pose proof (factor_full np_sum np_dot np_exp sum_ok dot_ok E_ok d W (g_param o') sg Xs d1 W1 Pw Fs Bs' XsN FXs SZs L) as FF. rewrite LXs in FF.
  destruct (FF CC (Lo _ _ _ C)) as [FL KL]. clear FF. set (a := sqrt (1.02 * (1 + nu))) in *.
  pose proof (nu_pos sg Fs Bs') as N0. pose proof nu_small as NS.
  assert (a0 : 0 <= a) by apply sqrt_pos. assert (aa : a * a = 1.02 * (1 + nu)) by (apply sqrt_sqrt; lra).
  unfold TrainFl.solve2, bind in S2. destruct (np_solve n 1 L b) as [Z|] eqn:S1; [|discriminate S2].
  assert (Q2 := So n 1%nat (transpose L) Z gamma a 0%nat S2 ltac:(lia) (fun i k Hi Hk => FL k i Hk Hi) FG).
  assert (Q1 := So n 1%nat L b Z a 0%nat S1 ltac:(lia) FL (fun i Hi => proj1 (Q2 i Hi))).
  split; [exact (proj1 (Q1 i Hi))|].
  assert (R2 := two_solves n (fun i k => B2R (L i k)) (fun k => B2R (gamma k 0%nat)) (fun k => B2R (Z k 0%nat)) (fun i => B2R (b i 0%nat)) a eps (/ 2 ^ 1000) a0 e0).
  assert (GE : rs n (fun k => Rabs (B2R (gamma k 0%nat))) = G) by (unfold mass; rewrite total_rs; reflexivity).
  specialize (R2 ltac:(left; apply Rinv_0_lt_compat, pow_lt; lra) (fun i k Hi Hk => proj2 (FL i k Hi Hk))).
  specialize (R2 ltac:(intros k Hk; destruct (Q1 k Hk) as [_ q]; rewrite !total_rs in q; exact q)).
  specialize (R2 ltac:(intros k Hk; destruct (Q2 k Hk) as [_ q]; rewrite !total_rs in q; exact q) i Hi).
  cbv beta in R2. rewrite GE in R2. set (S := rs n (fun j => rs n _ * _)) in R2. rewrite inv_pow in R2. change (- Z.of_nat 1000)%Z with (-1000)%Z in R2.
  set (K := rs n (fun j => kk (g_param o') sg Xs i j * B2R (gamma j 0%nat))).
  pose proof uro_pos as U. assert (G0 : 0 <= G) by (rewrite <- GE; apply rs_ge0; intros; apply Rabs_pos).
  assert (D : Rabs (K - S) <= (cdel n (1.01 * (1 + nu)) + (Eu + 2) * uro + nu * uro) * G).
  { unfold K, S. rewrite <- rs_minus. eapply Rle_trans; [apply rs_abs|]. rewrite <- GE, <- rs_scal. apply rs_le. intros j Hj.
    rewrite <- Rmult_minus_distr_r, Rabs_mult. apply Rmult_le_compat_r; [apply Rabs_pos|]. rewrite Rabs_minus_sym. eapply Rle_trans; [apply (KL i j Hi Hj)|].
    assert (0 <= nu * uro) by (apply Rmult_le_pos; lra). destruct (Nat.eqb i j); lra. }
  assert (TT : (1 + a) * (1 + 1.1 * INR n * a) * bpow radix2 (-1000) <= bpow radix2 (-770)).
  { assert (A1 : a <= bpow radix2 102).
    { unfold a. rewrite <- (sqrt_square (bpow radix2 102)) by apply bpow_ge_0. apply sqrt_le_1_alt. rewrite <- bpow_plus.
      apply Rle_trans with (4 * bpow radix2 201). - assert (1 <= bpow radix2 201) by (change 1 with (bpow radix2 0); apply bpow_le; lia). lra. - change 4 with (bpow radix2 2). rewrite <- bpow_plus. apply bpow_le. lia. }
    assert (B2 : 1 + a <= bpow radix2 103). { change 103%Z with (1 + 102)%Z. rewrite bpow_plus. change (bpow radix2 1) with 2. assert (1 <= bpow radix2 102) by (change 1 with (bpow radix2 0); apply bpow_le; lia). lra. }
    assert (N2 : INR n <= 1048576) by (rewrite XY; apply (n_2 M Y HY)). pose proof (pos_INR n) as Nn.
    assert (B3 : 1 + 1.1 * INR n * a <= bpow radix2 123).
    { apply Rle_trans with (2 * 1048576 * bpow radix2 102).
      - assert (1 <= bpow radix2 102) by (change 1 with (bpow radix2 0); apply bpow_le; lia). assert (INR n * a <= 1048576 * bpow radix2 102) by (apply Rmult_le_compat; lra). lra.
      - change (2 * 1048576) with (2 * bpow radix2 20). change 2 with (bpow radix2 1) at 1. rewrite <- !bpow_plus. apply bpow_le. lia. }
    apply Rle_trans with (bpow radix2 (103 + 123 + -1000)); [|apply bpow_le; lia]. rewrite !bpow_plus. apply Rmult_le_compat_r; [apply bpow_ge_0|].
    assert (0 <= INR n * a) by (apply Rmult_le_pos; lra). apply Rmult_le_compat; lra. }
  rewrite aa in R2.
  assert (q0 : 0 <= INR n * eps * (1 + nu) * G) by (pose proof (pos_INR n); repeat apply Rmult_le_pos; lra).
  replace (2.1 * INR n * eps * (1.02 * (1 + nu)) * G) with (2.142 * (INR n * eps * (1 + nu) * G)) in R2 by lra.
  replace (2.2 * INR n * eps * (1 + nu) * G) with (2.2 * (INR n * eps * (1 + nu) * G)) by ring.
  replace (K - B2R (b i 0%nat)) with ((K - S) + (S - B2R (b i 0%nat))) by ring. eapply Rle_trans; [apply Rabs_triang|]. lra.
Qed.
(** the right hand side *)
Lemma rhs_near i : (i < n)%nat -> isfin (b i 0%nat) = true ->
  isfin (nth i (normalize_output64 np_sum Y) fnan) = true /\
  Rabs (B2R (b i 0%nat) - (B2R (nth i (normalize_output64 np_sum Y) fnan) - rs p (fun k => B2R (nth k (basis (nth i Xs [])) f0) * B2R (beta k 0%nat)))) <=
    uro * (1.01 * INR n + 1.02 * Ab) + (INR p + 1) * uro * Ab + 4194304 * eta.
Proof.
  intros Hi Fb. set (v := nth i (normalize_output64 np_sum Y) fnan). rewrite lim_pow in HM.
  assert (Ev : v = scaled np_sum Y (nth i Y fnan)).
  { unfold v. rewrite normalize_map. rewrite (nth_indep _ fnan (scaled np_sum Y fnan)) by (rewrite map_length, <- XY; exact Hi). apply map_nth. }
  assert (Iy : In (nth i Y fnan) Y) by (apply nth_In; rewrite <- XY; exact Hi).
  destruct (unscaled np_sum M Y _ sum_ok HM HY HS Iy) as (Fv & Bv & _). rewrite <- Ev in Fv, Bv. rewrite <- XY in Bv. split; [exact Fv|].
  assert (EA : rs p (fun l => Rabs (B2R (beta l 0%nat))) = Ab) by (unfold mass; rewrite total_rs; reflexivity).
  assert (A0 : 0 <= Ab) by (apply mass_pos). assert (G0 : 0 <= G) by (apply mass_pos).
  assert (Xi : scaled_row d (nth i Xs [])). { pose proof FXs as F. rewrite Forall_forall in F. apply F, nth_In. rewrite LXs. exact Hi. }
  pose proof room500 as R5. set (l5 := 2 ^ 500) in *. clearbody l5.
  assert (P2 : INR p <= 1048576) by (replace (2 ^ 20) with 1048576 in P20 by ring; exact P20).
  destruct (dot_rs np_dot dot_ok p f beta i 0%nat 1 ltac:(lra) P2) as [F1 E1].
  { intros l Hl. exact (Bo _ Xi l Hl). } { exact FB. } { rewrite EA. lra. }
  rewrite EA in E1. set (S1 := rs p (fun l => B2R (f i l) * B2R (beta l 0%nat))) in E1. change (rs p (fun k => B2R (nth k (basis (nth i Xs [])) f0) * B2R (beta k 0%nat))) with S1.
  assert (B1 : Rabs S1 <= 1 * Ab). { rewrite <- EA. unfold S1. eapply Rle_trans; [apply rs_abs|]. apply rs_abs_mul. intros l Hl. exact (proj2 (Bo _ Xi l Hl)). }
  pose proof uro_pos as U. pose proof uro_val as UV. pose proof eta_pos as EP. pose proof (pos_INR p) as P0. pose proof (pos_INR n) as N0. pose proof eta_tiny as ET.
  assert (N2 : INR n <= 1048576) by (rewrite XY; apply (n_2 M Y HY)).
  change (b i 0%nat) with (fsub v (dot p f beta i 0%nat)) in *. set (D := B2R (dot p f beta i 0%nat)) in *.
  assert (PU : (INR p + 1) * uro * (1 * Ab) <= 0.001 * Ab). { rewrite Rmult_1_l. apply Rmult_le_compat_r; [lra|]. rewrite UV. lra. }
  assert (H1 : 2 * INR p * eta <= 2097152 * eta) by (apply Rmult_le_compat_r; lra).
  assert (ET' : 4194304 * eta <= 0.1) by (rewrite UV in ET; lra). pose proof (Rabs_near _ _ _ E1) as DN.
  assert (VD : Rabs (B2R v - D) <= 1.01 * INR n + 1.002 * Ab + 2097152 * eta). { unfold Rminus. eapply Rle_trans; [apply Rabs_triang|]. rewrite Rabs_Ropp. lra. }
  pose proof big_large as BL. destruct (fsub_err v (dot p f beta i 0%nat) Fv F1) as [_ Er]; [fold D; lra|]. fold D in Er.
  set (bb := B2R (fsub _ _)) in *. replace (bb - (B2R v - S1)) with ((bb - (B2R v - D)) + - (D - S1)) by ring. eapply Rle_trans; [apply Rabs_triang|]. rewrite Rabs_Ropp.
  assert (X1 : uro * Rabs (B2R v - D) <= uro * (1.01 * INR n + 1.002 * Ab + 2097152 * eta)) by (apply Rmult_le_compat_l; lra).
  assert (X2 : uro * (2097152 * eta) <= 2097152 * eta) by (rewrite UV; lra). assert (0 <= uro * Ab) by (apply Rmult_le_pos; lra). lra.
Qed.
Theorem interpolates Xq out i j : predict o' Xq = Ok out -> (i < n)%nat -> (j < length Xq)%nat -> nth j Xq [] = nth i X [] ->
  isfin (nth j out f0) = true /\
  Rabs (val (nth j out f0) - (val (nth i Y f0) + val (std64 np_sum Y) *
      (/ 10 ^ 10 * ((if Nat.ltb j n then val (gamma j 0%nat) else 0) - val (gamma i 0%nat)) - val (fmul sg sg) * val (gamma i 0%nat)))) <=
    val (std64 np_sum Y) * (INR n + Ab + (1 + val (fmul sg sg)) * G) * ((2 * Eu + 5 * INR n + 2 * INR p + 24) * / 2 ^ 53 + 3 * INR n * eps) + / 2 ^ 50 * M + / 2 ^ 350.
Proof.
  intros PR Hi Hj EX. destruct (trained o X Y se o' T) as (no & L & be & ga & Dt & Nn & _).
  assert (NX : (0 < length X)%nat) by lia.
  assert (SB : Eu <= 9000000).
  { pose proof SZ as H. unfold safe_size in H. assert (N1 : 1 <= INR n) by (apply (le_INR 1); lia). assert (E4 : 4 <= Eu) by (apply E_ge4; assumption). nra. }
  assert (Gb : get_rows (g_attr o' abeta) p = Ok beta) by (unfold get_rows; rewrite Hb; cbn; now rewrite Nat.eqb_refl).
  assert (Gg : get_rows (g_attr o' agamma) n = Ok gamma) by (unfold get_rows; rewrite Hg; cbn; now rewrite Nat.eqb_refl).
  destruct (predict_near o' X Y Xq beta gamma W M d1 W1 SB Bx FX XY HM HY HS P20 Bo Dt Pw Gb Gg FB FG AG) as (out' & PE & _ & PN).
  rewrite PR in PE. injection PE as <-.
  assert (Ii : inside bounds (nth i X [])) by (rewrite Forall_forall in FX; apply FX, nth_In, Hi).
  specialize (PN j Hj ltac:(rewrite EX; exact Ii)). cbv zeta in PN. rewrite EX in PN. rewrite <- (nth_scaled X i Hi) in PN. destruct PN as [Fo Er]. split; [exact Fo|].
  destruct (weights_near i Hi) as [Fb KW]. destruct (rhs_near i Hi Fb) as [Fv RN].
  set (v := nth i (normalize_output64 np_sum Y) fnan) in *.
  rewrite lim_pow in HM.
  assert (Ev : v = scaled np_sum Y (nth i Y fnan)).
  { unfold v. rewrite normalize_map. rewrite (nth_indep _ fnan (scaled np_sum Y fnan)) by (rewrite map_length, <- XY; exact Hi). apply map_nth. }
  assert (Iy : In (nth i Y fnan) Y) by (apply nth_In; rewrite <- XY; exact Hi).
  destruct (unscaled np_sum M Y _ sum_ok HM HY HS Iy) as (_ & _ & UN). rewrite <- Ev in UN.
  rewrite (nth_indep Y f0 fnan) by (rewrite <- XY; exact Hi).
  unfold val in *. set (y := B2R (nth i Y fnan)) in *. set (sd := B2R (std64 np_sum Y)) in *. set (mm := B2R (mean64 np_sum Y)) in *.
  set (S1 := rs p (fun k => B2R (nth k (basis (nth i Xs [])) f0) * B2R (beta k 0%nat))) in *.
  set (K := rs n (fun k => kk (g_param o') sg Xs i k * B2R (gamma k 0%nat))) in *.
  set (la := latent _ _ _ _ _ _ _ _) in Er. set (gi := B2R (gamma i 0%nat)) in *. set (gj := if Nat.ltb j n then B2R (gamma j 0%nat) else 0) in *.
  assert (EL : la = S1 + (K - (/ 10 ^ 10 + nu) * gi + / 10 ^ 10 * gj)).
  { unfold la, latent. rewrite !total_rs, LXs. unfold val. fold S1. f_equal.
    assert (PJ := rs_pick n j (/ 10 ^ 10) (fun k => B2R (gamma k 0%nat))). assert (PI := rs_pick n i (/ 10 ^ 10 + nu) (fun k => B2R (gamma k 0%nat))). cbv beta in PI, PJ.
    rewrite (proj2 (Nat.ltb_lt i n) Hi) in PI. fold gi in PI.
    assert (PJ' : rs n (fun m => (if Nat.eqb m j then / 10 ^ 10 else 0) * B2R (gamma m 0%nat)) = / 10 ^ 10 * gj) by (rewrite PJ; unfold gj; destruct (Nat.ltb j n); [reflexivity|ring]).
    rewrite <- PJ', <- PI. unfold K. rewrite <- rs_minus, <- rs_plus. apply rs_ext. intros k Hk. unfold kk. rewrite ten, (wdist64_sym _ (nth i Xs [])), (Nat.eqb_sym i k). destruct (Nat.eqb k i); ring. }
  pose proof (s_lim np_sum sum_ok M Y HM HY HS) as [S0 S4]. fold sd in S0, S4. pose proof (mean_abs np_sum sum_ok M Y HM HY) as MA. fold mm in MA. pose proof (M_0 M Y HY) as M0.
  pose proof uro_pos as U. pose proof uro_val as UV. pose proof eta_pos as EP. pose proof (nu_pos sg Fs Bs') as N0. pose proof (mass_pos p beta) as A0. pose proof (mass_pos n gamma) as G0. pose proof (pos_INR n) as nn0. pose proof (pos_INR p) as P0.
  assert (E4 : 4 <= Eu) by (apply E_ge4; assumption).
  set (bb := B2R (b i 0%nat)) in *.
  assert (LA : Rabs (la - (B2R v - (/ 10 ^ 10 + nu) * gi + / 10 ^ 10 * gj)) <= (2.2 * INR n * eps * (1 + nu) * G + (cdel n (1.01 * (1 + nu)) + (Eu + 2) * uro + nu * uro) * G + bpow radix2 (-770)) + (uro * (1.01 * INR n + 1.02 * Ab) + (INR p + 1) * uro * Ab + 4194304 * eta)).
  { rewrite EL. replace (S1 + (K - (/ 10 ^ 10 + nu) * gi + / 10 ^ 10 * gj) - (B2R v - (/ 10 ^ 10 + nu) * gi + / 10 ^ 10 * gj)) with ((K - bb) + (bb - (B2R v - S1))) by ring. eapply Rle_trans; [apply Rabs_triang|]. lra. }
  set (q := B2R v - (/ 10 ^ 10 + nu) * gi + / 10 ^ 10 * gj) in *. set (z := B2R (nth j out f0)) in *.
  replace (z - (y + sd * (/ 10 ^ 10 * (gj - gi) - nu * gi))) with ((z - (mm + sd * la)) + (sd * (la - q) + (sd * B2R v + mm - y))) by (unfold q; ring).
  eapply Rle_trans; [apply Rabs_triang|]. pose proof (Rabs_triang (sd * (la - q)) (sd * B2R v + mm - y)) as TR.
  rewrite Rabs_mult, (Rabs_pos_eq sd) in TR by lra.
  (* collect *)
  set (c9 := 4194304 * eta + bpow radix2 (-770)).
  assert (C9 : sd * c9 + 2 * bpow radix2 (-600) + eta <= / 2 ^ 350).
  { rewrite (inv_pow 350). change (- Z.of_nat 350)%Z with (-350)%Z.
    assert (X0 : c9 <= bpow radix2 (-769)). { unfold c9. change (-769)%Z with (1 + -770)%Z. rewrite bpow_plus. change (bpow radix2 1) with 2. assert (4194304 * eta <= bpow radix2 (-770)) by (change 4194304 with (bpow radix2 22); unfold eta; rewrite <- bpow_plus; apply bpow_le; lia). lra. }
    assert (X1 : sd * c9 <= bpow radix2 (-367)).
    { apply Rle_trans with (4 * lim * bpow radix2 (-769)); [apply Rmult_le_compat; try lra; unfold c9; pose proof (bpow_ge_0 radix2 (-770)); lra|]. change 4 with (bpow radix2 2). unfold lim. rewrite <- !bpow_plus. apply bpow_le. lia. }
    assert (X2 : bpow radix2 (-600) <= bpow radix2 (-367)) by (apply bpow_le; lia). assert (X3 : eta <= bpow radix2 (-367)) by (unfold eta; apply bpow_le; lia).
    apply Rle_trans with (4 * bpow radix2 (-367)); [lra|]. change 4 with (bpow radix2 2). rewrite <- bpow_plus. apply bpow_le. lia. }
  rewrite (inv_pow 53) in *. rewrite (inv_pow 600) in Er. change (- Z.of_nat 600)%Z with (-600)%Z in Er. change (bpow radix2 (- Z.of_nat 53)) with uro in *.
  replace (/ 2 ^ 50) with (8 * uro) by (rewrite UV; replace (2 ^ 50) with 1125899906842624 by ring; lra).
  set (H := (1 + nu) * G). assert (H0 : 0 <= H) by (apply Rmult_le_pos; lra). assert (GH : G <= H). { unfold H. assert (0 <= nu * G) by (apply Rmult_le_pos; lra). lra. }
  set (pe := INR n * eps). assert (pe0 : 0 <= pe) by (apply Rmult_le_pos; lra).
  assert (CD : cdel n (1.01 * (1 + nu)) * G = 2.121 * (INR n + 6) * uro * H) by (unfold cdel, H; lra).
  assert (LA2 : Rabs (la - q) <= 2.2 * pe * H + (2.121 * (INR n + 6) + Eu + 3) * uro * H + 1.01 * INR n * uro + (INR p + 2.02) * uro * Ab + c9).
  { eapply Rle_trans; [exact LA|]. assert (X1 : (Eu + 2) * uro * G <= (Eu + 2) * uro * H) by (apply Rmult_le_compat_l; [apply Rmult_le_pos; lra|exact GH]).
    assert (X2 : nu * uro * G <= uro * H). { replace (nu * uro * G) with (uro * (nu * G)) by ring. apply Rmult_le_compat_l; [lra|]. unfold H. lra. }
    replace (2.2 * INR n * eps * (1 + nu) * G) with (2.2 * pe * H) by (unfold pe, H; ring). unfold c9. lra. }
  assert (LA3 : sd * Rabs (la - q) <= sd * (2.2 * pe * H + (2.121 * (INR n + 6) + Eu + 3) * uro * H + 1.01 * INR n * uro + (INR p + 2.02) * uro * Ab + c9)) by (apply Rmult_le_compat_l; lra).
  assert (E1 : uro * ((INR p + 2 * INR n + Eu + 8) * sd * (Ab + G) + 2 * Rabs mm) <= sd * ((INR p + 2 * INR n + Eu + 8) * uro * (Ab + H)) + 2.01 * uro * M + eta).
  { assert (X1 : uro * Rabs mm <= uro * (1.000001 * M + eta)) by (apply Rmult_le_compat_l; lra). assert (X2 : 2 * (uro * eta) <= eta) by (rewrite UV; lra). assert (X3 : 0 <= uro * M) by (apply Rmult_le_pos; lra).
    assert (X4 : (INR p + 2 * INR n + Eu + 8) * (sd * uro) * (Ab + G) <= (INR p + 2 * INR n + Eu + 8) * (sd * uro) * (Ab + H)) by (apply Rmult_le_compat_l; [apply Rmult_le_pos; [lra|apply Rmult_le_pos; lra]|lra]). lra. }
  assert (FIN : (2.2 * pe * H + (2.121 * (INR n + 6) + Eu + 3) * uro * H + 1.01 * INR n * uro + (INR p + 2.02) * uro * Ab) + (INR p + 2 * INR n + Eu + 8) * uro * (Ab + H) <= (INR n + Ab + H) * ((2 * Eu + 5 * INR n + 2 * INR p + 24) * uro + 3 * pe)).
  { set (uH := uro * H). set (uA := uro * Ab). set (un := uro * INR n). assert (0 <= uH) by (apply Rmult_le_pos; lra). assert (0 <= uA) by (apply Rmult_le_pos; lra). assert (0 <= un) by (apply Rmult_le_pos; lra).
    assert (Y1 : (4.13 * INR n + 2 * Eu + INR p + 23.8) * uH <= (2 * Eu + 5 * INR n + 2 * INR p + 24) * uH) by (apply Rmult_le_compat_r; lra).
    assert (Y2 : (2 * INR p + 2 * INR n + Eu + 10.02) * uA <= (2 * Eu + 5 * INR n + 2 * INR p + 24) * uA) by (apply Rmult_le_compat_r; lra).
    assert (Y3 : 1.01 * un <= (2 * Eu + 5 * INR n + 2 * INR p + 24) * un) by (apply Rmult_le_compat_r; lra).
    assert (Y4 : 0 <= pe * H) by (apply Rmult_le_pos; lra). assert (Y5 : 0 <= pe * (INR n + Ab)) by (apply Rmult_le_pos; lra).
    assert (Y6 : 0 <= INR n * uH) by (apply Rmult_le_pos; lra).
    replace ((INR n + Ab + H) * ((2 * Eu + 5 * INR n + 2 * INR p + 24) * uro + 3 * pe)) with ((2 * Eu + 5 * INR n + 2 * INR p + 24) * uH + (2 * Eu + 5 * INR n + 2 * INR p + 24) * uA + (2 * Eu + 5 * INR n + 2 * INR p + 24) * un + 3 * (pe * (INR n + Ab)) + 3 * (pe * H)) by (unfold uH, uA, un; ring).
    replace (2.2 * pe * H + (2.121 * (INR n + 6) + Eu + 3) * uro * H + 1.01 * INR n * uro + (INR p + 2.02) * uro * Ab + (INR p + 2 * INR n + Eu + 8) * uro * (Ab + H)) with (2.2 * (pe * H) + (4.121 * INR n + 2 * Eu + INR p + 23.726) * uH + (2 * INR p + 2 * INR n + Eu + 10.02) * uA + 1.01 * un) by (unfold uH, uA, un; lra).
    lra. }
  assert (FIN2 := Rmult_le_compat_l sd _ _ ltac:(lra) FIN).
  replace (3 * INR n * eps) with (3 * pe) by (unfold pe; ring).
  set (rhs := (INR n + Ab + H) * _) in *. replace (sd * (INR n + Ab + H) * ((2 * Eu + 5 * INR n + 2 * INR p + 24) * uro + 3 * pe)) with (sd * rhs) by (unfold rhs; ring).
  set (l1 := 2.2 * pe * H + (2.121 * (INR n + 6) + Eu + 3) * uro * H + 1.01 * INR n * uro + (INR p + 2.02) * uro * Ab) in *. set (l2 := (INR p + 2 * INR n + Eu + 8) * uro * (Ab + H)) in *.
  assert (UM : 0 <= uro * M) by (apply Rmult_le_pos; lra).
  assert (T610 : bpow radix2 (-610) <= bpow radix2 (-600)) by (apply bpow_le; lia).
  set (t1 := bpow radix2 (-600)) in *. set (t2 := bpow radix2 (-610)) in *. set (t3 := / 2 ^ 350) in *. clearbody t1 t2 t3 l1 l2 rhs c9 la q z. 
  clear - TR Er UN LA3 E1 FIN2 C9 T610 UM. lra.
Qed.
End After.
End Main.
