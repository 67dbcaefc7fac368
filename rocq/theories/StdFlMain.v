(** Predicted standard deviations at the samples, without noise. *)
From Coq Require Import ZArith Bool List Reals Lra Lia Psatz Permutation.
From Flocq Require Import Core IEEE754.BinarySingleNaN.
From Verif Require AcqFlErr KernelPsd.
From Verif Require Import Fl Spec NpList FlFacts FlMag KernelFl KernelFlSpec FlErr KernelFlFacts CholFl RSum CholFlFacts KernelFlMain KernelFlRef KernelFlThms OutputFl OutputFlSpec OutputFlFacts OutputFlMain OutputFlThms TrainFl TrainFlFacts TrainFlMain PredFlSpec PredFlMean PredFlCore PredFlMain PredFlThms StdFlSpec StdFlReal StdFlCell.
Import ListNotations.
Local Open Scope R_scope.

(** ** from the cell to the standard deviation *)
Lemma sqrt_zero x : isfin x = true -> B2R x = 0 -> B2R (fsqrt x) = 0.
Proof. intros F Z. destruct (zero_of x F Z) as [b ->]. destruct b; reflexivity. Qed.
Lemma std_of_negative T sg s b : (isfin T = true -> B2R T < 0) -> isfin sg = true -> 0 <= B2R sg ->
  let v := fsqrt (fmaximum (fadd (fmul (fmul sg T) (fmul s s)) (fmul (B754_zero b) (B754_zero b))) f0) in
  isfin v = true -> B2R v = 0.
Proof.
  intros HT Fs S0. cbv zeta. set (z := fmul (B754_zero b) (B754_zero b)). assert (Z : z = f0) by (unfold z; now destruct b). rewrite Z. clear z Z.
  set (u := fmul (fmul sg T) (fmul s s)). intros FV.
  assert (FM : isfin (fmaximum (fadd u f0) f0) = true).
  { apply (fin_part (fun x => x)) with (2 := FV). intros N. destruct (nonfin_cases _ N) as [->|[c ->]]; [reflexivity|destruct c; reflexivity]. }
  unfold fmaximum in *. destruct (isnan (fadd u f0)) eqn:NN; [destruct (fadd u f0); discriminate|]. change (isnan f0) with false in *. cbn iota in *.
  destruct (flt (fadd u f0) f0) eqn:LT; [reflexivity|].
  apply sqrt_zero; [exact FM|]. assert (Fu : isfin u = true) by (apply (fin_part (fun x => x)) with (2 := FM); apply fadd_nonfin_l).
  assert (F1 : isfin (fmul sg T) = true) by (apply (fin_part (fun x => x)) with (2 := Fu); apply fmul_nonfin_l).
  assert (F2 : isfin (fmul s s) = true) by (apply (fin_part (fun x => x)) with (2 := Fu); apply fmul_nonfin_r).
  assert (F3 : isfin T = true) by (apply (fin_part (fun x => x)) with (2 := F1); apply fmul_nonfin_r).
  assert (F4 : isfin s = true) by (apply (fin_part (fun x => x)) with (2 := F2); apply fmul_nonfin_l).
  specialize (HT F3). pose proof (AcqFlErr.fmul_fin sg T Fs F3 F1) as V1. pose proof (AcqFlErr.fmul_fin s s F4 F4 F2) as V2. pose proof (AcqFlErr.fmul_fin _ _ F1 F2 Fu) as V3. pose proof (FlFacts.fadd_fin u f0 Fu eq_refl FM) as V4. change (B2R f0) with 0 in V4.
  assert (A1 : B2R (fmul sg T) <= 0) by (rewrite V1, <- rnd_0; apply rnd_le; nra).
  assert (A2 : 0 <= B2R (fmul s s)) by (rewrite V2, <- rnd_0; apply rnd_le; nra).
  assert (A3 : B2R u <= 0) by (unfold u; rewrite V3, <- rnd_0; apply rnd_le; nra).
  assert (A4 : B2R (fadd u f0) <= 0) by (rewrite V4, Rplus_0_r, <- rnd_0; apply rnd_le; exact A3).
  destruct (Rlt_le_dec (B2R (fadd u f0)) 0) as [h|h]; [|lra]. apply (flt_finite _ f0 FM eq_refl) in h. rewrite h in LT. discriminate LT.
Qed.

Lemma mul_signs u w : isfin u = true -> isfin w = true -> B2R u <= 0 -> 0 <= B2R w -> isfin (fmul u w) = false -> fmul u w = B754_infinity true.
Proof.
  intros F1 F2 A1 A2 Fu. assert (Ud : B2R u < 0). { destruct A1 as [h|h]; [exact h|]. destruct (zero_of u F1 h) as [c ->]. destruct w; try discriminate; discriminate Fu. }
  assert (Wd : 0 < B2R w). { destruct A2 as [h|h]; [exact h|]. destruct (zero_of w F2 (eq_sym h)) as [c ->]. destruct u; try discriminate; discriminate Fu. }
  generalize (Bmult_correct 53 1024 _ _ mode_NE u w). case Rlt_bool_spec; intros H.
  - intros (_ & B & _). exfalso. unfold isfin, fmul in *. rewrite B, F1, F2 in Fu. discriminate Fu.
  - assert (Su : Bsign u = true). { destruct u as [c|c| |c m e K]; try discriminate F1; [cbn in Ud; lra|]. destruct c; [reflexivity|]. exfalso. assert (0 < B2R (B754_finite false m e K)) by (apply F2R_gt_0; reflexivity). cbn in *. lra. }
    assert (Sw : Bsign w = false). { destruct w as [c|c| |c m e K]; try discriminate F2; [cbn in Wd; lra|]. destruct c; [|reflexivity]. exfalso. assert (B2R (B754_finite true m e K) < 0) by (apply F2R_lt_0; reflexivity). cbn in *. lra. }
    rewrite Su, Sw. unfold fmul. intros A. destruct (Bmult mode_NE u w) as [c|c| |c m e K]; cbn in A; try discriminate A. now injection A as ->.
Qed.
Lemma std_of_value T sg s b : isfin T = true -> - 10 <= B2R T < 0 -> isfin sg = true -> 0 <= B2R sg <= 2 ^ 900 -> isfin s = true -> Rabs (B2R s) <= 4 * lim ->
  let v := fsqrt (fmaximum (fadd (fmul (fmul sg T) (fmul s s)) (fmul (B754_zero b) (B754_zero b))) f0) in
  isfin v = true /\ B2R v = 0.
Proof.
  intros FT BT Fs S0 F4 SL. cbv zeta. assert (FV : isfin (fsqrt (fmaximum (fadd (fmul (fmul sg T) (fmul s s)) (fmul (B754_zero b) (B754_zero b))) f0)) = true).
  { set (z := fmul (B754_zero b) (B754_zero b)). assert (Z : z = f0) by (unfold z; now destruct b). rewrite Z. clear z Z.
    assert (F1 : isfin (fmul sg T) = true).
    { apply fmul_err; try assumption. rewrite Rabs_mult, (Rabs_pos_eq (B2R sg)) by lra. assert (R9 : 2 ^ 900 * 10 <= big).
      { rewrite pow_bpow. apply Rle_trans with (bpow radix2 (Z.of_nat 900) * bpow radix2 4); [apply Rmult_le_compat_l; [apply bpow_ge_0|cbn; lra]|]. unfold big. rewrite <- bpow_plus. apply bpow_le. cbn. lia. }
      pose proof big_pos. assert (Rabs (B2R T) <= 10) by (apply Rabs_le; lra). assert (B2R sg * Rabs (B2R T) <= 2 ^ 900 * 10) by (apply Rmult_le_compat; try lra; apply Rabs_pos). set (c := 2 ^ 900) in *. clearbody c. lra. }
    assert (F2 : isfin (fmul s s) = true).
    { apply fmul_err; try assumption. rewrite Rabs_mult. assert (R9 : 4 * lim * (4 * lim) <= big).
      { unfold lim, big. change 4 with (bpow radix2 2). rewrite <- !bpow_plus. apply bpow_le. lia. }
      pose proof big_pos. assert (Rabs (B2R s) * Rabs (B2R s) <= 4 * lim * (4 * lim)) by (apply Rmult_le_compat; try apply Rabs_pos; exact SL). lra. }
    pose proof (AcqFlErr.fmul_fin sg T Fs FT F1) as V1. assert (A1 : B2R (fmul sg T) <= 0) by (rewrite V1, <- rnd_0; apply rnd_le; nra).
    pose proof (AcqFlErr.fmul_fin s s F4 F4 F2) as V2. assert (A2 : 0 <= B2R (fmul s s)) by (rewrite V2, <- rnd_0; apply rnd_le; nra).
    set (u := fmul sg T) in *. set (w := fmul s s) in *. clearbody u w.
    destruct (isfin (fmul u w)) eqn:Fu.
    - pose proof (AcqFlErr.fmul_fin u w F1 F2 Fu) as V3. assert (A3 : B2R (fmul u w) <= 0) by (rewrite V3, <- rnd_0; apply rnd_le; nra). set (x := fmul u w) in *. clearbody x.
      destruct x as [c|c| |c m e K]; try discriminate Fu; [now destruct c|]. destruct c; [reflexivity|]. exfalso. assert (0 < B2R (B754_finite false m e K)) by (apply F2R_gt_0; reflexivity). lra.
    - rewrite (mul_signs u w F1 F2 A1 A2 Fu). reflexivity. }
  split; [exact FV|]. apply (std_of_negative T sg s b); try assumption; lra.
Qed.

Section Main.
Variables (np_sum : list b64 -> b64) (np_dot : list (b64 * b64) -> b64) (np_exp np_log np_pow10 : b64 -> b64).
Variable np_cholesky : nat -> array -> result array.
Variable np_solve : nat -> nat -> array -> array -> result array.
Variable bounds : box.
Hypotheses (sum_ok : forall l, sum_of l (np_sum l)) (dot_ok : forall l, dot_of l (np_dot l)) (E_ok : exp_ok np_exp).
Local Notation dot := (dot64 np_dot).
Local Notation solve2 := (solve2 np_solve).
Local Notation d := (length bounds).
Local Notation basis := constant_basis.
Local Notation train := (train64 np_sum np_dot np_exp np_log np_pow10 np_cholesky np_solve basis 1 bounds).
Local Notation predict_std := (predict_std64 np_sum np_dot np_exp np_solve basis 1 bounds).
Lemma trained_std o X Y s o' : train o X Y s = (o', Ok tt) -> exists noise L KF ld,
  let f := regr64 basis (map (normalize64 bounds) X) in
  g_data o' = Some (dataset64 np_sum bounds X Y) /\ g_noise o' = Some noise /\
  np_cholesky (length X) (covariance64 np_sum np_dot np_exp (g_param o') (fdiv noise (std64 np_sum Y)) (map (normalize64 bounds) X)) = Ok L /\
  solve2 (length X) 1 L f = Ok KF /\ np_cholesky 1%nat (dot (length X) (transpose f) KF) = Ok ld /\
  g_attr o' aL = Some (Arr (length X) L) /\ g_attr o' af = Some (Arr (length X) f) /\ g_attr o' ald = Some (Arr 1 ld).
Proof.
  intros E. destruct (train_cases np_sum np_dot np_exp np_log np_pow10 np_cholesky np_solve basis 1 bounds o X Y s) as [(e & _ & F)|(h & _ & F)]; rewrite E in F; [discriminate F|].
  symmetry in F. revert F. unfold update64. cbn [put_opt64 put_data64 g_data g_opt get64 step dataset64 d_x d_scaled_x d_y d_scaled_y]. cbv zeta.
  set (noise := match g_noise _ with None => _ | Some s0 => s0 end).
  cbn [g_param put_noise64 put_param64]. set (K := covariance64 _ _ _ _ _ _).
  destruct (np_cholesky (length X) K) as [L|] eqn:C; cbn [step]; [|discriminate].
  destruct (solve2 (length X) 1 L (column _)) as [alpha|]; cbn [step]; [|discriminate].
  destruct (solve2 (length X) 1 L (regr64 _ _)) as [KF|] eqn:EK; cbn [step]; [|discriminate].
  destruct (np_cholesky 1%nat _) as [ld|] eqn:C1; cbn [step]; [|discriminate].
  destruct (solve2 1 1 ld _) as [beta|]; cbn [step]; [|discriminate].
  destruct (solve2 (length X) 1 L (minus _ _)) as [gamma|] eqn:G; cbn [step]; [|discriminate].
  intros Q. injection Q as <-. exists noise, L, KF, ld. repeat (split; [first [reflexivity|assumption]|]). reflexivity.
Qed.

Section After.
Variables (eps W M : R) (o : gp64) (X : mat) (Y : list b64) (se : search64) (o' : gp64) (noise : b64).
Hypotheses (Ch : forall n A, cholesky64 n A (np_cholesky n A)) (Lo : lower_factor np_cholesky) (So : backward_stable eps np_solve) (e0 : 0 <= eps).
Hypotheses (d1 : (1 <= d)%nat) (W1 : 1 <= W) (SZ : std_size (length X) d W eps) (Bx : finite_box bounds) (FX : Forall (inside bounds) X).
Hypotheses (XY : length X = length Y) (HM : M <= 2 ^ 400) (HY : responses M Y) (HS : spread Y).
Hypothesis T : train o X Y se = (o', Ok tt).
Hypotheses (Pw : param_row d W (g_param o')) (Hn : g_noise o = Some noise) (Hz : feq noise f0 = true).
Variable sigma2 : array.
Hypotheses (Hs : g_attr o' asigma2 = Some (Arr 1 sigma2)) (Fs : isfin (sigma2 0%nat 0%nat) = true) (S0 : 0 <= B2R (sigma2 0%nat 0%nat)).
Local Notation n := (length X).
Local Notation E := (entry_units d W).
Local Notation Xs := (map (normalize64 bounds) X).
Lemma n1 : 1 <= INR n.
Proof. destruct HY as (H & _). rewrite XY. apply le_INR in H. cbn in H. lra. Qed.
Lemma E4 : 4 <= E.
Proof. unfold entry_units. pose proof (D_ge1 d d1). assert (0 <= INR d * W) by nra. nra. Qed.
Lemma sizes : 0 <= INR n * (E + 2) /\ 21 <= (INR n + 2) * (INR n + 6) /\ 0 <= INR n * INR n * eps * 2 ^ 53 /\ eps * 2 ^ 53 <= 64000 /\ INR n * (INR n + 1) <= 64000.
Proof.
  pose proof n1 as N. pose proof E4 as EE. pose proof SZ as H. unfold std_size in H. set (c := 2 ^ 53) in *. assert (c0 : 0 < c) by (apply pow_lt; lra). clearbody c.
  assert (A : 0 <= INR n * (E + 2)) by (apply Rmult_le_pos; lra). assert (B : 21 <= (INR n + 2) * (INR n + 6)) by nra. assert (N2 : 1 <= INR n * INR n) by nra.
  assert (C : 0 <= eps * c) by (apply Rmult_le_pos; lra). assert (D : 1 * (eps * c) <= INR n * INR n * (eps * c)) by (apply Rmult_le_compat_r; lra).
  repeat split; lra.
Qed.
Lemma safe : safe_size n d W.
Proof. destruct sizes as (A & B & C & _). pose proof SZ as H. unfold std_size in H. unfold safe_size. lra. Qed.
Lemma std_core Xq means stds i : predict_std o' Xq = Ok (means, stds) -> (i < n)%nat -> (i < length Xq)%nat -> nth i Xq [] = nth i X [] ->
  exists T b ld, g_attr o' ald = Some (Arr 1 ld) /\
    nth i stds f0 = fsqrt (fmaximum (fadd (fmul (fmul (sigma2 0%nat 0%nat) T) (fmul (std64 np_sum Y) (std64 np_sum Y))) (fmul (B754_zero b) (B754_zero b))) f0) /\
    (isfin (ld 0%nat 0%nat) = true -> isfin T = true -> B2R T < 0) /\
    (finite_solutions np_solve -> isfin T = true /\ - 10 <= B2R T < 0).
Proof.
  intros P Hi Hq Xi. destruct (trained_std o X Y se o' T) as (no & L & KF & ld & Dt & Nn & C & EK & CD & EL & Ef & Hl).
  pose proof (kept_noise np_sum np_dot np_exp np_log np_pow10 np_cholesky np_solve basis 1 bounds _ _ _ _ _ _ T Hn) as Hn'. rewrite Hn' in Nn. injection Nn as <-.
  destruct (feq_zero_cases noise Hz) as [b ->].
  assert (Ss : isfin (std64 np_sum Y) = true /\ 0 < B2R (std64 np_sum Y)) by (destruct (out_scaled np_sum sum_ok M Y HM HY HS) as (_ & F & P' & _); split; [exact F|exact P']).
  destruct (zero_div b (std64 np_sum Y) (proj1 Ss) (proj2 Ss)) as [b2 Eb]. rewrite Eb in C.
  revert P. unfold predict_std64. destruct (predict64 _ _ _ _ _ _ _ _) as [mn|]; cbn [bind]; [|discriminate]. rewrite Dt. cbn [get64 bind dataset64 d_x d_scaled_x d_y]. cbv zeta.
  rewrite EL, Ef, Hl, Hs. unfold get_rows. cbn [get64 bind arr_rows arr_at]. rewrite !Nat.eqb_refl. cbn [bind].
  set (Xn := map (normalize64 bounds) Xq). set (knew := kernel64 _ _ _ _ _ _).
  destruct (solve2 n (length Xq) L knew) as [delta|] eqn:SD; cbn [bind]; [|discriminate].
  destruct (solve2 1 (length Xq) ld _) as [Sv|] eqn:SS; cbn [bind]; [|discriminate]. rewrite Hn'.
  intros Q. injection Q as <- <-.
  set (g := fun j : nat => _). rewrite (nth_indep _ f0 (g 0%nat)), (map_nth g), seq_nth by (rewrite ?map_length, ?seq_length; lia). rewrite Nat.add_0_l. unfold g. clear g.
  do 3 eexists. split; [reflexivity|]. split; [reflexivity|].
  match goal with |- (_ -> isfin ?c = true -> _) /\ _ => set (T0 := c) end.
  assert (BOTH : (forall l, (l < n)%nat -> isfin (KF l 0%nat) = true) -> (isfin T0 = true -> B2R T0 < 0) /\
    ((forall l, (l < n)%nat -> isfin (delta l i) = true) -> isfin (Sv 0%nat i) = true -> isfin T0 = true /\ - 10 <= B2R T0 < 0)).
  2: { pose proof (Ch 1%nat (dot n (transpose (regr64 basis Xs)) KF)) as CC1. rewrite CD in CC1. split.
    - intros Fl. apply BOTH. intros l. exact (fin_kf np_dot dot_ok n (regr64 basis Xs) KF ld (length Xq) i Hi Hq CC1 l Fl).
    - intros FS. assert (two_fin : forall k m A B Z, solve2 k m A B = Ok Z -> forall l j, (l < k)%nat -> (j < m)%nat -> isfin (Z l j) = true).
      { intros k m A B Z. unfold TrainFl.solve2, bind. destruct (np_solve k m A B) as [Z1|]; [|discriminate]. intros HZ l j. exact (FS k m (transpose A) Z1 Z HZ l j). }
      apply BOTH.
      + intros l Hl'. exact (two_fin _ _ _ _ _ EK l 0%nat Hl' Nat.lt_0_1).
      + intros l Hl'. exact (two_fin _ _ _ _ _ SD l i Hl' Hq).
      + exact (two_fin _ _ _ _ _ SS 0%nat i Nat.lt_0_1 Hq). }
  intros FKF. unfold T0. clear T0.
  (* the cell *)
  pose proof n1 as N1. pose proof E4 as E4'. destruct sizes as (Z1 & Z2 & Z3 & Z4 & Z5). pose proof SZ as ZZ. unfold std_size in ZZ. pose proof uro_pos as U. pose proof uro_val as UV.
  assert (P53 : 2 ^ 53 = 9007199254740992) by ring. rewrite P53 in *.
  assert (LX : length Xs = n) by apply map_length.
  assert (XN : Xs <> []) by (intros H; apply (f_equal (@length _)) in H; rewrite LX in H; cbn in H; lia).
  assert (FXs : Forall (scaled_row d) Xs) by (apply scaled_rows; assumption).
  assert (SS' : safe_size (length Xs) d W) by (rewrite LX; exact safe).
  assert (V0 : B2R (fmul (B754_zero b2) (B754_zero b2)) = 0) by (destruct b2; reflexivity).
  pose proof (factor_full np_sum np_dot np_exp sum_ok dot_ok E_ok d W (g_param o') (B754_zero b2) Xs d1 W1 Pw eq_refl) as FF.
  specialize (FF ltac:(unfold val; cbn [B2R]; rewrite Rabs_R0; apply pow_le; lra) XN FXs SS' L). rewrite LX in FF.
  pose proof (Ch n (covariance64 np_sum np_dot np_exp (g_param o') (B754_zero b2) Xs)) as CC. rewrite C in CC.
  destruct (FF CC (Lo _ _ _ C)) as [FL KL]. clear FF. rewrite V0 in FL, KL. rewrite Rplus_0_r in FL, KL.
  pose proof (Ch 1%nat (dot n (transpose (regr64 basis Xs)) KF)) as CC1. rewrite CD in CC1.
  set (lr := fun i k => B2R (L i k)). set (cd := cdel n (1.01 * 1)) in *. set (h := cd + (E + 2) * uro).
  assert (KL' : forall k l, (k < n)%nat -> (l < n)%nat -> Rabs (hh n lr k l - kk (g_param o') (B754_zero b2) Xs k l) <= h).
  { intros k l Hk Hl'. pose proof (KL k l Hk Hl') as A. replace (if Nat.eqb k l then 0 * uro else 0) with 0 in A by (destruct (Nat.eqb k l); ring). rewrite Rplus_0_r in A. exact A. }
  assert (KV : forall k l, kk (g_param o') (B754_zero b2) Xs k l = exp (- wdist64 (g_param o') (nth k Xs []) (nth l Xs [])) + if Nat.eqb k l then / 10000000000 else 0).
  { intros k l. unfold kk. rewrite V0, Rplus_0_r. reflexivity. }
  assert (Rw : forall k, (k < n)%nat -> scaled_row d (nth k Xs [])) by (intros k Hk; rewrite Forall_forall in FXs; apply FXs, nth_In; rewrite LX; exact Hk).
  assert (CV : cd = 2.121 * (INR n + 6) * uro) by (unfold cd, cdel; lra).
  set (p1 := INR n * (E + 2)) in *. set (p2 := (INR n + 2) * (INR n + 6)) in *. set (p3 := INR n * INR n * eps * 9007199254740992) in *.
  assert (NH : INR n * h <= 2.121 * p2 * uro + p1 * uro).
  { unfold h. rewrite CV. replace (INR n * (2.121 * (INR n + 6) * uro + (E + 2) * uro)) with (2.121 * (INR n * (INR n + 6)) * uro + p1 * uro) by (unfold p1; ring). apply Rplus_le_compat_r, Rmult_le_compat_r; [lra|]. unfold p2. lra. }
  assert (H0 : 0 <= h). { unfold h. rewrite CV. apply Rplus_le_le_0_compat; apply Rmult_le_pos; lra. }
  set (lam := / 10000000000 - INR n * h).
  assert (TT : 2.121 * p2 * uro + p1 * uro <= 135744 * uro).
  { replace (2.121 * p2 * uro + p1 * uro) with ((2.121 * p2 + p1) * uro) by ring. apply Rmult_le_compat_r; lra. }
  assert (LB : 764900 * uro <= lam <= / 10000000000). { unfold lam. assert (900700 * uro <= / 10000000000) by (rewrite UV; lra). assert (0 <= INR n * h) by (apply Rmult_le_pos; lra). lra. }
  set (c1 := h + E * uro).
  assert (EU : 0 <= E * uro) by (apply Rmult_le_pos; lra).
  assert (CB : INR n * (c_0 eps n + c1 + tiny970) <= 0.2 * lam).
  { assert (A1 : INR n * c_0 eps n = 2.15 * p3 * uro). { unfold c_0, p3. rewrite UV. field. }
    assert (A2 : INR n * (E * uro) <= p1 * uro). { rewrite <- Rmult_assoc. apply Rmult_le_compat_r; [lra|]. unfold p1. apply Rmult_le_compat_l; lra. }
    assert (A3 : INR n * tiny970 <= uro). { pose proof tiny970_1 as t1. pose proof tiny970_0 as t0. assert (INR n <= 254) by nra. assert (INR n * tiny970 <= 254 * tiny970) by (apply Rmult_le_compat_r; lra). rewrite UV. lra. }
    assert (A4 : 2.15 * p3 * uro + 2.15 * p2 * uro + 2.15 * p1 * uro <= 137600 * uro).
    { replace (2.15 * p3 * uro + 2.15 * p2 * uro + 2.15 * p1 * uro) with (2.15 * (p1 + p2 + p3) * uro) by ring. apply Rmult_le_compat_r; lra. }
    assert (0 <= p1 * uro) by (apply Rmult_le_pos; lra). assert (0 <= p2 * uro) by (apply Rmult_le_pos; lra).
    replace (INR n * (c_0 eps n + c1 + tiny970)) with (INR n * c_0 eps n + INR n * h + INR n * (E * uro) + INR n * tiny970) by (unfold c1; ring). lra. }
  assert (HS1 : h <= / 10000000000). { assert (1 * h <= INR n * h) by (apply Rmult_le_compat_r; lra). unfold lam in LB. lra. }
  assert (NI : nth i Xn [] = nth i Xs []). { unfold Xn. rewrite !nth_scaled by lia. now rewrite Xi. }
  assert (KN : forall l, (l < n)%nat -> isfin (knew l i) = true /\ Rabs (B2R (knew l i) - kk (g_param o') (B754_zero b2) Xs l i) <= E * uro /\ Rabs (B2R (knew l i)) <= 1.01).
  { intros l Hl'. destruct (k_near np_sum np_dot np_exp sum_ok dot_ok E_ok d W (g_param o') Xs Xn d1 W1 Pw (E_small d W Xs d1 W1 XN FXs SS') FXs i ltac:(rewrite NI; apply Rw, Hi) l ltac:(rewrite LX; exact Hl')) as (F & A & _ & B).
    split; [exact F|]. split; [|exact B]. unfold kx in A. rewrite NI in A. rewrite KV. rewrite ten in A. exact A. }
  refine (cell_both np_dot np_solve eps dot_ok So _ n L (sqrt (1.02 * 1)) N1 Z5 (sqrt_pos _) _ FL lam c1 knew (regr64 basis Xs) (regr64 basis Xn) KF ld delta Sv (length Xq) i _ _ _ CB _ Hi Hq _ _ _ _ _ EK CC1 SD SS FKF).
  - split; [exact e0|]. lra.
  - rewrite sqrt_sqrt; lra.
  - lra.
  - intros x. fold lr. rewrite <- en_quad.
    pose proof (quad_near n (fun i j => exp (- wdist64 (g_param o') (nth i Xs []) (nth j Xs []))) (hh n lr) (/ 10000000000) h x H0) as Q.
    assert (PS : 0 <= quad n (fun i j => exp (- wdist64 (g_param o') (nth i Xs []) (nth j Xs []))) x).
    { destruct Pw as [Lw Fw]. refine (@KernelPsd.kernel_psd n d (g_param o') Xs x Lw _ _).
      - eapply Forall_impl; [|exact Fw]. cbv beta. intros v Hv. lra.
      - intros k Hk. apply (Rw k Hk). }
    fold lam in Q. assert (Q' : quad n (fun i j => exp (- wdist64 (g_param o') (nth i Xs []) (nth j Xs []))) x + lam * norm2 n x <= quad n (hh n lr) x); [|lra]. apply Q; clear Q.
    + intros k l Hk Hl' N. pose proof (KL' k l Hk Hl') as A. rewrite KV in A. apply Nat.eqb_neq in N. rewrite N, Rplus_0_r in A. exact A.
    + intros k Hk. pose proof (KL' k k Hk Hk) as A. rewrite KV, Nat.eqb_refl in A. apply Rabs_le_inv in A. lra.
  - unfold c1. lra.
  - intros k l Hk Hl'. fold lr. pose proof (KL' k l Hk Hl') as A. rewrite KV in A. apply Rabs_le_inv in A. pose proof (wd_unit d W (g_param o') Pw _ _ (Rw k Hk) (Rw l Hl')) as B. set (ex := exp _) in *. destruct (Nat.eqb k l); lra.
  - intros l Hl'. destruct (KN l Hl') as (F & _ & B). now split.
  - intros l Hl'. fold lr. destruct (KN l Hl') as (_ & A & _). pose proof (KL' l i Hl' Hi) as B. set (kv := kk _ _ _ _ _) in *. rewrite Rabs_minus_sym in B.
    replace (B2R (knew l i) - hh n lr l i) with ((B2R (knew l i) - kv) + (kv - hh n lr l i)) by ring. eapply Rle_trans; [apply Rabs_triang|]. unfold c1. lra.
  - destruct (KN i Hi) as (_ & A & _). rewrite KV, Nat.eqb_refl, wdist64_self, Ropp_0, exp_0 in A. apply Rabs_le_inv in A. unfold c1. lra.
  - reflexivity.
  - reflexivity.
Qed.
Theorem std_zero ld : g_attr o' ald = Some (Arr 1 ld) -> isfin (ld 0%nat 0%nat) = true -> forall Xq means stds i,
  predict_std o' Xq = Ok (means, stds) -> (i < n)%nat -> (i < length Xq)%nat -> nth i Xq [] = nth i X [] ->
  isfin (nth i stds f0) = true -> val (nth i stds f0) = 0.
Proof.
  intros Hl Fl Xq means stds i P Hi Hq Xi. destruct (std_core Xq means stds i P Hi Hq Xi) as (Tc & b & l' & Hl' & -> & Tn & _).
  rewrite Hl in Hl'. injection Hl' as <-. exact (std_of_negative Tc _ _ b (Tn Fl) Fs S0).
Qed.
Theorem std_finite : finite_solutions np_solve -> B2R (sigma2 0%nat 0%nat) <= 2 ^ 900 -> forall Xq means stds i,
  predict_std o' Xq = Ok (means, stds) -> (i < n)%nat -> (i < length Xq)%nat -> nth i Xq [] = nth i X [] ->
  isfin (nth i stds f0) = true /\ val (nth i stds f0) = 0.
Proof.
  intros FS S9 Xq means stds i P Hi Hq Xi. destruct (std_core Xq means stds i P Hi Hq Xi) as (Tc & b & l' & _ & -> & _ & Tn). destruct (Tn FS) as [FT BT].
  assert (HM' : M <= lim) by (unfold lim; rewrite pow_bpow in HM; exact HM).
  pose proof (s_lim np_sum sum_ok M Y HM' HY HS) as SL. destruct (out_scaled np_sum sum_ok M Y HM HY HS) as (_ & F & _).
  apply (std_of_value Tc _ _ b FT BT Fs (conj S0 S9) F). rewrite Rabs_pos_eq; lra.
Qed.
End After.
End Main.
