(** How far the acquisition values computed in binary64 are from the exact ones. *)
From Coq Require Import ZArith Reals Bool List Lia Lra Psatz.
From Flocq Require Import Core IEEE754.BinarySingleNaN.
From Coquelicot Require Import Coquelicot.
From Verif Require Import Fl NpList KernelFl Spec FlFacts FlErr FlMag NpFacts OutputFlFacts OutputFlMain Normal NormalFacts AcqSpec AcqReal AcqFl AcqFlSpec AcqFlFacts AcqFlMain.
Import ListNotations.
Local Open Scope R_scope.

(** the normal functions at perturbed arguments *)
Lemma pdf_scaled t : norm_pdf t <= norm_pdf 0 / (1 + t ^ 2 / 2).
Proof.
  assert (Q : 0 <= t ^ 2 / 2) by (pose proof (pow2_ge_0 t); lra). set (x := t ^ 2 / 2) in *.
  assert (E : norm_pdf t = exp (- x) * norm_pdf 0). { unfold norm_pdf. fold x. replace (- (0 ^ 2 / 2)) with 0 by field. rewrite exp_0. field. apply Rgt_not_eq, sqrt_2PI. }
  rewrite E. pose proof (pdf_pos 0) as P. rewrite exp_Ropp. pose proof (exp_ineq1_le x) as X. pose proof (exp_pos x).
  unfold Rdiv. rewrite Rmult_comm. apply Rmult_le_compat_l; [lra|]. apply Rinv_le; lra.
Qed.
Lemma t_pdf t : Rabs t * norm_pdf t <= 5 / 12.
Proof.
  pose proof (pdf_scaled t) as P. pose proof pdf_0_bound. pose proof (Rabs_pos t). assert (E : t ^ 2 = Rabs t ^ 2) by (rewrite <- (pow2_abs t); reflexivity). rewrite E in P. set (a := Rabs t) in *.
  assert (D : 0 < 1 + a ^ 2 / 2) by (pose proof (pow2_ge_0 a); lra). apply Rle_trans with (a * (norm_pdf 0 / (1 + a ^ 2 / 2))); [now apply Rmult_le_compat_l|].
  pose proof (pdf_pos 0) as P0. apply Rmult_le_reg_r with (1 := D). set (q := norm_pdf 0) in *. set (d := 1 + a ^ 2 / 2) in *. replace (a * (q / d) * d) with (a * q) by (field; lra). unfold d. assert (a * q <= a * (5 / 12)) by (apply Rmult_le_compat_l; lra). pose proof (pow2_ge_0 (a - 1)). lra.
Qed.
Lemma t2_pdf t : Rabs t * (Rabs t * norm_pdf t) <= 5 / 6.
Proof.
  pose proof (pdf_scaled t) as P. pose proof pdf_0_bound. pose proof (Rabs_pos t). assert (E : t ^ 2 = Rabs t ^ 2) by (rewrite <- (pow2_abs t); reflexivity). rewrite E in P. set (a := Rabs t) in *.
  assert (D : 0 < 1 + a ^ 2 / 2) by (pose proof (pow2_ge_0 a); lra). apply Rle_trans with (a * (a * (norm_pdf 0 / (1 + a ^ 2 / 2)))); [apply Rmult_le_compat_l; [lra|now apply Rmult_le_compat_l]|].
  pose proof (pdf_pos 0) as P0. apply Rmult_le_reg_r with (1 := D). set (q := norm_pdf 0) in *. set (d := 1 + a ^ 2 / 2) in *. replace (a * (a * (q / d)) * d) with (a ^ 2 * q) by (field; lra). unfold d. pose proof (pow2_ge_0 a). assert (a ^ 2 * q <= a ^ 2 * (5 / 12)) by (apply Rmult_le_compat_l; lra). lra.
Qed.
Lemma mean_value (F f : R -> R) z Z : (forall x, is_derive F x (f x)) -> exists c, Rabs (c - z) <= Rabs (Z - z) /\ F Z - F z = f c * (Z - z).
Proof.
  intros D. destruct (MVT_gen F z Z f) as (c & B & Hc).
  - intros; apply D.
  - intros x _. apply continuity_pt_filterlim. apply (ex_derive_continuous (V := R_NormedModule) F). eexists; apply D.
  - exists c. split; [|exact Hc]. unfold Rmin, Rmax in B. destruct (Rle_dec z Z); unfold Rabs; repeat destruct Rcase_abs; lra.
Qed.
Section Move.
Variables (z Z a h : R).
Hypothesis Ha : 0 <= a <= / 4.
Hypothesis Hh : 0 <= h <= 1.
Hypothesis HZ : Rabs (Z - z) <= a * Rabs z + h.
Lemma size_back c : Rabs (c - z) <= Rabs (Z - z) -> Rabs z <= 4 / 3 * (Rabs c + h).
Proof.
  intros H. assert (T : Rabs z <= Rabs c + Rabs (c - z)). { replace z with (c + - (c - z)) at 1 by ring. apply Rle_trans with (1 := Rabs_triang _ _). rewrite Rabs_Ropp. lra. }
  pose proof (Rabs_pos z). nra.
Qed.
Lemma cdf_move : Rabs (norm_cdf Z - norm_cdf z) <= a + h.
Proof.
  destruct (mean_value norm_cdf norm_pdf z Z cdf_derive) as (c & B & ->). pose proof (size_back c B) as S1. rewrite Rabs_mult, (Rabs_pos_eq (norm_pdf c)) by (left; apply pdf_pos).
  pose proof (t_pdf c) as T. pose proof (pdf_pos c) as P. pose proof (pdf_max c) as M. pose proof pdf_0_bound as M0. set (p := norm_pdf c) in *. set (b := Rabs c) in *.
  apply Rle_trans with (p * (a * (4 / 3 * (b + h)) + h)). { apply Rmult_le_compat_l; [lra|]. apply Rle_trans with (1 := HZ). apply Rplus_le_compat_r, Rmult_le_compat_l; [lra|exact S1]. }
  replace (p * (a * (4 / 3 * (b + h)) + h)) with (a * (4 / 3 * (b * p)) + h * (p * (1 + 4 / 3 * a))) by ring.
  apply Rplus_le_compat. - rewrite <- (Rmult_1_r a) at 2. apply Rmult_le_compat_l; lra. - rewrite <- (Rmult_1_r h) at 2. apply Rmult_le_compat_l; [lra|]. apply Rle_trans with (p * (4 / 3)); [apply Rmult_le_compat_l; lra|lra].
Qed.
Lemma pdf_move : Rabs (norm_pdf Z - norm_pdf z) <= 2 * a + h.
Proof.
  destruct (mean_value norm_pdf (fun x => - x * norm_pdf x) z Z pdf_derive) as (c & B & ->). pose proof (size_back c B) as S1. rewrite !Rabs_mult, Rabs_Ropp, (Rabs_pos_eq (norm_pdf c)) by (left; apply pdf_pos).
  pose proof (t_pdf c) as T. pose proof (t2_pdf c) as T2. pose proof (pdf_pos c) as P. pose proof (Rabs_pos c) as PC. set (p := norm_pdf c) in *. set (b := Rabs c) in *. assert (BP : 0 <= b * p) by (apply Rmult_le_pos; lra).
  apply Rle_trans with (b * p * (a * (4 / 3 * (b + h)) + h)). { apply Rmult_le_compat_l; [exact BP|]. apply Rle_trans with (1 := HZ). apply Rplus_le_compat_r, Rmult_le_compat_l; [lra|exact S1]. }
  replace (b * p * (a * (4 / 3 * (b + h)) + h)) with (a * (4 / 3 * (b * (b * p))) + h * (b * p * (1 + 4 / 3 * a))) by ring.
  apply Rplus_le_compat. - rewrite (Rmult_comm 2 a). apply Rmult_le_compat_l; lra. - rewrite <- (Rmult_1_r h) at 2. apply Rmult_le_compat_l; [lra|]. apply Rle_trans with (b * p * (4 / 3)); [apply Rmult_le_compat_l; lra|lra].
Qed.
End Move.

(** constants *)
Definition lim300 : R := bpow radix2 300.
Lemma lim300_pos : 1 <= lim300. Proof. change 1 with (bpow radix2 0). apply bpow_le. lia. Qed.
Lemma lim300_big : lim300 * lim300 * 1000000000000 <= big.
Proof. apply Rle_trans with (bpow radix2 300 * bpow radix2 300 * bpow radix2 40). - unfold lim300. apply Rmult_le_compat_l; [apply Rmult_le_pos; apply bpow_ge_0|]. change (bpow radix2 40) with (IZR (2 ^ 40)). apply IZR_le. now vm_compute. - rewrite <- !bpow_plus. apply bpow_le. lia. Qed.
Lemma mag300 x : mag_le 300 x -> Rabs (B2R x) <= lim300. Proof. now intros [_ H]. Qed.
Lemma tiny : eta <= uro * / 10 ^ 12 /\ 0 < eta /\ uro = / 9007199254740992 /\ eta <= 1.
Proof. split; [apply eta_uro|]. split; [apply eta_pos|]. split; [apply uro_val|]. change 1 with (bpow radix2 0). apply bpow_le. lia. Qed.

Lemma fmul_fin x y : isfin x = true -> isfin y = true -> isfin (fmul x y) = true -> B2R (fmul x y) = rnd (B2R x * B2R y).
Proof.
  intros Fx Fy Fz. generalize (Bmult_correct 53 1024 _ _ mode_NE x y). destruct (Rlt_bool_spec (Rabs (round radix2 (SpecFloat.fexp 53 1024) (round_mode mode_NE) (B2R x * B2R y))) (bpow radix2 1024)) as [H|H].
  - intros (A & _). exact A.
  - intros A. exfalso. assert (G : isfin (fmul x y) = is_finite_SF (B2SF (fmul x y))) by now destruct (fmul x y). unfold fmul in G, Fz. rewrite A in G. unfold binary_overflow in G. cbn in G. congruence.
Qed.
Lemma fdiv_fin x y : isfin x = true -> B2R y <> 0 -> isfin (fdiv x y) = true -> B2R (fdiv x y) = rnd (B2R x / B2R y).
Proof.
  intros Fx Fy Fz. generalize (Bdiv_correct 53 1024 _ _ mode_NE x y Fy). destruct (Rlt_bool_spec (Rabs (round radix2 (SpecFloat.fexp 53 1024) (round_mode mode_NE) (B2R x / B2R y))) (bpow radix2 1024)) as [H|H].
  - intros (A & _). exact A.
  - intros A. exfalso. assert (G : isfin (fdiv x y) = is_finite_SF (B2SF (fdiv x y))) by now destruct (fdiv x y). unfold fdiv in G, Fz. rewrite A in G. unfold binary_overflow in G. cbn in G. congruence.
Qed.

Section Improvement.
Variables (cdf pdf : b64 -> b64) (e : R).
Hypothesis K : normal_kind cdf pdf.
Hypothesis E0 : 0 <= e.
Hypothesis Near : normal_near e cdf pdf.

(** the ratio *)
Lemma ratio_err f m den k : mag_le 300 f -> mag_le 300 m -> isfin den = true -> bpow radix2 (- 60) <= B2R den -> 0 < k -> Rabs (B2R den - k) <= 4 * uro * k ->
  let z := (B2R f - B2R m) / k in let Z := fdiv (fsub f m) den in
  mag_le 301 (fsub f m) /\ Rabs (B2R (fsub f m) - (B2R f - B2R m)) <= uro * Rabs (B2R f - B2R m) /\
  isfin Z = true /\ Rabs (B2R Z - z) <= 12 * uro * Rabs z + eta.
Proof.
  intros Hf Hm Fd Pd Pk Hk. cbv zeta. pose proof (mag_sub 300 f m ltac:(lia) Hf Hm) as MU. split; [exact MU|].
  pose proof (mag300 _ Hf) as Lf. pose proof (mag300 _ Hm) as Lm. pose proof lim300_big as LB. pose proof lim300_pos as LP.
  set (u := B2R f - B2R m) in *. assert (Lu : Rabs u <= 2 * lim300). { unfold u. unfold Rminus. apply Rle_trans with (1 := Rabs_triang _ _). rewrite Rabs_Ropp. lra. }
  assert (LL : lim300 <= big). { apply Rle_trans with (2 := LB). assert (lim300 * 1 <= lim300 * lim300) by (apply Rmult_le_compat_l; lra). lra. }
  assert (L2 : 2 * lim300 <= big). { apply Rle_trans with (2 := LB). assert (lim300 * 1 <= lim300 * lim300) by (apply Rmult_le_compat_l; lra). lra. }
  destruct (fsub_err f m (proj1 Hf) (proj1 Hm) ltac:(fold u; lra)) as [FU EU]. fold u in EU. split; [exact EU|]. set (U := B2R (fsub f m)) in *. set (D := B2R den) in *.
  pose proof (bpow_gt_0 radix2 (-60)) as B6. destruct tiny as (_ & Pe & VU & _).
  assert (LQ : Rabs (U / D) <= big * 3).
  { unfold Rdiv. rewrite Rabs_mult, Rabs_inv, (Rabs_pos_eq D) by lra. apply Rle_trans with (bpow radix2 301 * bpow radix2 60).
    - apply Rmult_le_compat; [apply Rabs_pos|apply Rlt_le, Rinv_0_lt_compat; lra|apply MU|]. replace (bpow radix2 60) with (/ bpow radix2 (- 60)) by (rewrite <- (Rinv_inv (bpow radix2 60)); f_equal; exact (bpow_opp radix2 60)). apply Rinv_le; lra.
    - rewrite <- bpow_plus. apply Rle_trans with big; [apply bpow_le; lia|]. pose proof big_pos. lra. }
  destruct (fdiv_err (fsub f m) den FU) as [FZ EZ]; [fold D; lra|exact LQ|]. split; [exact FZ|]. fold U D in EZ.
  assert (Q : Rabs (U / D - u / k) <= 6 * uro * Rabs (u / k)).
  { assert (D0 : 0 < D) by lra. replace (U / D - u / k) with (((U - u) + u / k * (k - D)) / D) by (field; lra). unfold Rdiv at 1. rewrite Rabs_mult, Rabs_inv, (Rabs_pos_eq D) by lra.
    apply Rmult_le_reg_r with (1 := D0). rewrite Rmult_assoc, Rinv_l, Rmult_1_r by lra. apply Rle_trans with (1 := Rabs_triang _ _). rewrite (Rabs_mult (u / k)).
    assert (DK : k * (1 - 4 * uro) <= D). { revert Hk. unfold Rabs. destruct Rcase_abs; lra. }
    rewrite <- Rabs_Ropp in Hk. replace (- (D - k)) with (k - D) in Hk by ring. pose proof (Rabs_pos (u / k)) as Zp. set (z := u / k) in *.
    assert (EQ : Rabs u = Rabs z * k). { unfold z, Rdiv. rewrite Rabs_mult, Rabs_inv, (Rabs_pos_eq k) by lra. field. lra. } rewrite EQ in EU. set (az := Rabs z) in *.
    assert (az * Rabs (k - D) <= az * (4 * uro * k)) by now apply Rmult_le_compat_l.
    assert (6 * uro * az * (k * (1 - 4 * uro)) <= 6 * uro * az * D) by (apply Rmult_le_compat_l; [apply Rmult_le_pos; lra|exact DK]).
    assert (0 <= uro * (az * k)) by (apply Rmult_le_pos; [lra|apply Rmult_le_pos; lra]). rewrite VU in *. lra. }
  set (z := u / k) in *. set (q := U / D) in *. set (Z := B2R (fdiv _ _)) in *. assert (Rabs q <= Rabs z + Rabs (q - z)). { replace q with (z + (q - z)) at 1 by ring. apply Rabs_triang. }
  replace (Z - z) with ((Z - q) + (q - z)) by ring. apply Rle_trans with (1 := Rabs_triang _ _). pose proof (Rabs_pos z). rewrite VU in *. lra.
Qed.
Lemma normal_at z Z : isfin Z = true -> Rabs (B2R Z - z) <= 12 * uro * Rabs z + eta ->
  Rabs (B2R (cdf Z) - norm_cdf z) <= e + 13 * uro /\ Rabs (B2R (pdf Z) - norm_pdf z) <= e + 25 * uro.
Proof.
  intros F H. destruct tiny as (T1 & T2 & T3 & T4). assert (T5 : eta <= uro) by (rewrite T3 in *; lra). destruct (Near Z F) as [N1 N2]. unfold val in N1, N2.
  pose proof (cdf_move z (B2R Z) (12 * uro) eta ltac:(rewrite T3; lra) ltac:(lra) H) as M1. pose proof (pdf_move z (B2R Z) (12 * uro) eta ltac:(rewrite T3; lra) ltac:(lra) H) as M2. split.
  - replace (B2R (cdf Z) - norm_cdf z) with ((B2R (cdf Z) - norm_cdf (B2R Z)) + (norm_cdf (B2R Z) - norm_cdf z)) by ring. apply Rle_trans with (1 := Rabs_triang _ _). lra.
  - replace (B2R (pdf Z) - norm_pdf z) with ((B2R (pdf Z) - norm_pdf (B2R Z)) + (norm_pdf (B2R Z) - norm_pdf z)) by ring. apply Rle_trans with (1 := Rabs_triang _ _). lra.
Qed.
(** a product with a factor in [0,1] *)
Lemma part_err x u y q d k : mag_le 301 x -> isfin y = true -> 0 <= B2R y <= 1 -> Rabs (B2R x - u) <= d * Rabs u -> 0 <= d <= uro -> Rabs (B2R y - q) <= e + k * uro -> 0 <= k ->
  mag_le 301 (fmul x y) /\ Rabs (B2R (fmul x y)) <= 2 * Rabs u + eta /\ Rabs (B2R (fmul x y) - u * q) <= Rabs u * (e + (k + 3) * uro) + eta.
Proof.
  intros Mx Fy Uy Ex Hd Ey Pk. destruct tiny as (_ & Pe & VU & _). pose proof big_pos as BP.
  assert (My : mag_le 0 y). { split; [exact Fy|]. rewrite Rabs_pos_eq by lra. change (bpow radix2 0) with 1. lra. }
  pose proof (mag_mul 301 0 x y ltac:(lia) Mx My) as MP. change (301 + 0)%Z with 301%Z in MP. split; [exact MP|].
  set (X := B2R x) in *. set (Y := B2R y) in *. assert (AX : Rabs X <= Rabs u * (1 + uro)). { replace X with (u + (X - u)) by ring. apply Rle_trans with (1 := Rabs_triang _ _). pose proof (Rabs_pos u). assert (d * Rabs u <= uro * Rabs u) by (apply Rmult_le_compat_r; lra). lra. }
  assert (AXY : Rabs (X * Y) <= Rabs u * (1 + uro)). { rewrite Rabs_mult, (Rabs_pos_eq Y) by lra. apply Rle_trans with (2 := AX). rewrite <- (Rmult_1_r (Rabs X)) at 2. apply Rmult_le_compat_l; [apply Rabs_pos|lra]. }
  destruct (fmul_err x y (proj1 Mx) Fy) as [_ EP]. { fold X Y. apply Rle_trans with big; [|lra]. rewrite Rabs_mult, (Rabs_pos_eq Y) by lra. apply Rle_trans with (bpow radix2 301 * 1); [apply Rmult_le_compat; [apply Rabs_pos|lra|apply Mx|lra]|rewrite Rmult_1_r; apply bpow_le; lia]. }
  fold X Y in EP. set (P := B2R (fmul x y)) in *. pose proof (Rabs_pos u) as Pu. assert (EP' : Rabs (P - X * Y) <= uro * (Rabs u * (1 + uro)) + eta). { apply Rle_trans with (1 := EP). apply Rplus_le_compat_r, Rmult_le_compat_l; [rewrite VU; lra|exact AXY]. } split.
  - replace P with (X * Y + (P - X * Y)) by ring. apply Rle_trans with (1 := Rabs_triang _ _). rewrite VU in *. lra.
  - replace (P - u * q) with ((P - X * Y) + ((X - u) * Y + u * (Y - q))) by ring. apply Rle_trans with (1 := Rabs_triang _ _). pose proof (Rabs_triang ((X - u) * Y) (u * (Y - q))) as T. rewrite !Rabs_mult, (Rabs_pos_eq Y) in T by lra.
    assert (T1 : Rabs (X - u) * Y <= uro * Rabs u * 1). { apply Rmult_le_compat; [apply Rabs_pos|lra| |lra]. apply Rle_trans with (1 := Ex). apply Rmult_le_compat_r; lra. }
    assert (T2 : Rabs u * Rabs (Y - q) <= Rabs u * (e + k * uro)) by now apply Rmult_le_compat_l.
    apply Rle_trans with (uro * (Rabs u * (1 + uro)) + eta + (uro * Rabs u * 1 + Rabs u * (e + k * uro))); [lra|]. assert (0 <= Rabs u * uro) by (apply Rmult_le_pos; [lra|rewrite VU; lra]). rewrite VU in *. lra.
Qed.
Lemma ei_off f m s g w : 0 <= g -> 0 < s + g -> expected_improvement f m s w ->
  Rabs ((f - m) * norm_cdf ((f - m) / (s + g)) + s * norm_pdf ((f - m) / (s + g)) - w) <= 5 / 12 * g.
Proof.
  intros Hg Hs Hw. pose proof pdf_0_bound as B0. pose proof (pdf_pos 0) as P0. destruct (Req_dec g 0) as [-> |N].
  - rewrite Rplus_0_r in *. rewrite <- (ei_unique _ _ _ _ _ Hw (ei_formula f m s Hs)). replace (w - w) with 0 by ring. rewrite Rabs_R0. lra.
  - destruct (ei_close f m s g w ltac:(lra) Hw) as [C _]. assert (g * norm_pdf 0 <= 5 / 12 * g) by (rewrite Rmult_comm; apply Rmult_le_compat_r; lra). apply Rabs_le. lra.
Qed.
Lemma imp_err f m s den g w : mag_le 300 f -> mag_le 300 m -> mag_le 300 s -> 0 <= B2R s -> isfin den = true -> bpow radix2 (-60) <= B2R den -> B2R s <= B2R den <= B2R s + g ->
  expected_improvement (B2R f) (B2R m) (B2R s) w ->
  isfin (improvement64 cdf pdf f m s den) = true /\
  Rabs (B2R (improvement64 cdf pdf f m s den) - w) <= 5 / 12 * g + (30 * uro + e) * (Rabs (B2R f - B2R m) + B2R s) + 3 * eta.
Proof.
  intros Hf Hm Hs Ps Fd Pd Bd Hw. pose proof (bpow_gt_0 radix2 (-60)) as B6. destruct tiny as (_ & Pe & VU & E1).
  destruct (ratio_err f m den (B2R den) Hf Hm Fd Pd ltac:(lra)) as (MU & EU & FZ & EZ). { rewrite Rminus_diag_eq, Rabs_R0 by reflexivity. apply Rmult_le_pos; [rewrite VU; lra|lra]. }
  set (u := B2R f - B2R m) in *. unfold improvement64. set (Z := fdiv (fsub f m) den) in *. set (z := u / B2R den) in *. destruct (normal_at z Z FZ EZ) as [NC NP].
  destruct (cdf_unit cdf pdf K Z (isfin_not_nan _ FZ)) as [FC UC]. destruct (pdf_unit cdf pdf K Z (isfin_not_nan _ FZ)) as [FP UP]. unfold val in UC, UP.
  destruct (part_err (fsub f m) u (cdf Z) (norm_cdf z) uro 13 MU FC UC EU ltac:(rewrite VU; lra) NC ltac:(lra)) as (MA & BA & EA).
  destruct (part_err s (B2R s) (pdf Z) (norm_pdf z) 0 25 (mag_weaken 300 301 s ltac:(lia) Hs) FP UP) as (MB & BB & EB).
  { rewrite Rminus_diag_eq, Rabs_R0 by reflexivity. lra. } { rewrite VU; lra. } { exact NP. } { lra. }
  rewrite (Rabs_pos_eq (B2R s)) in BB, EB by exact Ps.
  pose proof (mag_add 301 _ _ ltac:(lia) MA MB) as MV. split; [apply MV|]. set (A := fmul (fsub f m) (cdf Z)) in *. set (B := fmul s (pdf Z)) in *.
  pose proof (Rabs_triang (B2R A) (B2R B)) as TAB.
  destruct (fadd_err A B (proj1 MA) (proj1 MB)) as [_ EV]. { apply Rle_trans with (1 := TAB). apply Rle_trans with (bpow radix2 301 + bpow radix2 301); [apply Rplus_le_compat; [apply MA|apply MB]|]. assert (bpow radix2 301 <= big) by (apply bpow_le; lia). pose proof big_pos. lra. }
  set (V := B2R (fadd A B)) in *. set (a := B2R A) in *. set (b := B2R B) in *. clearbody V a b.
  pose proof (ei_off (B2R f) (B2R m) (B2R s) (B2R den - B2R s) w ltac:(lra) ltac:(lra) Hw) as OFF. replace (B2R s + (B2R den - B2R s)) with (B2R den) in OFF by ring. fold u in OFF. fold z in OFF.
  set (c := norm_cdf z) in *. set (p := norm_pdf z) in *. set (S1 := B2R s) in *. set (au := Rabs u) in *. assert (Pu : 0 <= au) by apply Rabs_pos.
  assert (EV' : Rabs (V - (a + b)) <= uro * (2 * au + 2 * S1 + 2 * eta)). { apply Rle_trans with (1 := EV). apply Rmult_le_compat_l; [rewrite VU; lra|lra]. }
  replace (V - w) with ((V - (a + b)) + ((a - u * c) + ((b - S1 * p) + (u * c + S1 * p - w)))) by ring.
  apply Rle_trans with (1 := Rabs_triang _ _). pose proof (Rabs_triang (a - u * c) ((b - S1 * p) + (u * c + S1 * p - w))) as T1. pose proof (Rabs_triang (b - S1 * p) (u * c + S1 * p - w)) as T2.
  assert (G : 5 / 12 * (B2R den - S1) <= 5 / 12 * g) by lra.
  assert (0 <= au * e) by now apply Rmult_le_pos. assert (0 <= S1 * e) by now apply Rmult_le_pos. assert (0 <= au * uro) by (apply Rmult_le_pos; [lra|rewrite VU; lra]). assert (0 <= S1 * uro) by (apply Rmult_le_pos; [lra|rewrite VU; lra]).
  assert (uro * eta <= / 10 * eta) by (apply Rmult_le_compat_r; [lra|rewrite VU; lra]). lra.
Qed.
(** the two offsets of the code *)
Lemma offset_den s c r : mag_le 300 s -> 0 <= B2R s -> isfin c = true -> 0 < r <= 1 -> 0 < B2R c <= 1 -> Rabs (B2R c - r) <= 2 * uro * r -> bpow radix2 (-60) <= B2R c ->
  let d := fadd s c in isfin d = true /\ bpow radix2 (-60) <= B2R d /\ B2R s <= B2R d <= B2R s + (r * (1 + 4 * uro) + uro * B2R s) /\ Rabs (B2R d - (B2R s + r)) <= 4 * uro * (B2R s + r).
Proof.
  intros Ms Ps Fc Hr Pc Ec Lc. cbv zeta. destruct tiny as (_ & _ & VU & _). assert (Mc : mag_le 300 c). { split; [exact Fc|]. rewrite Rabs_pos_eq by lra. apply Rle_trans with 1; [lra|]. change 1 with (bpow radix2 0). apply bpow_le. lia. }
  pose proof (mag_add 300 s c ltac:(lia) Ms Mc) as MD. pose proof (fadd_fin s c (proj1 Ms) Fc (proj1 MD)) as VD. split; [apply MD|].
  destruct (fadd_err s c (proj1 Ms) Fc) as [_ EV]. { apply Rle_trans with (1 := Rabs_triang _ _). apply Rle_trans with (bpow radix2 300 + bpow radix2 300); [apply Rplus_le_compat; [apply Ms|apply Mc]|]. assert (bpow radix2 300 <= big) by (apply bpow_le; lia). pose proof big_pos. lra. }
  assert (D1 : B2R s <= B2R (fadd s c)) by (rewrite VD; rewrite <- rnd_B2R at 1; apply rnd_le; lra). assert (D2 : B2R c <= B2R (fadd s c)) by (rewrite VD; rewrite <- rnd_B2R at 1; apply rnd_le; lra).
  rewrite (Rabs_pos_eq (B2R s + B2R c)) in EV by lra. set (D := B2R (fadd s c)) in *. clearbody D. set (S1 := B2R s) in *. set (C := B2R c) in *. assert (Pu : 0 < uro) by apply uro_pos. assert (Qr : 0 < uro * r) by (apply Rmult_lt_0_compat; lra). assert (0 <= uro * S1) by (apply Rmult_le_pos; lra).
  assert (C <= r + 2 * (uro * r) /\ r - 2 * (uro * r) <= C) as [C1 C2] by (revert Ec; unfold Rabs; destruct Rcase_abs; lra).
  assert (uro * C <= uro * (r + 2 * (uro * r))) by (apply Rmult_le_compat_l; lra). assert (uro * (uro * r) <= / 10 * (uro * r)) by (apply Rmult_le_compat_r; [lra|rewrite VU; lra]).
  split; [lra|]. revert EV. unfold Rabs. repeat destruct Rcase_abs; intros; repeat split; lra.
Qed.
Lemma nano_den s : mag_le 300 s -> 0 <= B2R s -> let d := fadd s nano64 in
  isfin d = true /\ bpow radix2 (-60) <= B2R d /\ B2R s <= B2R d <= B2R s + (/ 10 ^ 9 * (1 + 4 * uro) + uro * B2R s) /\ Rabs (B2R d - (B2R s + / 10 ^ 9)) <= 4 * uro * (B2R s + / 10 ^ 9).
Proof.
  intros Ms Ps. destruct nano_val as (F & E & P). destruct tiny as (_ & _ & VU & _). apply offset_den; try assumption; [lra|]. apply Rle_trans with (/ 2 ^ 31); [replace (/ 2 ^ 31) with (bpow radix2 (-31)) by (rewrite pow_bpow; apply (bpow_opp radix2 31)); apply bpow_le; lia|].
  rewrite VU in E. revert E. unfold Rabs. destruct Rcase_abs; lra.
Qed.
End Improvement.

(** ** The values returned *)
Section Values.
Variables (cdf pdf : b64 -> b64) (np_prod : list b64 -> b64) (e : R).
Hypothesis K : normal_kind cdf pdf.
Hypothesis E0 : 0 <= e.
Hypothesis Near : normal_near e cdf pdf.

Lemma uro48 : 32 * uro = / 2 ^ 48. Proof. rewrite uro_val. lra. Qed.
Lemma min_least y v : List.Forall moderate_finite y -> np_min y = Ok v -> least64 y v.
Proof.
  intros F E. destruct (np_min_spec _ _ E) as [I H]. rewrite List.Forall_forall in F. split; [exact I|]. intros w Iw. apply H; [|exact Iw]. apply isfin_not_nan, F, I.
Qed.
Lemma ei_point f m s w : mag_le 300 f -> mag_le 300 m -> mag_le 300 s -> 0 <= B2R s -> expected_improvement (B2R f) (B2R m) (B2R s) w ->
  let v := improvement64 cdf pdf f m s (fadd s nano64) in
  isfin v = true /\ Rabs (B2R v - w) <= / 10 ^ 9 / 2 + (/ 2 ^ 48 + e) * (Rabs (B2R f - B2R m) + B2R s).
Proof.
  intros Hf Hm Hs Ps Hw. cbv zeta. destruct (nano_den s Hs Ps) as (Fd & Ld & Bd & _). destruct (imp_err cdf pdf e K E0 Near f m s (fadd s nano64) _ w Hf Hm Hs Ps Fd Ld Bd Hw) as [F E]. split; [exact F|].
  apply Rle_trans with (1 := E). rewrite <- uro48. destruct tiny as (T1 & Pe & VU & _). pose proof (Rabs_pos (B2R f - B2R m)) as Pu. set (au := Rabs (B2R f - B2R m)) in *. set (S1 := B2R s) in *.
  assert (0 <= uro * au) by (apply Rmult_le_pos; [rewrite VU; lra|lra]). assert (0 <= uro * S1) by (apply Rmult_le_pos; [rewrite VU; lra|lra]). assert (/ 10 ^ 9 * uro <= / 10 ^ 9 * / 1000) by (apply Rmult_le_compat_l; [lra|rewrite VU; lra]). assert (eta <= / 10 ^ 12) by (rewrite VU in T1; lra). lra.
Qed.
Theorem ei_near predict y x mu sd : y <> [] -> List.Forall moderate_finite y -> predict x = Ok (mu, sd) -> predicted_finite mu sd ->
  exists V fmin, ei_eval64 cdf pdf predict y x = Ok V /\ least64 y fmin /\
  forall j m s, nth_error mu j = Some m -> nth_error sd j = Some s -> exists v w, nth_error V j = Some v /\ isfin v = true /\
    expected_improvement (val fmin) (val m) (val s) w /\
    Rabs (val v + w) <= / 10 ^ 9 / 2 + (/ 2 ^ 48 + e) * (Rabs (val fmin - val m) + val s).
Proof.
  intros N Hy Hp [Hm Hs]. destruct (min_mag y N Hy) as (fm & E & M). unfold ei_eval64. rewrite E. cbn [bind]. rewrite Hp. cbn [bind fst snd]. eexists. exists fm. split; [reflexivity|]. split; [now apply min_least|].
  intros j m s Em Es. rewrite map2_nth, Em, Es. destruct (Forall_nth _ _ _ _ Hs Es) as [Ms Ps]. destruct (ei_exists (val fm) (val m) (val s) Ps) as [w Hw]. eexists. exists w. split; [reflexivity|].
  destruct (ei_point fm m s w M (proj1 (mod_mag m) (Forall_nth _ _ _ _ Hm Em)) (proj1 (mod_mag s) Ms) Ps Hw) as [F B]. unfold val. rewrite fopp_fin, fopp_val. split; [exact F|]. split; [exact Hw|].
  replace (- B2R (improvement64 cdf pdf fm m s (fadd s nano64)) + w) with (- (B2R (improvement64 cdf pdf fm m s (fadd s nano64)) - w)) by ring. now rewrite Rabs_Ropp.
Qed.
(** comparing two candidates *)
Theorem ei_choice predict y x mu sd V i j mi si vi mj sj vj wi wj fmin : List.Forall moderate_finite y -> predict x = Ok (mu, sd) -> predicted_finite mu sd ->
  ei_eval64 cdf pdf predict y x = Ok V -> least64 y fmin ->
  nth_error mu i = Some mi -> nth_error sd i = Some si -> nth_error V i = Some vi ->
  nth_error mu j = Some mj -> nth_error sd j = Some sj -> nth_error V j = Some vj ->
  expected_improvement (val fmin) (val mi) (val si) wi -> expected_improvement (val fmin) (val mj) (val sj) wj -> fle vi vj = true ->
  wj <= wi + / 10 ^ 9 + (/ 2 ^ 48 + e) * (Rabs (val fmin - val mi) + val si + (Rabs (val fmin - val mj) + val sj)).
Proof.
  intros Hy Hp Hpf HV Hf Mi Si Vi Mj Sj Vj Hwi Hwj L. assert (N : y <> []) by (destruct Hf as [I _]; destruct y; [destruct I|discriminate]).
  destruct (ei_near predict y x mu sd N Hy Hp Hpf) as (V' & f' & E' & Lf & H). rewrite HV in E'. injection E' as <-.
  assert (Ef : val f' = val fmin). { destruct Hf as [I1 H1], Lf as [I2 H2]. rewrite List.Forall_forall in Hy. apply Rle_antisym; apply fle_finite; try (now apply Hy); [now apply H2|now apply H1]. }
  destruct (H i mi si Mi Si) as (v1 & w1 & A1 & F1 & B1 & C1). destruct (H j mj sj Mj Sj) as (v2 & w2 & A2 & F2 & B2 & C2). rewrite Ef in *.
  rewrite Vi in A1. rewrite Vj in A2. injection A1 as <-. injection A2 as <-. rewrite (ei_unique _ _ _ _ _ B1 Hwi) in C1. rewrite (ei_unique _ _ _ _ _ B2 Hwj) in C2.
  apply (fle_finite vi vj F1 F2) in L. fold (val vi) (val vj) in L. revert C1 C2. unfold Rabs at 1 3. repeat destruct Rcase_abs; lra.
Qed.
Theorem pi_near predict y x mu sd : y <> [] -> List.Forall moderate_finite y -> predict x = Ok (mu, sd) -> predicted_finite mu sd ->
  exists V fmin, pi_eval64 cdf predict y x = Ok V /\ least64 y fmin /\
  forall j m s, nth_error mu j = Some m -> nth_error sd j = Some s -> exists v p, nth_error V j = Some v /\ isfin v = true /\
    prob_below (val m) (val s + / 10 ^ 9) (val fmin) p /\ Rabs (val v + p) <= / 2 ^ 48 + e.
Proof.
  intros N Hy Hp [Hm Hs]. destruct (min_mag y N Hy) as (fm & E & M). unfold pi_eval64. rewrite E. cbn [bind]. rewrite Hp. cbn [bind fst snd]. eexists. exists fm. split; [reflexivity|]. split; [now apply min_least|].
  intros j m s Em Es. rewrite map2_nth, Em, Es. destruct (Forall_nth _ _ _ _ Hs Es) as [Ms Ps]. apply mod_mag in Ms. unfold val in *. assert (P : 0 < B2R s + / 10 ^ 9) by lra.
  eexists. exists (norm_cdf ((B2R fm - B2R m) / (B2R s + / 10 ^ 9))). split; [reflexivity|]. destruct (nano_den s Ms Ps) as (Fd & Ld & _ & Dd).
  destruct (ratio_err fm m (fadd s nano64) (B2R s + / 10 ^ 9) M (proj1 (mod_mag m) (Forall_nth _ _ _ _ Hm Em)) Fd Ld P Dd) as (_ & _ & FZ & EZ).
  destruct (normal_at cdf pdf e Near _ _ FZ EZ) as [NC _]. rewrite fopp_fin, fopp_val. split; [now apply (cdf_unit cdf pdf K), isfin_not_nan|]. split; [now apply prob_cdf|].
  rewrite <- uro48. rewrite <- Rabs_Ropp. match goal with |- Rabs ?a <= _ => replace a with (B2R (cdf (fdiv (fsub fm m) (fadd s nano64))) - norm_cdf ((B2R fm - B2R m) / (B2R s + / 10 ^ 9))) by ring end. destruct tiny as (_ & _ & VU & _). rewrite VU in *. lra.
Qed.
Theorem lcb_near predict k0 k1 x mu sd : moderate_finite k0 -> moderate_finite k1 -> predict x = Ok (mu, sd) -> predicted_finite mu sd ->
  exists V, lcb_eval64 predict k0 k1 x = Ok V /\ forall j m s, nth_error mu j = Some m -> nth_error sd j = Some s ->
  exists v, nth_error V j = Some v /\ isfin v = true /\
    Rabs (val v - (val k0 * val m - val k1 * val s)) <= / 2 ^ 51 * (Rabs (val k0 * val m) + Rabs (val k1 * val s)) + / 2 ^ 1000.
Proof.
  intros H0 H1 Hp [Hm Hs]. unfold lcb_eval64. rewrite Hp. cbn [bind fst snd]. eexists. split; [reflexivity|].
  intros j m s Em Es. rewrite map2_nth, Em, Es. eexists. split; [reflexivity|]. destruct (Forall_nth _ _ _ _ Hs Es) as [Ms Ps]. apply mod_mag in H0, H1, Ms. pose proof (proj1 (mod_mag m) (Forall_nth _ _ _ _ Hm Em)) as Mm.
  pose proof (mag_mul 300 300 k0 m ltac:(lia) H0 Mm) as MA. pose proof (mag_mul 300 300 k1 s ltac:(lia) H1 Ms) as MB. pose proof (mag_sub 600 _ _ ltac:(lia) MA MB) as MV. split; [apply MV|]. unfold val.
  assert (L6 : bpow radix2 300 * bpow radix2 300 <= big) by (rewrite <- bpow_plus; apply bpow_le; lia). pose proof big_pos as BP.
  assert (Bnd : forall a b, mag_le 300 a -> mag_le 300 b -> Rabs (B2R a * B2R b) <= big * 3). { intros a b [_ A] [_ B]. rewrite Rabs_mult. apply Rle_trans with big; [|lra]. apply Rle_trans with (2 := L6). apply Rmult_le_compat; try apply Rabs_pos; assumption. }
  destruct (fmul_err k0 m (proj1 H0) (proj1 Mm) (Bnd _ _ H0 Mm)) as [_ EA]. destruct (fmul_err k1 s (proj1 H1) (proj1 Ms) (Bnd _ _ H1 Ms)) as [_ EB].
  destruct (fsub_err (fmul k0 m) (fmul k1 s) (proj1 MA) (proj1 MB)) as [_ EV].
  { unfold Rminus. apply Rle_trans with (1 := Rabs_triang _ _). rewrite Rabs_Ropp. apply Rle_trans with (bpow radix2 600 + bpow radix2 600); [apply Rplus_le_compat; [apply MA|apply MB]|]. rewrite <- bpow_double. apply bpow_le. lia. }
  assert (T : / 2 ^ 1000 = bpow radix2 (-1000)) by (rewrite pow_bpow; symmetry; apply (bpow_opp radix2 1000)). rewrite T. assert (T3 : 3 * eta <= bpow radix2 (-1000)). { apply Rle_trans with (bpow radix2 2 * eta); [change (bpow radix2 2) with 4; pose proof eta_pos; lra|]. unfold eta. rewrite <- bpow_plus. apply bpow_le. lia. }
  set (t := bpow radix2 (-1000)) in *. clearbody t. clear T. set (p := B2R k0 * B2R m) in *. set (q := B2R k1 * B2R s) in *. set (A := B2R (fmul k0 m)) in *. set (B := B2R (fmul k1 s)) in *. set (V := B2R (fsub _ _)) in *. clearbody p q A B V.
  pose proof eta_pos as Pe. pose proof uro_pos as PU. pose proof (Rabs_pos p) as Pp. pose proof (Rabs_pos q) as Pq.
  assert (TA : Rabs A <= Rabs p + (uro * Rabs p + eta)). { replace A with (p + (A - p)) by ring. apply Rle_trans with (1 := Rabs_triang _ _). lra. } assert (TB : Rabs B <= Rabs q + (uro * Rabs q + eta)). { replace B with (q + (B - q)) by ring. apply Rle_trans with (1 := Rabs_triang _ _). lra. }
  assert (TD : Rabs (A - B) <= Rabs A + Rabs B). { unfold Rminus. apply Rle_trans with (1 := Rabs_triang _ _). rewrite Rabs_Ropp. lra. }
  assert (EV' : Rabs (V - (A - B)) <= uro * (Rabs p + (uro * Rabs p + eta) + (Rabs q + (uro * Rabs q + eta)))). { apply Rle_trans with (1 := EV). apply Rmult_le_compat_l; lra. }
  replace (V - (p - q)) with ((V - (A - B)) + ((A - p) + - (B - q))) by ring. apply Rle_trans with (1 := Rabs_triang _ _). pose proof (Rabs_triang (A - p) (- (B - q))) as TT. rewrite Rabs_Ropp in TT.
  assert (0 <= uro * Rabs p) by (apply Rmult_le_pos; lra). assert (0 <= uro * Rabs q) by (apply Rmult_le_pos; lra). assert (uro * eta <= / 10 * eta) by (apply Rmult_le_compat_r; [lra|rewrite uro_val; lra]). rewrite uro_val in *. lra.
Qed.

(** ** Order *)
Lemma fopp_le a b : isfin a = true -> isfin b = true -> B2R a <= B2R b -> fle (fopp b) (fopp a) = true.
Proof. intros Fa Fb H. apply fle_finite; rewrite ?fopp_fin; [exact Fb|exact Fa|]. rewrite !fopp_val. lra. Qed.
Theorem lcb_order predict k0 k1 x mu sd V i j mi si vi mj sj vj : moderate_finite k0 -> moderate_finite k1 -> 0 <= val k0 -> 0 <= val k1 -> predict x = Ok (mu, sd) -> predicted_finite mu sd ->
  lcb_eval64 predict k0 k1 x = Ok V ->
  nth_error mu i = Some mi -> nth_error sd i = Some si -> nth_error V i = Some vi ->
  nth_error mu j = Some mj -> nth_error sd j = Some sj -> nth_error V j = Some vj ->
  val mi <= val mj -> val sj <= val si -> fle vi vj = true.
Proof.
  intros H0 H1 P0 P1 Hp [Hm Hs] HV Mi Si Vi Mj Sj Vj Lm Ls. unfold lcb_eval64 in HV. rewrite Hp in HV. cbn [bind fst snd] in HV. injection HV as <-.
  rewrite map2_nth, Mi, Si in Vi. rewrite map2_nth, Mj, Sj in Vj. injection Vi as <-. injection Vj as <-. apply mod_mag in H0, H1.
  pose proof (proj1 (mod_mag mi) (Forall_nth _ _ _ _ Hm Mi)) as Ni. pose proof (proj1 (mod_mag mj) (Forall_nth _ _ _ _ Hm Mj)) as Nj.
  pose proof (proj1 (mod_mag si) (proj1 (Forall_nth _ _ _ _ Hs Si))) as Di. pose proof (proj1 (mod_mag sj) (proj1 (Forall_nth _ _ _ _ Hs Sj))) as Dj.
  assert (ML : forall k a b, mag_le 300 k -> 0 <= B2R k -> mag_le 300 a -> mag_le 300 b -> B2R a <= B2R b -> B2R (fmul k a) <= B2R (fmul k b)).
  { intros k a b Hk Pk Ha Hb L. rewrite (fmul_fin k a), (fmul_fin k b); try apply Hk; try apply Ha; try apply Hb; try (apply (mag_mul 300 300); [lia|assumption|assumption]). apply rnd_le, Rmult_le_compat_l; assumption. }
  pose proof (mag_mul 300 300 k0 mi ltac:(lia) H0 Ni) as A1. pose proof (mag_mul 300 300 k0 mj ltac:(lia) H0 Nj) as A2. pose proof (mag_mul 300 300 k1 si ltac:(lia) H1 Di) as B1. pose proof (mag_mul 300 300 k1 sj ltac:(lia) H1 Dj) as B2.
  pose proof (mag_sub 600 _ _ ltac:(lia) A1 B1) as V1. pose proof (mag_sub 600 _ _ ltac:(lia) A2 B2) as V2. apply fle_finite; [apply V1|apply V2|].
  rewrite (fsub_fin _ _ (proj1 A1) (proj1 B1) (proj1 V1)), (fsub_fin _ _ (proj1 A2) (proj1 B2) (proj1 V2)). apply rnd_le. pose proof (ML k0 mi mj H0 P0 Ni Nj Lm). pose proof (ML k1 sj si H1 P1 Dj Di Ls). lra.
Qed.
Theorem pi_order predict y x mu sd V i j mi si vi mj sj vj : cdf_ordered cdf -> List.Forall moderate_finite y -> predict x = Ok (mu, sd) -> predicted_finite mu sd ->
  pi_eval64 cdf predict y x = Ok V ->
  nth_error mu i = Some mi -> nth_error sd i = Some si -> nth_error V i = Some vi ->
  nth_error mu j = Some mj -> nth_error sd j = Some sj -> nth_error V j = Some vj ->
  val mi <= val mj -> val si = val sj -> fle vi vj = true.
Proof.
  intros HO Hy Hp [Hm Hs] HV Mi Si Vi Mj Sj Vj Lm Ls. assert (N : y <> []) by (intros ->; discriminate HV). destruct (min_mag y N Hy) as (fm & E & M). unfold pi_eval64 in HV. rewrite E in HV. cbn [bind] in HV. rewrite Hp in HV. cbn [bind fst snd] in HV. injection HV as <-.
  rewrite map2_nth, Mi, Si in Vi. rewrite map2_nth, Mj, Sj in Vj. injection Vi as <-. injection Vj as <-.
  pose proof (proj1 (mod_mag mi) (Forall_nth _ _ _ _ Hm Mi)) as Ni. pose proof (proj1 (mod_mag mj) (Forall_nth _ _ _ _ Hm Mj)) as Nj.
  destruct (Forall_nth _ _ _ _ Hs Si) as [Di Pi]. destruct (Forall_nth _ _ _ _ Hs Sj) as [Dj Pj]. apply mod_mag in Di, Dj. unfold val in *.
  destruct (nano_den si Di Pi) as (Fi & Li & _ & Ei). destruct (nano_den sj Dj Pj) as (Fj & Lj & _ & Ej).
  destruct (ratio_err fm mi (fadd si nano64) (B2R si + / 10 ^ 9) M Ni Fi Li ltac:(lra) Ei) as (Ui & _ & Zi & _). destruct (ratio_err fm mj (fadd sj nano64) (B2R sj + / 10 ^ 9) M Nj Fj Lj ltac:(lra) Ej) as (Uj & _ & Zj & _).
  assert (ED : B2R (fadd si nano64) = B2R (fadd sj nano64)). { rewrite (fadd_fin si nano64), (fadd_fin sj nano64); try apply Di; try apply Dj; try apply nano_val; try assumption. now rewrite Ls. }
  assert (LZ : fle (fdiv (fsub fm mj) (fadd sj nano64)) (fdiv (fsub fm mi) (fadd si nano64)) = true).
  { apply fle_finite; [exact Zj|exact Zi|]. pose proof (bpow_gt_0 radix2 (-60)). rewrite (fdiv_fin _ _ (proj1 Uj)), (fdiv_fin _ _ (proj1 Ui)) by (assumption || lra).
    rewrite ED. apply rnd_le. unfold Rdiv. apply Rmult_le_compat_r; [apply Rlt_le, Rinv_0_lt_compat; lra|]. rewrite (fsub_fin fm mj (proj1 M) (proj1 Nj) (proj1 Uj)), (fsub_fin fm mi (proj1 M) (proj1 Ni) (proj1 Ui)). apply rnd_le. lra. }
  pose proof (HO _ _ LZ) as Q. apply fopp_le; [now apply (cdf_unit cdf pdf K), isfin_not_nan|now apply (cdf_unit cdf pdf K), isfin_not_nan|]. apply fle_finite; [now apply (cdf_unit cdf pdf K), isfin_not_nan|now apply (cdf_unit cdf pdf K), isfin_not_nan|exact Q].
Qed.
End Values.
