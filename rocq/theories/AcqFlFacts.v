(** NaN, infinities and magnitudes in the acquisition formulas of AcqFl.v. *)
From Coq Require Import ZArith Reals Bool List Lia Lra Permutation.
From Flocq Require Import Core IEEE754.BinarySingleNaN.
From Verif Require Import Fl NpList KernelFl Spec FlFacts FlErr FlMag NpFacts OutputFlMain AcqFl AcqFlSpec.
Import ListNotations.
Local Open Scope R_scope.

Lemma mod_mag x : moderate_finite x <-> mag_le 300 x.
Proof. unfold moderate_finite, mag_le, val. rewrite pow_bpow. reflexivity. Qed.
Lemma mod_cases x : moderate x -> isfin x = true -> mag_le 300 x.
Proof. intros H F. apply mod_mag. split; [exact F|exact (H F)]. Qed.
Lemma unit_mag x : unit_closed x -> mag_le 0 x.
Proof. intros [F H]. split; [exact F|]. cbn [bpow]. unfold val in H. rewrite Rabs_pos_eq; apply H. Qed.
Lemma nan_eq x : isnan x = true -> x = fnan.
Proof. now destruct x. Qed.
Lemma dev_cases s : deviation s -> isnan s = true \/ s = finf \/ (isfin s = true /\ 0 <= B2R s).
Proof.
  intros [N|L]; [now left|]. right. destruct (fin_or s (fle_nnan_r _ _ L)) as [F|[-> | ->]]; [|now left|discriminate L].
  right. split; [exact F|]. apply (fle_finite f0 s) in L; [exact L|reflexivity|exact F].
Qed.
Lemma fopp_nan x : isnan (fopp x) = isnan x. Proof. now destruct x. Qed.
Lemma fopp_fin x : isfin (fopp x) = isfin x. Proof. now destruct x. Qed.
Lemma fopp_val x : B2R (fopp x) = - B2R x. Proof. unfold fopp. apply B2R_Bopp. Qed.
Lemma fdiv_nnan x y : isfin x = true -> isfin y = true -> B2R y <> 0 -> isnan (fdiv x y) = false.
Proof.
  intros Hx Hy Z. pose proof (Bdiv_correct 53 1024 _ _ mode_NE x y Z) as H. fold (fdiv x y) in H.
  destruct (Rlt_bool _ _) eqn:E.
  - destruct H as (_ & F & _). unfold isfin in Hx. rewrite Hx in F. now apply isfin_not_nan.
  - rewrite isnan_SF, H. destruct (xorb _ _); reflexivity.
Qed.
Lemma fsub_nan_l x : fsub fnan x = fnan. Proof. reflexivity. Qed.
Lemma fsub_nan_r x : fsub x fnan = fnan. Proof. now destruct x. Qed.
Lemma fadd_nan_l x : fadd fnan x = fnan. Proof. reflexivity. Qed.
Lemma fadd_nan_r x : fadd x fnan = fnan. Proof. now destruct x. Qed.
Lemma fmul_nan_l x : fmul fnan x = fnan. Proof. reflexivity. Qed.
Lemma fmul_nan_r x : fmul x fnan = fnan. Proof. now destruct x. Qed.
Lemma fdiv_nan_l x : fdiv fnan x = fnan. Proof. reflexivity. Qed.
Lemma fdiv_nan_r x : fdiv x fnan = fnan. Proof. now destruct x. Qed.
Lemma fsub_pinf x : isfin x = true -> fsub x finf = fninf. Proof. now destruct x. Qed.
Lemma fsub_ninf x : isfin x = true -> fsub x fninf = finf. Proof. now destruct x. Qed.
Lemma fadd_inf_l b x : isfin x = true -> fadd (B754_infinity b) x = B754_infinity b. Proof. now destruct x. Qed.
Lemma fadd_inf_r b x : isfin x = true -> fadd x (B754_infinity b) = B754_infinity b. Proof. now destruct x. Qed.
Lemma pos_case y : isfin y = true -> 0 < B2R y -> exists m e H, y = B754_finite false m e H.
Proof.
  intros F P. destruct y as [s|s| |s m e H]; try discriminate F; [cbn in P; lra|]. destruct s; [|eauto].
  exfalso. cbn in P. pose proof (F2R_le_0 radix2 (Float radix2 (Z.neg m) e) ltac:(cbn; lia)). lra.
Qed.
Lemma zero_case y : isfin y = true -> B2R y = 0 -> exists b, y = B754_zero b.
Proof. intros F P. destruct y as [s|s| |s m e H]; try discriminate F; [eauto|]. cbn in P. apply eq_0_F2R in P. cbn in P. destruct s; discriminate P. Qed.
Lemma fdiv_inf_l b y : isfin y = true -> 0 < B2R y -> fdiv (B754_infinity b) y = B754_infinity b.
Proof. intros F P. destruct (pos_case y F P) as (m & e & H & ->). now destruct b. Qed.
Lemma fdiv_inf_inf b c : fdiv (B754_infinity b) (B754_infinity c) = fnan. Proof. now destruct b. Qed.
Lemma fdiv_inf_r b x : isfin x = true -> isfin (fdiv x (B754_infinity b)) = true /\ B2R (fdiv x (B754_infinity b)) = 0.
Proof. now destruct x. Qed.
Lemma fmul_inf_0 b y : isfin y = true -> B2R y = 0 -> fmul (B754_infinity b) y = fnan.
Proof. intros F P. destruct (zero_case y F P) as (c & ->). reflexivity. Qed.
Lemma fmul_0_inf b y : isfin y = true -> B2R y = 0 -> fmul y (B754_infinity b) = fnan.
Proof. intros F P. destruct (zero_case y F P) as (c & ->). reflexivity. Qed.
Lemma fmul_inf_pos b y : isfin y = true -> 0 < B2R y -> fmul (B754_infinity b) y = B754_infinity b.
Proof. intros F P. destruct (pos_case y F P) as (m & e & H & ->). now destruct b. Qed.
Lemma fmul_pos_inf b y : isfin y = true -> 0 < B2R y -> fmul y (B754_infinity b) = B754_infinity b.
Proof. intros F P. destruct (pos_case y F P) as (m & e & H & ->). now destruct b. Qed.

(** the constants *)
Lemma fz_val z : (Z.abs z < 2 ^ 53)%Z -> isfin (fz z) = true /\ B2R (fz z) = IZR z.
Proof.
  intros H. unfold fz, fbin. pose proof (binary_normalize_correct 53 1024 _ _ mode_NE z 0 false) as C. cbv zeta in C.
  assert (G : generic_format radix2 fexp64 (F2R (Float radix2 z 0))).
  { apply generic_format_FLT. exists (Float radix2 z 0); cbn; [reflexivity| |]; lia. }
  assert (E : F2R (Float radix2 z 0) = IZR z) by (unfold F2R; cbn [Fnum Fexp]; change (bpow radix2 0) with 1; ring). rewrite E in C, G.
  assert (RZ : round radix2 (SpecFloat.fexp 53 1024) (round_mode mode_NE) (IZR z) = IZR z) by (apply round_generic; [exact _|exact G]).
  match type of C with context [round ?a ?b ?c (IZR z)] => change (round a b c (IZR z)) with (rnd (IZR z)) in C end. change (rnd (IZR z) = IZR z) in RZ. rewrite RZ in C.
  rewrite Rlt_bool_true in C. { destruct C as (A & B & _). now split. }
  rewrite <- abs_IZR. apply Rle_lt_trans with (IZR (2 ^ 53)); [apply IZR_le; lia|].
  change (IZR (2 ^ 53)) with (bpow radix2 53). apply bpow_lt. reflexivity.
Qed.
Lemma recip_val k : (1 <= k < 2 ^ 53)%Z -> let x := fdiv f1 (fz k) in isfin x = true /\ Rabs (B2R x - / IZR k) <= uro * / IZR k + eta /\ 0 <= B2R x <= 1.
Proof.
  intros H. destruct (fz_val k ltac:(lia)) as [F V]. cbv zeta.
  assert (K : 1 <= IZR k) by (apply IZR_le; lia).
  assert (I : 0 < / IZR k <= 1). { split; [apply Rinv_0_lt_compat; lra|]. rewrite <- Rinv_1. apply Rinv_le; lra. }
  assert (Q : B2R f1 / B2R (fz k) = / IZR k) by (rewrite B2R_f1, V; unfold Rdiv; ring).
  assert (L : 0 <= rnd (/ IZR k) <= 1). { split; [rewrite <- rnd_0; apply rnd_le; lra|]. rewrite <- B2R_f1, <- rnd_B2R. apply rnd_le. rewrite B2R_f1; apply I. }
  destruct (fdiv_spec f1 (fz k) eq_refl) as [A B]; [rewrite V; lra| |].
  { rewrite Q, Rabs_pos_eq by apply L. apply Rle_lt_trans with 1; [apply L|]. change 1 with (bpow radix2 0). apply bpow_lt. lia. }
  split; [exact B|]. rewrite A, Q. split; [|exact L]. pose proof (rnd_err (/ IZR k)) as E. rewrite (Rabs_pos_eq (/ IZR k)) in E by lra. exact E.
Qed.
Lemma eta_uro : eta <= uro * / 10 ^ 12.
Proof.
  replace (/ 10 ^ 12) with (/ IZR (10 ^ 12)) by (f_equal; cbn; ring). apply Rle_trans with (uro * bpow radix2 (-40)).
  - unfold eta, uro. rewrite <- bpow_plus. apply bpow_le. lia.
  - apply Rmult_le_compat_l; [apply Rlt_le, uro_pos|]. change (bpow radix2 (-40)) with (/ IZR (2 ^ 40)). apply Rinv_le; [apply IZR_lt; reflexivity|]. apply IZR_le. now vm_compute.
Qed.
Lemma nano_val : isfin nano64 = true /\ Rabs (B2R nano64 - / 10 ^ 9) <= 2 * uro * / 10 ^ 9 /\ 0 < B2R nano64 <= 1.
Proof.
  destruct (recip_val (10 ^ 9) ltac:(now vm_compute)) as (F & E & B). fold nano64 in F, E, B.
  replace (IZR (10 ^ 9)) with (10 ^ 9) in E by (cbn; ring). pose proof eta_uro as U. pose proof uro_pos. pose proof uro_val as UV.
  assert (/ 10 ^ 12 <= / 10 ^ 9) by (apply Rinv_le; cbn; lra). assert (0 < / 10 ^ 9) by (apply Rinv_0_lt_compat; cbn; lra).
  assert (T : uro * / 10 ^ 12 <= uro * / 10 ^ 9) by (apply Rmult_le_compat_l; lra).
  split; [exact F|]. assert (Q : Rabs (B2R nano64 - / 10 ^ 9) <= 2 * uro * / 10 ^ 9) by lra. split; [exact Q|]. split; [|apply B].
  apply Rabs_le_inv in Q. assert (2 * uro * / 10 ^ 9 < / 10 ^ 9). { rewrite <- (Rmult_1_l (/ 10 ^ 9)) at 2. apply Rmult_lt_compat_r; [assumption|]. rewrite UV. lra. } lra.
Qed.
Lemma ten_nano_val : isfin ten_nano64 = true /\ 0 < B2R ten_nano64 <= 1.
Proof.
  destruct (recip_val (10 ^ 8) ltac:(now vm_compute)) as (F & E & B). fold ten_nano64 in F, E, B.
  replace (IZR (10 ^ 8)) with (10 ^ 8) in E by (cbn; ring). pose proof eta_uro as U. pose proof uro_pos. pose proof uro_val as UV.
  assert (/ 10 ^ 12 <= / 10 ^ 8) by (apply Rinv_le; cbn; lra). assert (0 < / 10 ^ 8) by (apply Rinv_0_lt_compat; cbn; lra).
  assert (T : uro * / 10 ^ 12 <= uro * / 10 ^ 8) by (apply Rmult_le_compat_l; lra).
  assert (Q : Rabs (B2R ten_nano64 - / 10 ^ 8) <= 2 * uro * / 10 ^ 8) by lra. split; [exact F|]. split; [|apply B].
  apply Rabs_le_inv in Q. assert (2 * uro * / 10 ^ 8 < / 10 ^ 8). { rewrite <- (Rmult_1_l (/ 10 ^ 8)) at 2. apply Rmult_lt_compat_r; [assumption|]. rewrite UV. lra. } lra.
Qed.
Lemma eps_val : isfin eps64 = true /\ B2R eps64 = bpow radix2 (-52).
Proof.
  unfold eps64, fbin. pose proof (binary_normalize_correct 53 1024 _ _ mode_NE 1 (-52) false) as C. cbv zeta in C.
  assert (E : F2R (Float radix2 1 (-52)) = bpow radix2 (-52)) by (unfold F2R; cbn [Fnum Fexp]; ring).
  rewrite E in C. change (round radix2 (SpecFloat.fexp 53 1024) (round_mode mode_NE) (bpow radix2 (-52))) with (rnd (bpow radix2 (-52))) in C. rewrite rnd_bpow in C by lia.
  rewrite Rlt_bool_true in C. { destruct C as (A & B & _). now split. }
  rewrite Rabs_pos_eq by apply bpow_ge_0. apply bpow_lt. lia.
Qed.

(** the formula of the improvement *)
Section Improvement.
Variables (cdf pdf : b64 -> b64).
Hypothesis K : normal_kind cdf pdf.
Let imp := improvement64 cdf pdf.
Lemma cdf_unit z : isnan z = false -> unit_closed (cdf z). Proof. intros H. destruct K as (_ & U & _). apply (U z H). Qed.
Lemma pdf_unit z : isnan z = false -> unit_closed (pdf z). Proof. intros H. destruct K as (_ & U & _). apply (U z H). Qed.
Lemma cdf_nan : cdf fnan = fnan. Proof. destruct K as (N & _). apply nan_eq, (N fnan eq_refl). Qed.
Lemma pdf_nan : pdf fnan = fnan. Proof. destruct K as (N & _). apply nan_eq, (N fnan eq_refl). Qed.
Lemma imp_nan_z fmin m s den : isnan (fdiv (fsub fmin m) den) = true -> imp fmin m s den = fnan.
Proof. intros H. unfold imp, improvement64. apply nan_eq in H. rewrite H, cdf_nan, fmul_nan_r. apply fadd_nan_l. Qed.
Lemma imp_fin fmin m s den : mag_le 300 fmin -> mag_le 300 m -> mag_le 300 s -> isnan (fdiv (fsub fmin m) den) = false -> mag_le 302 (imp fmin m s den).
Proof.
  intros Hf Hm Hs Z. unfold imp, improvement64. change 302%Z with (301 + 1)%Z. apply mag_add; [lia| |].
  - change 301%Z with (300 + 1 + 0)%Z. apply mag_mul; [lia| |apply unit_mag, cdf_unit, Z]. apply mag_sub; [lia|assumption|assumption].
  - apply (mag_weaken (300 + 0)); [lia|]. apply mag_mul; [lia|assumption|apply unit_mag, pdf_unit, Z].
Qed.
Ltac tab := repeat match goal with |- _ /\ _ => split | |- _ <-> _ => split end; intros;
  repeat match goal with H : _ \/ _ |- _ => destruct H | H : _ /\ _ |- _ => destruct H end; try subst; try discriminate; try congruence; auto 6.
(** what the formula gives when the denominator is positive if the deviation is finite, and infinite if it is infinite *)
Definition den_of (s den : b64) : Prop :=
  (isnan s = true -> isnan den = true) /\ (s = finf -> den = finf) /\ (isfin s = true -> isfin den = true /\ 0 < B2R den).
Lemma imp_table fmin m s den : mag_le 300 fmin -> moderate m -> moderate s -> deviation s -> den_of s den ->
  (isfin (imp fmin m s den) = true <-> isfin m = true /\ isfin s = true) /\
  (isnan (imp fmin m s den) = true <-> isnan m = true \/ isnan s = true \/ m = finf \/ (m = fninf /\ s = finf)).
Proof.
  intros Hf Hm Hs Ds (D1 & D2 & D3).
  assert (Ff : isfin fmin = true) by apply Hf.
  destruct (isnan m) eqn:Nm.
  { rewrite (imp_nan_z fmin m s den). - apply nan_eq in Nm. subst m. tab. - apply nan_eq in Nm. subst m. now rewrite fsub_nan_r. }
  destruct (dev_cases s Ds) as [Ns|[Is|[Fs Ps]]].
  - rewrite (imp_nan_z fmin m s den). + apply nan_eq in Ns. subst s. tab. + pose proof (D1 Ns) as N. apply nan_eq in N. subst den. now rewrite fdiv_nan_r.
  - rewrite (D2 Is). subst s. destruct (fin_or m Nm) as [Fm|[-> | ->]].
    + assert (E : imp fmin m finf finf = finf).
      { unfold imp, improvement64. set (u := fsub fmin m).
        assert (U : mag_le 301 u) by (apply (mag_sub 300); [lia|exact Hf|now apply mod_cases]).
        destruct (fdiv_inf_r false u (proj1 U)) as [F Z]. change (B754_infinity false) with finf in F, Z. set (z := fdiv u finf) in *.
        assert (Nz : isnan z = false) by now apply isfin_not_nan.
        assert (P : 0 < B2R (pdf z)) by (destruct K as (_ & _ & _ & _ & _ & _ & Q); exact (Q z F Z)).
        unfold finf at 1. rewrite fmul_inf_pos; [|apply pdf_unit, Nz|exact P]. apply fadd_inf_r.
        apply (mag_mul 301 0); [lia|exact U|apply unit_mag, cdf_unit, Nz]. }
      rewrite E. tab.
    + rewrite imp_nan_z; [tab|]. rewrite fsub_pinf by exact Ff. reflexivity.
    + rewrite imp_nan_z; [tab|]. rewrite fsub_ninf by exact Ff. reflexivity.
  - destruct (D3 Fs) as [Fd Pd]. assert (Ns : isnan s = false) by now apply isfin_not_nan. destruct (fin_or m Nm) as [Fm|[-> | ->]].
    + assert (U : mag_le 301 (fsub fmin m)) by (apply (mag_sub 300); [lia|exact Hf|now apply mod_cases]).
      assert (F : isfin (imp fmin m s den) = true) by (apply imp_fin; [exact Hf|now apply mod_cases|now apply mod_cases|apply fdiv_nnan; [apply U|exact Fd|lra]]).
      rewrite (isfin_not_nan _ F). rewrite F, Fm, Fs, Ns. tab.
    + assert (E : imp fmin finf s den = fnan).
      { unfold imp, improvement64. rewrite fsub_pinf by exact Ff. unfold fninf at 2. rewrite fdiv_inf_l by assumption. change (B754_infinity true) with fninf.
        destruct (cdf_unit fninf eq_refl) as [F _]. unfold fninf at 1. rewrite fmul_inf_0; [apply fadd_nan_l|exact F|apply K]. }
      rewrite E, Fs, Ns. tab.
    + assert (E : imp fmin fninf s den = finf).
      { unfold imp, improvement64. rewrite fsub_ninf by exact Ff. unfold finf at 2. rewrite fdiv_inf_l by assumption.
        unfold finf at 2. rewrite fdiv_inf_l by assumption. change (B754_infinity false) with finf. destruct (cdf_unit finf eq_refl) as [F _]. unfold finf at 1. rewrite fmul_inf_pos; [|exact F|].
        - apply fadd_inf_l. apply (mag_mul 300 0); [lia|now apply mod_cases|apply unit_mag, pdf_unit; reflexivity].
        - destruct K as (_ & _ & _ & Q & _). unfold val in Q. rewrite Q. lra. }
      rewrite E, Fs, Ns. tab.
Qed.
End Improvement.
(** denominators of this kind *)
Lemma den_add s c : deviation s -> moderate s -> isfin c = true -> 0 < B2R c <= 1 -> den_of s (fadd s c).
Proof.
  intros D M F P. split; [|split].
  - intros N. apply nan_eq in N. subst s. now rewrite fadd_nan_l.
  - intros ->. now apply fadd_inf_l.
  - intros Fs. destruct (dev_cases s D) as [N|[-> |[_ Ps]]]; [rewrite (isfin_not_nan _ Fs) in N; discriminate|discriminate|].
    assert (Mc : mag_le 300 c). { split; [exact F|]. rewrite Rabs_pos_eq by lra. apply Rle_trans with (1 := proj2 P). change 1 with (bpow radix2 0). apply bpow_le. lia. }
    pose proof (mag_add 300 s c ltac:(lia) (mod_cases s M Fs) Mc) as A. split; [apply A|].
    pose proof (fadd_fin s c Fs F (proj1 A)) as V. rewrite V. apply Rlt_le_trans with (B2R c); [apply P|]. rewrite <- rnd_B2R at 1. apply rnd_le. lra.
Qed.
Lemma den_self s : deviation s -> flt s eps64 = false -> den_of s s.
Proof.
  intros D L. split; [auto|]. split; [auto|]. intros Fs. split; [exact Fs|]. destruct eps_val as [Fe Ve].
  destruct (Rlt_dec 0 (B2R s)) as [P|N]; [exact P|]. exfalso. assert (flt s eps64 = true); [|congruence].
  apply flt_finite; [exact Fs|exact Fe|]. rewrite Ve. pose proof (bpow_gt_0 radix2 (-52)). lra.
Qed.
