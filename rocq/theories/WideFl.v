(** Responses so far apart that their standard deviation overflows, in binary64. *)
From Coq Require Import ZArith Bool List Reals Lra Lia Permutation.
From Flocq Require Import Core IEEE754.BinarySingleNaN.
From Verif Require Import Fl Spec NpList FlFacts KernelFl CholFl FlErr OutputFl OutputFlFacts OutputFlThms TrainFlFacts TrainFlMain TrainFlWit.
Import ListNotations.
Local Open Scope R_scope.

Definition plus_sign (x : b64) : Prop := isnan x = false /\ Bsign x = false.
Lemma square_sign x : isnan x = false -> plus_sign (fmul x x).
Proof.
  intros N. destruct x as [s|s| |s m e B]; try discriminate N; try (now destruct s). split; [exact (proj2 (square_pos (B754_finite s m e B) N))|].
  pose proof (proj2 (square_pos (B754_finite s m e B) N)) as Q. unfold fmul in *.
  pose proof (Bmult_correct 53 1024 _ _ mode_NE (B754_finite s m e B) (B754_finite s m e B)) as C. cbv zeta in C.
  destruct (Rlt_bool _ _).
  - destruct C as (_ & _ & C). specialize (C Q). rewrite C. cbn [Bsign]. apply xorb_nilpotent.
  - cbn [Bsign] in C. rewrite xorb_nilpotent in C. destruct (Bmult _ _ _) as [t|t| |t m' e' B']; cbn in C; try discriminate C. injection C as ->. reflexivity.
Qed.
Lemma add_sign x y : plus_sign x -> plus_sign y -> plus_sign (fadd x y).
Proof.
  intros [Nx Sx] [Ny Sy]. destruct (isfin x) eqn:Fx; [destruct (isfin y) eqn:Fy|].
  - pose proof (Bplus_correct 53 1024 _ _ mode_NE x y Fx Fy) as C. unfold fadd. destruct (Rlt_bool _ _).
    + destruct C as (_ & F & C). split; [unfold isnan; destruct (Bplus _ _ _); try discriminate F; reflexivity|]. rewrite C, Sx, Sy.
      assert (P : forall z : b64, Bsign z = false -> 0 <= B2R z).
      { intros z Sz. destruct z as [t|t| |t m e B]; cbn in Sz; cbn [B2R]; try lra. subst. apply F2R_ge_0. cbn. lia. }
      pose proof (P x Sx). pose proof (P y Sy). destruct (Rcompare_spec (B2R x + B2R y) 0); [lra|reflexivity|reflexivity].
    + destruct C as [C _]. rewrite Sx in C. destruct (Bplus _ _ _) as [t|t| |t m' e' B']; cbn in C; try discriminate C. injection C as ->. split; reflexivity.
  - destruct y as [t|t| |t m e B]; try discriminate Fy; try discriminate Ny. cbn in Sy. subst. destruct x as [t|t| |t m e B]; try discriminate Fx; split; reflexivity.
  - destruct x as [t|t| |t m e B]; try discriminate Fx; try discriminate Nx. cbn in Sx. subst. destruct y as [t|t| |t m e B]; try discriminate Ny; cbn in Sy; subst; split; reflexivity.
Qed.
Lemma sum_sign l s : sum_of l s -> Forall plus_sign l -> plus_sign s.
Proof.
  induction 1 as [|x|l l1 l2 s1 s2 N1 N2 P S1 IH1 S2 IH2]; intros A; [split; reflexivity|now inversion A|].
  rewrite Forall_forall in A. apply add_sign; [apply IH1|apply IH2]; apply Forall_forall; intros z I; apply A; apply (Permutation_in z (Permutation_sym P)); apply in_or_app; tauto.
Qed.

Lemma bpow_format e : (-1074 <= e)%Z -> generic_format radix2 fexp64 (bpow radix2 e).
Proof. intros H. apply generic_format_bpow. unfold SpecFloat.fexp, SpecFloat.emin. lia. Qed.
(** the difference of finite numbers is finite or infinite *)
Lemma sub_cases y m : isfin y = true -> isfin m = true -> (isfin (fsub y m) = true /\ B2R (fsub y m) = rnd (B2R y - B2R m)) \/ exists b, fsub y m = B754_infinity b.
Proof.
  intros Fy Fm. pose proof (Bminus_correct 53 1024 _ _ mode_NE y m Fy Fm) as C. change (round_mode mode_NE) with ZnearestE in C. fold (rnd (B2R y - B2R m)) in C. unfold fsub.
  destruct (Rlt_bool _ _).
  - destruct C as (A & B & _). left. split; [exact B|exact A].
  - destruct C as [C _]. right. destruct (Bminus _ _ _) as [t|t| |t m' e' B']; cbn in C; try discriminate C. exists t. reflexivity.
Qed.
Lemma square_over x : isfin x = true -> bpow radix2 512 <= Rabs (B2R x) -> fmul x x = finf.
Proof.
  intros F H. pose proof (Bmult_correct 53 1024 _ _ mode_NE x x) as C. cbv zeta in C. change (round_mode mode_NE) with ZnearestE in C. fold (rnd (B2R x * B2R x)) in C. unfold fmul.
  rewrite Rlt_bool_false in C.
  - rewrite xorb_nilpotent in C. destruct (Bmult _ _ _) as [t|t| |t m' e' B']; cbn in C; try discriminate C. injection C as ->. reflexivity.
  - unfold rnd. apply abs_round_ge_generic; auto with typeclass_instances; [apply bpow_format; lia|]. rewrite Rabs_mult. assert (E : bpow radix2 1024 = bpow radix2 512 * bpow radix2 512) by (rewrite <- bpow_plus; reflexivity). rewrite E. clear E.
    pose proof (bpow_ge_0 radix2 512). apply Rmult_le_compat; assumption.
Qed.
Lemma wide_square y m : isfin y = true -> isfin m = true -> bpow radix2 512 <= Rabs (B2R y - B2R m) -> fmul (fsub y m) (fsub y m) = finf.
Proof.
  intros Fy Fm H. destruct (sub_cases y m Fy Fm) as [[F V]|[b ->]]; [|now destruct b]. apply square_over; [exact F|]. rewrite V. unfold rnd.
  apply abs_round_ge_generic; auto with typeclass_instances. apply bpow_format. lia.
Qed.

Section Std.
Variable np_sum : list b64 -> b64.
Hypothesis sum_ok : forall l, sum_of l (np_sum l).
Lemma std_inf Y : INR (length Y) <= 2 ^ 20 -> Forall (fun y => isfin y = true) Y -> isnan (mean64 np_sum Y) = false ->
  (exists y, In y Y /\ fmul (fsub y (mean64 np_sum Y)) (fsub y (mean64 np_sum Y)) = finf) -> std64 np_sum Y = finf.
Proof.
  intros L A Nm (y & I & E). set (m := mean64 np_sum Y) in *. unfold std64. cbv zeta. fold m. set (l := map _ Y).
  assert (S : forall z, In z Y -> isnan (fsub z m) = false).
  { intros z J. rewrite Forall_forall in A. specialize (A z J). destruct (isfin m) eqn:Fm.
    - destruct (sub_cases z m A Fm) as [[F _]|[b ->]]; [destruct (fsub z m); try discriminate F; reflexivity|reflexivity].
    - destruct m as [b|b| |b mm e B]; try discriminate Fm; try discriminate Nm. destruct z; try discriminate A; reflexivity. }
  assert (PS : plus_sign (np_sum l)).
  { apply (sum_sign l _ (sum_ok l)). apply Forall_forall. intros x J. unfold l in J. apply in_map_iff in J. destruct J as (z & <- & J). cbv zeta. apply square_sign. now apply S. }
  assert (V : np_sum l = finf).
  { destruct (sum_inf l _ false (sum_ok l)) as [V|V]; [|exact V|rewrite V in PS; destruct PS as [PS _]; discriminate PS].
    unfold l. apply in_map_iff. exists y. split; [exact E|exact I]. }
  rewrite V. destruct (count_pos Y) as [C1 C2]; [replace (2 ^ 20) with 1048576 in L by ring; exact L|destruct Y; [easy|cbn; lia]|].
  destruct (count64 Y) as [d|d| |d p q H]; try discriminate C1; [cbn in C2; lra|]. destruct d; [|reflexivity].
  exfalso. pose proof (F2R_lt_0 radix2 (Float radix2 (Zneg p) q) eq_refl) as N. cbn [B2R] in C2. change (cond_Zopp true (Z.pos p)) with (Z.neg p) in C2. lra.
Qed.
(** two responses at least 2^513 apart *)
Theorem wide_std Y : INR (length Y) <= 2 ^ 20 -> Forall (fun y => isfin y = true) Y -> (exists y1 y2, In y1 Y /\ In y2 Y /\ 2 ^ 513 <= Rabs (val y1 - val y2)) ->
  std64 np_sum Y = finf \/ (std64 np_sum Y = fnan /\ mean64 np_sum Y = fnan).
Proof.
  intros L A (y1 & y2 & I1 & I2 & H). unfold val in H. destruct (isnan (mean64 np_sum Y)) eqn:N; [right|left].
  - apply nan_is in N. split; [|exact N]. apply (std_nan np_sum sum_ok Y y1 I1). rewrite N. apply fsub_nan_r.
  - apply std_inf; [exact L|exact A|exact N|]. set (m := mean64 np_sum Y) in *. destruct (isfin m) eqn:F.
    + rewrite Forall_forall in A. assert (E : 2 ^ 513 = 2 * bpow radix2 512).
      { change (bpow radix2 512) with (IZR (2 ^ 512)). rewrite <- mult_IZR. rewrite (pow_IZR 2 513). apply f_equal. reflexivity. }
      rewrite E in H. clear E. set (w := bpow radix2 512) in *.
      destruct (Rle_lt_dec w (Rabs (B2R y1 - B2R m))) as [W|W]; [exists y1; split; [exact I1|]; apply wide_square; auto|].
      exists y2. split; [exact I2|]. apply wide_square; [apply A, I2|exact F|]. fold w. revert H W. generalize w. intros w'. unfold Rabs. repeat destruct (Rcase_abs _); lra.
    + exists y1. split; [exact I1|]. rewrite Forall_forall in A. specialize (A y1 I1). destruct m as [b|b| |b mm e B]; try discriminate F; try discriminate N.
      destruct y1; try discriminate A; destruct b; reflexivity.
Qed.
Lemma div_not_nan x c : isfin x = true -> isfin c = true -> B2R c <> 0 -> isnan (fdiv x c) = false.
Proof.
  intros Fx Fc N. pose proof (Bdiv_correct 53 1024 _ _ mode_NE x c N) as C. unfold fdiv, isnan. destruct (Rlt_bool _ _).
  - destruct C as (_ & F & _). unfold isfin in Fx. rewrite Fx in F. destruct (Bdiv _ _ _); try discriminate F; reflexivity.
  - destruct (Bdiv _ _ _); cbn in C; try discriminate C; reflexivity.
Qed.
(** ... of which none exceeds 2^980: the standard deviation is infinite *)
Theorem wide_std_inf Y : INR (length Y) <= 2 ^ 20 -> Forall (fun y => isfin y = true /\ Rabs (val y) <= 2 ^ 980) Y ->
  (exists y1 y2, In y1 Y /\ In y2 Y /\ 2 ^ 513 <= Rabs (val y1 - val y2)) -> std64 np_sum Y = finf.
Proof.
  intros L A W. assert (F : Forall (fun y => isfin y = true) Y) by (revert A; apply Forall_impl; tauto).
  assert (P : (0 < length Y)%nat) by (destruct W as (y1 & _ & I & _); destruct Y; [destruct I|cbn; lia]).
  destruct (wide_std Y L F W) as [E|[_ E]]; [exact E|]. exfalso. assert (L' : INR (length Y) <= 1048576) by (replace (2 ^ 20) with 1048576 in L by ring; exact L).
  destruct (count_pos Y L' P) as [C1 C2]. destruct (sum_of_err Y _ (sum_ok Y) F L') as [S _].
  - assert (B : Forall (fun r => Rabs r <= 2 ^ 980) (vals Y)).
    { unfold vals. apply Forall_forall. intros r I. apply in_map_iff in I. destruct I as (y & <- & I). rewrite Forall_forall in A. exact (proj2 (A y I)). }
    pose proof (asum_bound _ _ B) as Q. unfold vals in Q at 2. rewrite map_length in Q. apply (Rle_trans _ _ _ Q).
    replace big with (1048576 * 2 ^ 980); [apply Rmult_le_compat_r; [apply pow_le; lra|exact L']|].
    unfold big. change (bpow radix2 1000) with (IZR (2 ^ 1000)). rewrite (pow_IZR 2 980), <- mult_IZR. apply f_equal. reflexivity.
  - assert (N : isnan (mean64 np_sum Y) = false) by (unfold mean64; apply div_not_nan; [exact S|exact C1|lra]). rewrite E in N. discriminate N.
Qed.
End Std.

(** 2^600 *)
Definition huge : b64 := @B754_finite 53 1024 false 4503599627370496 548 eq_refl.
Lemma huge_val : val huge = 2 ^ 600.
Proof. unfold val, huge. cbn [B2R]. unfold F2R. cbn [Fnum Fexp cond_Zopp]. change (bpow radix2 548) with (IZR (2 ^ 548)). rewrite (pow_IZR 2 600), <- mult_IZR. apply f_equal. reflexivity. Qed.
Lemma pow_increase n m : (n <= m)%nat -> 2 ^ n <= 2 ^ m. Proof. intros H. apply Rle_pow; [lra|exact H]. Qed.
Lemma huge_wide np_sum : (forall l, sum_of l (np_sum l)) -> std64 np_sum [f0; f0; huge] = finf.
Proof.
  intros H. apply wide_std_inf; [exact H|cbn; lra| |].
  - assert (P : 0 <= 2 ^ 980) by (apply pow_le; lra).
    assert (Z : isfin f0 = true /\ Rabs (val f0) <= 2 ^ 980) by (split; [reflexivity|unfold val, f0; cbn [B2R]; rewrite Rabs_R0; exact P]).
    constructor; [exact Z|]. constructor; [exact Z|]. constructor; [|constructor]. split; [reflexivity|].
    rewrite huge_val, Rabs_pos_eq; [apply pow_increase; lia|apply pow_le; lra].
  - exists huge, f0. split; [right; right; now left|]. split; [now left|]. rewrite huge_val. unfold val, f0. cbn [B2R]. rewrite Rminus_0_r, Rabs_pos_eq; [apply pow_increase; lia|apply pow_le; lra].
Qed.
