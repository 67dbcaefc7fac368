(** Rounding errors of sums and products in binary64. *)
From Coq Require Import ZArith Bool List Reals Lra Lia Psatz Permutation.
From Flocq Require Import Core Plus_error Relative IEEE754.BinarySingleNaN.
From Verif Require Import Fl FlFacts FlMag KernelFl.
Import ListNotations.
Local Open Scope R_scope.

(** the unit roundoff 2^-53 and the underflow unit 2^-1075 *)
Definition uro : R := bpow radix2 (-53).
Definition eta : R := bpow radix2 (-1075).
Lemma uro_pos : 0 < uro. Proof. apply bpow_gt_0. Qed.
Lemma eta_pos : 0 < eta. Proof. apply bpow_gt_0. Qed.

Lemma uro_eq : / 2 * bpow radix2 (- (53) + 1) = uro.
Proof. unfold uro. change (- (53) + 1)%Z with (-53 + 1)%Z. rewrite bpow_plus. change (bpow radix2 1) with 2. lra. Qed.
Lemma ulp_small x e : x <> 0 -> (-1022 <= e)%Z -> Rabs x < bpow radix2 e -> ulp radix2 fexp64 x <= bpow radix2 (Z.max (e - 53) (-1074)).
Proof.
  intros Z E H. rewrite ulp_neq_0 by exact Z. apply bpow_le. unfold cexp.
  assert (M : (mag radix2 x <= e)%Z) by (apply mag_le_bpow; [exact Z|exact H]).
  unfold SpecFloat.fexp, SpecFloat.emin. lia.
Qed.
Lemma rnd_half_ulp x : Rabs (rnd x - x) <= / 2 * ulp radix2 fexp64 x.
Proof. unfold rnd. apply error_le_half_ulp; auto with typeclass_instances. Qed.
Lemma rnd_err x : Rabs (rnd x - x) <= uro * Rabs x + eta.
Proof.
  assert (P : 0 <= uro * Rabs x) by (apply Rmult_le_pos; [left; apply uro_pos|apply Rabs_pos]). pose proof eta_pos.
  destruct (Req_dec x 0) as [Z|Z]; [subst x; rewrite rnd_0, Rminus_0_r, Rabs_R0 in *; lra|].
  destruct (Rle_or_lt (bpow radix2 (-1022)) (Rabs x)) as [B|B].
  - assert (E : Rabs (rnd x - x) <= / 2 * bpow radix2 (- (53) + 1) * Rabs x).
    { apply (relative_error_N_FLT radix2 (-1074) 53 eq_refl (fun t => negb (Z.even t)) x). exact B. }
    rewrite uro_eq in E. lra.
  - pose proof (rnd_half_ulp x) as E. pose proof (ulp_small x (-1022) Z ltac:(lia) B) as U. change (Z.max (-1022 - 53) (-1074)) with (-1074)%Z in U.
    unfold eta. replace (-1075)%Z with (-1074 + -1)%Z by lia. rewrite bpow_plus. change (bpow radix2 (-1)) with (/ 2). lra.
Qed.
Lemma rnd_err_abs x e : (-1020 <= e)%Z -> Rabs x <= bpow radix2 e -> Rabs (rnd x - x) <= bpow radix2 (e - 54).
Proof.
  intros E H. pose proof (bpow_gt_0 radix2 (e - 54)) as P.
  destruct (Req_dec x 0) as [Z|Z]; [subst x; rewrite rnd_0, Rminus_0_r, Rabs_R0; lra|].
  destruct H as [H|H].
  - pose proof (rnd_half_ulp x) as U. pose proof (ulp_small x e Z ltac:(lia) H) as V. rewrite Z.max_l in V by lia.
    replace (e - 53)%Z with (e - 54 + 1)%Z in V by lia. rewrite bpow_plus in V. change (bpow radix2 1) with 2 in V. lra.
  - assert (R : rnd x = x); [|rewrite R, Rminus_diag_eq, Rabs_R0 by easy; lra].
    unfold Rabs in H. destruct (Rcase_abs x) as [N|N].
    + unfold rnd. replace x with (- bpow radix2 e) by lra. change (round radix2 fexp64 ZnearestE (- bpow radix2 e)) with (rnd (- bpow radix2 e)).
      unfold rnd. rewrite round_NE_opp. fold (rnd (bpow radix2 e)). rewrite rnd_bpow by lia. easy.
    + rewrite H. apply rnd_bpow. lia.
Qed.
Lemma rnd_plus x y : generic_format radix2 fexp64 x -> generic_format radix2 fexp64 y -> Rabs (rnd (x + y) - (x + y)) <= uro * Rabs (x + y).
Proof.
  intros Fx Fy. destruct (FLT_plus_error_N_ex radix2 (-1074) 53 (fun t => negb (Z.even t)) x y Fx Fy) as [eps [B E]].
  change (round radix2 (FLT_exp (-1074) 53) (Znearest (fun t => negb (Z.even t))) (x + y)) with (rnd (x + y)) in E.
  rewrite E. replace ((x + y) * (1 + eps) - (x + y)) with (eps * (x + y)) by ring. rewrite Rabs_mult.
  apply Rmult_le_compat_r; [apply Rabs_pos|]. apply Rle_trans with (1 := B).
  change (u_ro radix2 53) with (/ 2 * bpow radix2 (- (53) + 1)). rewrite uro_eq. pose proof uro_pos.
  apply (Rmult_le_reg_r (1 + uro)); [lra|]. unfold Rdiv. rewrite Rmult_assoc, Rinv_l by lra. nra.
Qed.

(** ** any order of summation *)
Definition rsum (l : list R) : R := fold_right Rplus 0 l.
Definition asum (l : list R) : R := rsum (map Rabs l).
Lemma rsum_app l m : rsum (l ++ m) = rsum l + rsum m.
Proof. unfold rsum. induction l as [|x l IH]; cbn [fold_right app]; [ring|rewrite IH; ring]. Qed.
Lemma rsum_perm l m : Permutation l m -> rsum l = rsum m.
Proof. unfold rsum. induction 1 as [|x a b P IH|x y a|a b c P1 IH1 P2 IH2]; cbn [fold_right]; [easy|now rewrite IH|ring|now rewrite IH1]. Qed.
Lemma asum_app l m : asum (l ++ m) = asum l + asum m.
Proof. unfold asum. rewrite map_app. apply rsum_app. Qed.
Lemma asum_perm l m : Permutation l m -> asum l = asum m.
Proof. intros P. apply rsum_perm, Permutation_map, P. Qed.
Lemma asum_ge0 l : 0 <= asum l.
Proof. induction l as [|x l IH]; unfold asum in *; cbn [map rsum fold_right] in *; [lra|]. unfold rsum in IH. pose proof (Rabs_pos x). lra. Qed.
Lemma rsum_abs l : Rabs (rsum l) <= asum l.
Proof.
  induction l as [|x l IH]; unfold asum in *; cbn [map rsum fold_right] in *; [rewrite Rabs_R0; lra|].
  unfold rsum in IH. pose proof (Rabs_triang x (fold_right Rplus 0 l)). lra.
Qed.

Lemma uro_val : uro = / 9007199254740992.
Proof. unfold uro. change (-53)%Z with (- (53))%Z. rewrite bpow_opp. simpl. f_equal. Qed.
Lemma pow_uro n : INR n <= 1048576 -> (1 + uro) ^ n <= 1 + INR n * uro + INR n * INR n * (uro * uro).
Proof.
  induction n as [|n IH]; intros H; [cbn [INR pow]; lra|]. rewrite S_INR in *. pose proof (pos_INR n) as P. specialize (IH ltac:(lra)).
  cbn [pow]. pose proof uro_pos as U. rewrite uro_val in *. set (m := INR n) in *.
  apply Rle_trans with ((1 + / 9007199254740992) * (1 + m * / 9007199254740992 + m * m * (/ 9007199254740992 * / 9007199254740992))).
  - apply Rmult_le_compat_l; lra.
  - assert (m * m * / 9007199254740992 <= m). { assert (m * / 9007199254740992 <= 1) by lra. nra. }
    assert (0 <= m * m) by nra. lra.
Qed.
Lemma pow_uro_lin n : INR n <= 1048576 -> (1 + uro) ^ n - 1 <= (INR n + 1) * uro.
Proof.
  intros H. pose proof (pow_uro n H) as B. pose proof (pos_INR n) as P.
  assert (INR n * INR n * (uro * uro) <= uro); [|lra].
  pose proof uro_pos. assert (INR n * INR n * uro <= 1); [|nra]. rewrite uro_val.
  assert (INR n * INR n <= 1048576 * 1048576) by nra. lra.
Qed.
Lemma pow_uro_two n : INR n <= 1048576 -> 1 <= (1 + uro) ^ n <= 2.
Proof.
  intros H. pose proof (pow_uro_lin n H). pose proof uro_pos. split; [apply pow_R1_Rle; lra|]. rewrite uro_val in *. lra.
Qed.

Definition vals (l : list b64) : list R := @map b64 R (fun x => B2R x) l.
Lemma vals_app l m : vals (l ++ m) = vals l ++ vals m. Proof. apply map_app. Qed.
Lemma vals_perm l m : Permutation l m -> Permutation (vals l) (vals m). Proof. apply Permutation_map. Qed.
Definition fin_all (l : list b64) : Prop := Forall (fun x => isfin x = true) l.
(** a bound that leaves room below the largest number *)
Definition big : R := bpow radix2 1000.
Lemma big_pos : 0 < big. Proof. apply bpow_gt_0. Qed.
Lemma half_fmax : big * 4 < fmax.
Proof. unfold big. change 4 with (bpow radix2 2). rewrite <- bpow_plus. apply bpow_lt_fmax. lia. Qed.
Lemma fadd_err x y : isfin x = true -> isfin y = true -> Rabs (B2R x + B2R y) <= big * 3 ->
  isfin (fadd x y) = true /\ Rabs (B2R (fadd x y) - (B2R x + B2R y)) <= uro * Rabs (B2R x + B2R y).
Proof.
  intros Fx Fy B. pose proof (rnd_plus _ _ (format_B2R x) (format_B2R y)) as E.
  assert (O : Rabs (rnd (B2R x + B2R y)) < fmax).
  { apply Rle_lt_trans with (2 := half_fmax).
    replace (rnd (B2R x + B2R y)) with ((rnd (B2R x + B2R y) - (B2R x + B2R y)) + (B2R x + B2R y)) by ring.
    apply Rle_trans with (1 := Rabs_triang _ _). pose proof uro_pos as U. rewrite uro_val in *. pose proof (Rabs_pos (B2R x + B2R y)). lra. }
  destruct (fadd_spec x y Fx Fy O) as [V F]. split; [exact F|]. rewrite V. exact E.
Qed.
Lemma fin_perm l m : Permutation l m -> fin_all l -> fin_all m.
Proof. intros P H. unfold fin_all in *. rewrite Forall_forall in *. intros x I. apply H. apply Permutation_in with (2 := I). now apply Permutation_sym. Qed.

Theorem sum_of_err l s : sum_of l s -> fin_all l -> INR (length l) <= 1048576 -> asum (vals l) <= big ->
  isfin s = true /\ Rabs (B2R s - rsum (vals l)) <= ((1 + uro) ^ (length l - 1) - 1) * asum (vals l).
Proof.
  induction 1 as [|x|l l1 l2 s1 s2 N1 N2 P S1 IH1 S2 IH2]; intros F L A.
  - split; [easy|]. cbn. rewrite Rminus_0_r, Rabs_R0. unfold asum. simpl. lra.
  - inversion F as [|? ? Fx]; subst. split; [easy|]. unfold asum. cbn [vals map rsum fold_right length Nat.sub pow].
    replace (B2R x - (B2R x + 0)) with 0 by ring. rewrite Rabs_R0. lra.
  - apply (fin_perm _ _ P) in F. apply Forall_app in F. destruct F as [F1 F2].
    pose proof (vals_perm _ _ P) as PM. rewrite vals_app in PM. rewrite (asum_perm _ _ PM), asum_app in A |- *. rewrite (rsum_perm _ _ PM), rsum_app.
    assert (EL : length l = (length l1 + length l2)%nat) by (rewrite (Permutation_length P); apply app_length).
    rewrite EL in *. rewrite plus_INR in L. pose proof (asum_ge0 (vals l1)) as G1. pose proof (asum_ge0 (vals l2)) as G2.
    pose proof (pos_INR (length l1)). pose proof (pos_INR (length l2)).
    destruct (IH1 F1 ltac:(lra) ltac:(lra)) as [Fs1 E1]. destruct (IH2 F2 ltac:(lra) ltac:(lra)) as [Fs2 E2].
    destruct l1 as [|a1 l1]; [easy|]. destruct l2 as [|a2 l2]; [easy|].
    cbn [length] in E1, E2. replace (S (length l1) - 1)%nat with (length l1) in E1 by lia. replace (S (length l2) - 1)%nat with (length l2) in E2 by lia.
    replace (length (a1 :: l1) + length (a2 :: l2) - 1)%nat with (S (length l1 + length l2)) by (cbn [length]; lia).
    set (n1 := length l1) in *. set (n2 := length l2) in *. set (A1 := asum (vals (a1 :: l1))) in *. set (A2 := asum (vals (a2 :: l2))) in *.
    set (R1 := rsum (vals (a1 :: l1))) in *. set (R2 := rsum (vals (a2 :: l2))) in *.
    assert (K1 : Rabs R1 <= A1) by apply rsum_abs. assert (K2 : Rabs R2 <= A2) by apply rsum_abs.
    pose proof uro_pos as U.
    assert (M : forall m, (m <= n1 + n2)%nat -> (1 + uro) ^ m <= (1 + uro) ^ (n1 + n2)) by (intros m I; apply Rle_pow; [lra|easy]).
    pose proof (M n1 ltac:(lia)) as M1. pose proof (M n2 ltac:(lia)) as M2. set (q := (1 + uro) ^ (n1 + n2)) in *.
    assert (LN : INR (n1 + n2) <= 1048576) by (rewrite plus_INR; cbn [length] in L; rewrite !S_INR in L; unfold n1, n2; lra).
    pose proof (pow_uro_two _ LN) as Q. fold q in Q.
    assert (E1' : Rabs (B2R s1 - R1) <= (q - 1) * A1) by nra. assert (E2' : Rabs (B2R s2 - R2) <= (q - 1) * A2) by nra.
    assert (T : Rabs (B2R s1 + B2R s2) <= q * (A1 + A2)).
    { replace (B2R s1 + B2R s2) with ((B2R s1 - R1) + (B2R s2 - R2) + (R1 + R2)) by ring.
      pose proof (Rabs_triang (B2R s1 - R1 + (B2R s2 - R2)) (R1 + R2)). pose proof (Rabs_triang (B2R s1 - R1) (B2R s2 - R2)). pose proof (Rabs_triang R1 R2). lra. }
    destruct (fadd_err s1 s2 Fs1 Fs2) as [F E]; [pose proof big_pos; nra|].
    split; [exact F|].
    replace (B2R (fadd s1 s2) - (R1 + R2)) with ((B2R (fadd s1 s2) - (B2R s1 + B2R s2)) + ((B2R s1 - R1) + (B2R s2 - R2))) by ring.
    pose proof (Rabs_triang (B2R (fadd s1 s2) - (B2R s1 + B2R s2)) (B2R s1 - R1 + (B2R s2 - R2))).
    pose proof (Rabs_triang (B2R s1 - R1) (B2R s2 - R2)). cbn [pow]. fold q.
    assert (uro * Rabs (B2R s1 + B2R s2) <= uro * (q * (A1 + A2))) by (apply Rmult_le_compat_l; lra). nra.
Qed.

(** ** products *)
Lemma rnd_room x : Rabs x <= big * 3 -> Rabs (rnd x) < fmax.
Proof.
  intros B. apply Rle_lt_trans with (2 := half_fmax). replace (rnd x) with ((rnd x - x) + x) by ring.
  apply Rle_trans with (1 := Rabs_triang _ _). pose proof (rnd_err x) as E. pose proof (Rabs_pos x).
  assert (eta <= uro) by (apply bpow_le; lia). assert (1 <= big) by (change 1 with (bpow radix2 0); apply bpow_le; lia). rewrite uro_val in *. lra.
Qed.
Lemma fmul_err x y : isfin x = true -> isfin y = true -> Rabs (B2R x * B2R y) <= big * 3 ->
  isfin (fmul x y) = true /\ Rabs (B2R (fmul x y) - B2R x * B2R y) <= uro * Rabs (B2R x * B2R y) + eta.
Proof.
  intros Fx Fy B. destruct (fmul_spec x y Fx Fy (rnd_room _ B)) as [V F]. split; [exact F|]. rewrite V. apply rnd_err.
Qed.
Lemma ffma_spec x y z : isfin x = true -> isfin y = true -> isfin z = true -> Rabs (rnd (B2R x * B2R y + B2R z)) < fmax ->
  B2R (ffma x y z) = rnd (B2R x * B2R y + B2R z) /\ isfin (ffma x y z) = true.
Proof.
  intros Fx Fy Fz H. generalize (Bfma_correct 53 1024 _ _ mode_NE x y z Fx Fy Fz). cbv zeta.
  change (round_mode mode_NE) with ZnearestE. fold (rnd (B2R x * B2R y + B2R z)).
  rewrite Rlt_bool_true by exact H. intros (A&B&_). split; assumption.
Qed.
Lemma ffma_err x y z : isfin x = true -> isfin y = true -> isfin z = true -> Rabs (B2R x * B2R y + B2R z) <= big * 3 ->
  isfin (ffma x y z) = true /\ Rabs (B2R (ffma x y z) - (B2R x * B2R y + B2R z)) <= uro * Rabs (B2R x * B2R y + B2R z) + eta.
Proof.
  intros Fx Fy Fz B. destruct (ffma_spec x y z Fx Fy Fz (rnd_room _ B)) as [V F]. split; [exact F|]. rewrite V. apply rnd_err.
Qed.

Lemma fdiv_spec x y : isfin x = true -> B2R y <> 0 -> Rabs (rnd (B2R x / B2R y)) < fmax ->
  B2R (fdiv x y) = rnd (B2R x / B2R y) /\ isfin (fdiv x y) = true.
Proof.
  intros Fx Ny H. generalize (Bdiv_correct 53 1024 _ _ mode_NE x y Ny). change (round_mode mode_NE) with ZnearestE.
  fold (rnd (B2R x / B2R y)). rewrite Rlt_bool_true by exact H. intros (A&B&_). split; [assumption|].
  unfold isfin, fdiv in *. now rewrite B.
Qed.
Lemma fdiv_err x y : isfin x = true -> B2R y <> 0 -> Rabs (B2R x / B2R y) <= big * 3 ->
  isfin (fdiv x y) = true /\ Rabs (B2R (fdiv x y) - B2R x / B2R y) <= uro * Rabs (B2R x / B2R y) + eta.
Proof.
  intros Fx Ny B. destruct (fdiv_spec x y Fx Ny (rnd_room _ B)) as [V F]. split; [exact F|]. rewrite V. apply rnd_err.
Qed.

Definition prods (l : list (b64 * b64)) : list R := map (fun p => B2R (fst p) * B2R (snd p)) l.
Lemma prods_app l m : prods (l ++ m) = prods l ++ prods m. Proof. apply map_app. Qed.
Lemma prods_perm l m : Permutation l m -> Permutation (prods l) (prods m). Proof. apply Permutation_map. Qed.
Definition fin_pairs (l : list (b64 * b64)) : Prop := Forall (fun p => isfin (fst p) = true /\ isfin (snd p) = true) l.
Lemma fin_pairs_perm l m : Permutation l m -> fin_pairs l -> fin_pairs m.
Proof. intros P H. unfold fin_pairs in *. rewrite Forall_forall in *. intros x I. apply H. apply Permutation_in with (2 := I). now apply Permutation_sym. Qed.
Lemma asum_cons x l : asum (x :: l) = Rabs x + asum l. Proof. reflexivity. Qed.
Lemma rsum_cons x l : rsum (x :: l) = x + rsum l. Proof. reflexivity. Qed.

Lemma eta_big n : INR n <= 1048576 -> INR n * eta * 2 <= big.
Proof.
  intros H. pose proof (pos_INR n). pose proof eta_pos. assert (eta <= uro) by (apply bpow_le; lia). assert (1 <= big) by (change 1 with (bpow radix2 0); apply bpow_le; lia).
  apply Rle_trans with (1048576 * uro * 2); [|rewrite uro_val; lra]. apply Rmult_le_compat_r; [lra|]. apply Rmult_le_compat; lra.
Qed.
Theorem dot_of_err l s : dot_of l s -> fin_pairs l -> INR (length l) <= 1048576 -> asum (prods l) <= big ->
  isfin s = true /\ Rabs (B2R s - rsum (prods l)) <= ((1 + uro) ^ length l - 1) * asum (prods l) + INR (length l) * eta * (1 + uro) ^ length l.
Proof.
  pose proof uro_pos as U. pose proof eta_pos as H. pose proof big_pos as BP.
  induction 1 as [|a b|l l1 l2 s1 s2 N1 N2 P S1 IH1 S2 IH2|l l1 a b s P S1 IH1]; intros F L A.
  - split; [easy|]. cbn. rewrite Rminus_0_r, Rabs_R0. unfold asum. simpl. lra.
  - inversion F as [|? ? Fx]; subst. destruct Fx as [Fa Fb]. cbn [fst snd] in *. unfold prods, asum in *. cbn [map rsum fold_right fst snd length pow] in *.
    destruct (fmul_err a b Fa Fb) as [Fp E]; [lra|]. split; [exact Fp|]. cbn [INR]. rewrite !Rplus_0_r, !Rmult_1_r, Rmult_1_l.
    replace (1 + uro - 1) with uro by ring. apply Rle_trans with (1 := E). nra.
  - apply (fin_pairs_perm _ _ P) in F. apply Forall_app in F. destruct F as [F1 F2].
    pose proof (prods_perm _ _ P) as PM. rewrite prods_app in PM. rewrite (asum_perm _ _ PM), asum_app in A |- *. rewrite (rsum_perm _ _ PM), rsum_app.
    assert (EL : length l = (length l1 + length l2)%nat) by (rewrite (Permutation_length P); apply app_length).
    rewrite EL in *. pose proof (eta_big _ L) as EB. rewrite plus_INR in L. pose proof (asum_ge0 (prods l1)) as G1. pose proof (asum_ge0 (prods l2)) as G2.
    pose proof (pos_INR (length l1)). pose proof (pos_INR (length l2)).
    destruct (IH1 F1 ltac:(lra) ltac:(lra)) as [Fs1 E1]. destruct (IH2 F2 ltac:(lra) ltac:(lra)) as [Fs2 E2].
    assert (K1 : Rabs (rsum (prods l1)) <= asum (prods l1)) by apply rsum_abs. assert (K2 : Rabs (rsum (prods l2)) <= asum (prods l2)) by apply rsum_abs.
    assert (P1 : (1 <= length l1)%nat) by (destruct l1; [easy|cbn; lia]). assert (P2 : (1 <= length l2)%nat) by (destruct l2; [easy|cbn; lia]).
    set (A1 := asum (prods l1)) in *. set (A2 := asum (prods l2)) in *. set (R1 := rsum (prods l1)) in *. set (R2 := rsum (prods l2)) in *.
    set (n1 := length l1) in *. set (n2 := length l2) in *.
    assert (M : forall m, (m <= n1 + n2 - 1)%nat -> 1 <= (1 + uro) ^ m <= (1 + uro) ^ (n1 + n2 - 1)) by (intros m I; split; [apply pow_R1_Rle; lra|apply Rle_pow; [lra|easy]]).
    pose proof (M n1 ltac:(lia)) as M1. pose proof (M n2 ltac:(lia)) as M2. 
    assert (LN : INR (n1 + n2 - 1) <= 1048576) by (rewrite minus_INR, plus_INR by lia; cbn [INR]; lra).
    pose proof (pow_uro_two _ LN) as Q. replace (n1 + n2)%nat with (S (n1 + n2 - 1)) at 1 3 by lia. cbn [pow]. set (q := (1 + uro) ^ (n1 + n2 - 1)) in *.
    assert (E1' : Rabs (B2R s1 - R1) <= (q - 1) * A1 + INR n1 * eta * q).
    { apply Rle_trans with (1 := E1). apply Rplus_le_compat; [apply Rmult_le_compat_r; lra|apply Rmult_le_compat_l; [apply Rmult_le_pos; lra|lra]]. }
    assert (E2' : Rabs (B2R s2 - R2) <= (q - 1) * A2 + INR n2 * eta * q).
    { apply Rle_trans with (1 := E2). apply Rplus_le_compat; [apply Rmult_le_compat_r; lra|apply Rmult_le_compat_l; [apply Rmult_le_pos; lra|lra]]. }
    rewrite plus_INR in *. 
    assert (T : Rabs (B2R s1 + B2R s2) <= q * (A1 + A2) + (INR n1 + INR n2) * eta * q).
    { replace (B2R s1 + B2R s2) with ((B2R s1 - R1) + (B2R s2 - R2) + (R1 + R2)) by ring.
      pose proof (Rabs_triang (B2R s1 - R1 + (B2R s2 - R2)) (R1 + R2)). pose proof (Rabs_triang (B2R s1 - R1) (B2R s2 - R2)). pose proof (Rabs_triang R1 R2). lra. }
    assert (X0 : 0 <= (INR n1 + INR n2) * eta) by (apply Rmult_le_pos; lra).
    assert (X1 : q * (A1 + A2) <= 2 * big) by (apply Rmult_le_compat; lra).
    assert (X2 : (INR n1 + INR n2) * eta * q <= big) by (apply Rle_trans with (2 := EB); apply Rmult_le_compat_l; lra).
    destruct (fadd_err s1 s2 Fs1 Fs2) as [F E]; [lra|].
    split; [exact F|].
    replace (B2R (fadd s1 s2) - (R1 + R2)) with ((B2R (fadd s1 s2) - (B2R s1 + B2R s2)) + ((B2R s1 - R1) + (B2R s2 - R2))) by ring.
    pose proof (Rabs_triang (B2R (fadd s1 s2) - (B2R s1 + B2R s2)) (B2R s1 - R1 + (B2R s2 - R2))).
    pose proof (Rabs_triang (B2R s1 - R1) (B2R s2 - R2)).
    assert (uro * Rabs (B2R s1 + B2R s2) <= uro * (q * (A1 + A2) + (INR n1 + INR n2) * eta * q)) by (apply Rmult_le_compat_l; lra). lra.
  - apply (fin_pairs_perm _ _ P) in F. inversion F as [|? ? Fx F1]; subst. destruct Fx as [Fa Fb]. cbn [fst snd] in Fa, Fb.
    pose proof (prods_perm _ _ P) as PM. change (prods ((a, b) :: l1)) with (B2R a * B2R b :: prods l1) in PM. rewrite (asum_perm _ _ PM), asum_cons in A |- *. rewrite (rsum_perm _ _ PM), rsum_cons.
    assert (EL : length l = S (length l1)) by (rewrite (Permutation_length P); easy).
    rewrite EL in *. pose proof (eta_big _ L) as EB. rewrite S_INR in *. pose proof (asum_ge0 (prods l1)) as G1. pose proof (pos_INR (length l1)).
    set (p := B2R a * B2R b) in *. pose proof (Rabs_pos p).
    destruct (IH1 F1 ltac:(lra) ltac:(lra)) as [Fs1 E1]. assert (K1 : Rabs (rsum (prods l1)) <= asum (prods l1)) by apply rsum_abs.
    pose proof (pow_uro_two (length l1) ltac:(lra)) as Q. cbn [pow].
    set (A1 := asum (prods l1)) in *. set (R1 := rsum (prods l1)) in *. set (n := INR (length l1)) in *. set (q := (1 + uro) ^ length l1) in *.
    assert (T : Rabs (p + B2R s) <= q * (Rabs p + A1) + n * eta * q).
    { replace (p + B2R s) with ((B2R s - R1) + (p + R1)) by ring.
      pose proof (Rabs_triang (B2R s - R1) (p + R1)). pose proof (Rabs_triang p R1). assert (Rabs p <= q * Rabs p) by nra. lra. }
    assert (X0 : 0 <= n * eta) by (apply Rmult_le_pos; lra).
    assert (X1 : q * (Rabs p + A1) <= 2 * big) by (apply Rmult_le_compat; lra).
    assert (X2 : n * eta * q <= big) by (apply Rle_trans with (2 := EB); apply Rle_trans with (n * eta * 2); [apply Rmult_le_compat_l; lra|lra]).
    destruct (ffma_err a b s Fa Fb Fs1) as [Ff E]; [fold p; lra|]. fold p in E.
    split; [exact Ff|].
    replace (B2R (ffma a b s) - (p + R1)) with ((B2R (ffma a b s) - (p + B2R s)) + (B2R s - R1)) by ring.
    pose proof (Rabs_triang (B2R (ffma a b s) - (p + B2R s)) (B2R s - R1)).
    assert (uro * Rabs (p + B2R s) <= uro * (q * (Rabs p + A1) + n * eta * q)) by (apply Rmult_le_compat_l; lra).
    assert (0 <= (q - 1) * Rabs p) by (apply Rmult_le_pos; lra). assert (eta <= eta * ((1 + uro) * q)); [|lra].
    assert (1 <= (1 + uro) * q) by nra. nra.
Qed.
