(** Two points and a length-scale parameter for which the factorisation fails. *)
From Coq Require Import ZArith Bool List Reals Lra Lia Psatz Permutation.
From Flocq Require Import Core IEEE754.BinarySingleNaN.
From Verif Require Import Fl Spec NpList FlFacts FlMag KernelFl KernelFlSpec FlErr KernelFlFacts CholFl RSum CholFlFacts KernelFlMain.
Import ListNotations.
Local Open Scope R_scope.

Lemma sum_single x s : sum_of [x] s -> s = x.
Proof.
  inversion 1 as [|y Hy|l l1 l2 s1 s2 N1 N2 P S1 S2]; subst; [easy|]. apply Permutation_length in P. rewrite app_length in P.
  destruct l1; [easy|]. destruct l2; [easy|]. cbn in P. lia.
Qed.
Lemma dot_nil_inv s : dot_of [] s -> s = f0.
Proof.
  inversion 1 as [|a b|l l1 l2 s1 s2 N1 N2 P S1 S2|l l1 a b s1 P S1]; subst; [easy| |].
  - apply Permutation_length in P. rewrite app_length in P. destruct l1; [easy|]. cbn in P. lia.
  - apply Permutation_length in P. cbn in P. lia.
Qed.
Lemma dot_single a b s : dot_of [(a, b)] s -> s = fmul a b \/ s = ffma a b f0.
Proof.
  inversion 1 as [|a' b' E|l l1 l2 s1 s2 N1 N2 P S1 S2|l l1 a' b' s1 P S1]; subst; [now left| |].
  - apply Permutation_length in P. rewrite app_length in P. destruct l1; [easy|]. destruct l2; [easy|]. cbn in P. lia.
  - pose proof (Permutation_length P) as Q. destruct l1; [|cbn in Q; lia]. apply Permutation_length_1 in P. injection P as -> ->.
    right. now rewrite (dot_nil_inv _ S1).
Qed.

Definition bad_param : row := [fz (2 ^ 24)].
Definition bad_x : row := [fbin 7500253041187850 (-53)].
Definition bad_y : row := [fbin 7500253041187853 (-53)].
Definition bad_pair : mat := [bad_x; bad_y].
Lemma from_SF (x : b64) sf : B2SF x = sf -> B2R x = SF2R radix2 sf /\ isfin x = is_finite_SF sf.
Proof. intros <-. split; [symmetry; apply SF2R_B2SF|unfold isfin; symmetry; apply is_finite_SF_B2SF]. Qed.
Section Bad.
Variables (np_sum : list b64 -> b64) (np_dot : list (b64 * b64) -> b64) (np_exp : b64 -> b64).
Hypotheses (sum_ok : forall l, sum_of l (np_sum l)) (dot_ok : forall l, dot_of l (np_dot l)) (E_ok : exp_ok np_exp).
Lemma dist_single w x y : dist64 np_sum np_dot [w] [x] [y] =
  fsub (fadd (fmul (fmul x x) w) (fmul (fmul y y) w)) (fmul (fz 2) (fmul (fmul (fsqrt w) x) (fmul (fsqrt w) y))) \/
  dist64 np_sum np_dot [w] [x] [y] =
  fsub (fadd (fmul (fmul x x) w) (fmul (fmul y y) w)) (fmul (fz 2) (ffma (fmul (fsqrt w) x) (fmul (fsqrt w) y) f0)).
Proof.
  unfold dist64, square_sum, cross, weighted. cbn [map2 combine].
  rewrite (sum_single _ _ (sum_ok [fmul (fmul x x) w])), (sum_single _ _ (sum_ok [fmul (fmul y y) w])).
  destruct (dot_single _ _ _ (dot_ok [(fmul (fsqrt w) x, fmul (fsqrt w) y)])) as [-> | ->]; [now left|now right].
Qed.
Lemma dist_xx : B2SF (dist64 np_sum np_dot bad_param bad_x bad_x) = SpecFloat.S754_zero false.
Proof. unfold bad_param, bad_x. destruct (dist_single (fz (2 ^ 24)) (fbin 7500253041187850 (-53)) (fbin 7500253041187850 (-53))) as [-> | ->]; vm_compute; reflexivity. Qed.
Lemma dist_yy : B2SF (dist64 np_sum np_dot bad_param bad_y bad_y) = SpecFloat.S754_zero false.
Proof. unfold bad_param, bad_y. destruct (dist_single (fz (2 ^ 24)) (fbin 7500253041187853 (-53)) (fbin 7500253041187853 (-53))) as [-> | ->]; vm_compute; reflexivity. Qed.
Lemma dist_yx : B2SF (dist64 np_sum np_dot bad_param bad_y bad_x) = SpecFloat.S754_finite true 4503599627370496 (-80).
Proof. unfold bad_param, bad_x, bad_y. destruct (dist_single (fz (2 ^ 24)) (fbin 7500253041187853 (-53)) (fbin 7500253041187850 (-53))) as [-> | ->]; vm_compute; reflexivity. Qed.

Lemma entry_of q (b : bool) : isfin q = true -> Rabs (B2R q) <= / 1000 ->
  let k := fadd (np_exp (fopp q)) (fmul (if b then f1 else f0) jitter64) in
  isfin k = true /\ Rabs (B2R k - (exp (- B2R q) + if b then / 10000000000 else 0)) <= 5 * uro.
Proof.
  intros Fd Hd. cbv zeta. pose proof uro_pos as UP. pose proof uro_val as UV.
  assert (Fo : isfin (fopp q) = true) by (unfold isfin, fopp; rewrite is_finite_Bopp; exact Fd).
  assert (Vo : B2R (fopp q) = - B2R q) by apply B2R_Bopp. apply Rabs_le_inv in Hd.
  destruct (E_ok (fopp q) Fo) as [Fe Er]; [unfold val; rewrite Vo; lra|]. unfold val in Er. rewrite Vo in Er.
  rewrite two52 in Er. pose proof two1000 as T1000. set (ex := np_exp (fopp q)) in *.
  destruct jitter64_err as [Fj Ej]. destruct (fmul_pick b jitter64 Fj) as [Fp Vp]. set (p := fmul _ jitter64) in *.
  pose proof (exp_pos (- B2R q)) as XP. pose proof big_large as BL.
  assert (Eu : exp (- B2R q) <= 1.01).
  { apply Rle_trans with (exp (/ 1000)); [destruct (Req_dec (- B2R q) (/ 1000)) as [->|N]; [lra|left; apply exp_increasing; lra]|]. pose proof (exp_upper (/ 1000) ltac:(lra)). lra. }
  assert (Er' : Rabs (B2R ex - exp (- B2R q)) <= 2.1 * uro) by nra.
  assert (Bp : Rabs (B2R p - (if b then / 10000000000 else 0)) <= uro * / 1000) by (rewrite Vp; destruct b; [exact Ej|rewrite Rminus_0_r, Rabs_R0; lra]).
  set (jit := if b then / 10000000000 else 0) in *. assert (J : 0 <= jit <= / 10000000000) by (unfold jit; destruct b; lra).
  pose proof (Rabs_near _ _ _ Er') as N1. rewrite (Rabs_pos_eq (exp _)) in N1 by lra. pose proof (Rabs_near _ _ _ Bp) as N2. rewrite (Rabs_pos_eq jit) in N2 by lra.
  pose proof (Rabs_triang (B2R ex) (B2R p)) as T. destruct (fadd_err ex p Fe Fp) as [Fa Ea]; [lra|]. split; [exact Fa|].
  assert (Ea' : uro * Rabs (B2R ex + B2R p) <= uro * 1.1) by (apply Rmult_le_compat_l; lra).
  replace (B2R (fadd ex p) - (exp (- B2R q) + jit)) with ((B2R (fadd ex p) - (B2R ex + B2R p)) + ((B2R ex - exp (- B2R q)) + (B2R p - jit))) by ring.
  eapply Rle_trans; [apply Rabs_triang|]. eapply Rle_trans; [apply Rplus_le_compat_l, Rabs_triang|]. lra.
Qed.
Local Notation M := (covariance64 np_sum np_dot np_exp bad_param f0 bad_pair).
Lemma cov_given (i j : nat) (q : R) : isfin (dist64 np_sum np_dot bad_param (nth i bad_pair []) (nth j bad_pair [])) = true ->
  B2R (dist64 np_sum np_dot bad_param (nth i bad_pair []) (nth j bad_pair [])) = q -> Rabs q <= / 1000 ->
  isfin (M i j) = true /\ Rabs (B2R (M i j) - (exp (- q) + if Nat.eqb i j then / 10000000000 else 0)) <= 5 * uro.
Proof.
  intros F V B. unfold covariance64, kernel64. rewrite <- V in *. destruct (entry_of _ (Nat.eqb i j) F B) as [Fk Ek]. set (k := fadd (np_exp _) _) in *.
  assert (Z : isfin (fmul (if Nat.eqb i j then f1 else f0) (fmul f0 f0)) = true /\ B2R (fmul (if Nat.eqb i j then f1 else f0) (fmul f0 f0)) = 0) by (destruct (Nat.eqb i j); split; reflexivity).
  destruct Z as [Fz Vz]. set (z := fmul (if Nat.eqb i j then f1 else f0) (fmul f0 f0)) in *.
  destruct (fadd_spec k z Fk Fz) as [Va Fa]; [rewrite Vz, Rplus_0_r, rnd_B2R; apply B2R_lt_fmax|]. split; [exact Fa|]. rewrite Va, Vz, Rplus_0_r, rnd_B2R. exact Ek.
Qed.
Lemma bad_entries : (isfin (M 0 0) = true /\ 1 <= B2R (M 0 0) <= 1.0000000002) /\ (isfin (M 1 1) = true /\ 1 <= B2R (M 1 1) <= 1.0000000002) /\
  (isfin (M 1 0) = true /\ 1.000000003 <= B2R (M 1 0) <= 1.1).
Proof.
  pose proof uro_val as UV. destruct (from_SF _ _ dist_xx) as [Vx Fx]. destruct (from_SF _ _ dist_yy) as [Vy Fy]. destruct (from_SF _ _ dist_yx) as [Vq Fq].
  assert (Q : SF2R radix2 (SpecFloat.S754_finite true 4503599627370496 (-80)) = - / 268435456).
  { cbn [SF2R]. unfold F2R. cbn [Fnum Fexp SpecFloat.cond_Zopp cond_Zopp Z.opp]. change (-80)%Z with (- (80))%Z. rewrite bpow_opp. change (bpow radix2 80) with (IZR 1208925819614629174706176). lra. }
  rewrite Q in Vq. cbn [SF2R] in Vx, Vy.
  destruct (cov_given 0 0 0 Fx Vx) as [F0 E0]; [rewrite Rabs_R0; lra|]. destruct (cov_given 1 1 0 Fy Vy) as [F1 E1]; [rewrite Rabs_R0; lra|].
  destruct (cov_given 1 0 _ Fq Vq) as [F2 E2]; [rewrite Rabs_Ropp, Rabs_pos_eq; lra|].
  rewrite Ropp_0, exp_0 in E0, E1. rewrite Ropp_involutive in E2. cbn [Nat.eqb] in E0, E1, E2. apply Rabs_le_inv in E0, E1, E2.
  pose proof (exp_ineq1_le (/ 268435456)). pose proof (exp_upper (/ 268435456) ltac:(lra)).
  repeat split; try assumption; lra.
Qed.
Lemma last_pivot L s : column64 2 M L 0 -> reduced64 M L 1 1 s -> flt f0 s = false.
Proof.
  intros [(s0 & R0 & _ & V0) C0] R1. destruct bad_entries as ((F0 & B0) & (F1 & B1) & (F2 & B2)). pose proof uro_val as UV. pose proof uro_pos as UP.
  pose proof big_large as BL. pose proof eta_tiny2 as ET. pose proof eta_pos as EP.
  destruct (C0 1%nat ltac:(lia)) as (s1 & R1' & Q1). unfold reduced64 in R0, R1', R1. cbn [seq map] in *.
  assert (One : forall m : b64, isfin m = true -> 1 <= B2R m <= 1.1 -> forall t, dot_of [(m, f1)] t -> isfin t = true /\ B2R t = B2R m).
  { intros m Fm Bm t Ht. destruct (dot_single _ _ _ Ht) as [-> | ->].
    - destruct (fmul_spec m f1 Fm eq_refl) as [V F]; [rewrite B2R_f1, Rmult_1_r, rnd_B2R; apply B2R_lt_fmax|]. split; [exact F|]. now rewrite V, B2R_f1, Rmult_1_r, rnd_B2R.
    - destruct (ffma_spec m f1 f0 Fm eq_refl eq_refl) as [V F]; [rewrite B2R_f1, B2R_f0, Rmult_1_r, Rplus_0_r, rnd_B2R; apply B2R_lt_fmax|]. split; [exact F|]. now rewrite V, B2R_f1, B2R_f0, Rmult_1_r, Rplus_0_r, rnd_B2R. }
  destruct (One _ F0 ltac:(lra) _ R0) as [Fs0 Vs0]. destruct (One _ F2 ltac:(lra) _ R1') as [Fs1 Vs1].
  destruct (sqrt_entry s0 1 Fs0) as (Fl & Bl & El); [rewrite Vs0; lra|lra|lra|]. rewrite <- V0, Vs0 in *. rewrite V0 in Fl. rewrite <- V0 in Fl.
  destruct (quot_entry s1 (L 0%nat 0%nat) (L 1%nat 0%nat) 1 Fs1) as [Fq Eq]; [rewrite Vs1, Rabs_pos_eq; lra|exact Fl|lra|lra|lra|exact Q1|]. rewrite Vs1 in Eq.
  set (l := B2R (L 0%nat 0%nat)) in *. set (q := B2R (L 1%nat 0%nat)) in *. apply Rabs_le_inv in El. apply Rabs_le_inv in Eq.
  assert (L1 : 0.99 <= l). { apply Rnot_lt_le. intros C. assert (l * l <= 0.99 * 0.99) by (apply Rmult_le_compat; lra). clear One; nra. }
  assert (L2 : l <= 1.00000000011). { apply Rnot_lt_le. intros C. assert (1.00000000011 * 1.00000000011 <= l * l) by (apply Rmult_le_compat; lra). nra. }
  assert (Q0 : 1.0000000028 <= q). { apply Rnot_lt_le. intros C. assert (Hql : q * l <= 1.0000000028 * 1.00000000011) by (apply Rle_trans with (1.0000000028 * l); [apply Rmult_le_compat_r|apply Rmult_le_compat_l]; lra). lra. }
  assert (Q2 : q <= 1.2). { apply Rnot_lt_le. intros C. assert (1.2 * 0.99 <= q * l) by (apply Rmult_le_compat; lra). lra. }
  assert (QQ : 1.0000000056 <= q * q <= 1.44).
  { split; [apply Rle_trans with (1.0000000028 * 1.0000000028); [lra|apply Rmult_le_compat; lra]|apply Rle_trans with (1.2 * 1.2); [apply Rmult_le_compat; lra|lra]]. }
  assert (FP : fin_pairs [(M 1%nat 1%nat, f1); (fopp (L 1%nat 0%nat), L 1%nat 0%nat)]).
  { constructor; [split; [exact F1|reflexivity]|]. constructor; [|constructor]. cbn [fst snd]. split; [unfold isfin, fopp; rewrite is_finite_Bopp; exact Fq|exact Fq]. }
  assert (EPr : prods [(M 1%nat 1%nat, f1); (fopp (L 1%nat 0%nat), L 1%nat 0%nat)] = [B2R (M 1%nat 1%nat); - (q * q)]).
  { unfold prods. cbn [map fst snd]. rewrite B2R_f1. unfold fopp. rewrite B2R_Bopp. fold q. repeat f_equal; ring. }
  destruct (dot_of_err _ s R1 FP) as [Fs E]; [cbn [length INR]; lra| |].
  - rewrite EPr. rewrite !asum_cons. change (asum []) with 0. rewrite Rabs_Ropp, (Rabs_pos_eq (B2R _)), (Rabs_pos_eq (q * q)) by lra. lra.
  - rewrite EPr, !rsum_cons, !asum_cons in E. change (asum []) with 0 in E. change (rsum []) with 0 in E. rewrite Rabs_Ropp, (Rabs_pos_eq (B2R (M 1%nat 1%nat))), (Rabs_pos_eq (q * q)) in E by lra.
    cbn [length] in E. replace (INR 2) with 2 in E by (cbn; lra).
    pose proof (pow_uro_lin 2) as PL. pose proof (pow_uro_two 2) as PT. replace (INR 2) with 2 in PL, PT by (cbn; lra). specialize (PL ltac:(lra)). specialize (PT ltac:(lra)).
    assert (T1 : ((1 + uro) ^ 2 - 1) * (B2R (M 1%nat 1%nat) + (q * q + 0)) <= (2 + 1) * uro * 3) by (apply Rmult_le_compat; lra).
    assert (T2 : 2 * eta * (1 + uro) ^ 2 <= 2 * eta * 2) by (apply Rmult_le_compat_l; lra).
    apply Rabs_le_inv in E. apply not_true_is_false. intros T. apply flt_finite in T; [|reflexivity|exact Fs]. rewrite B2R_f0 in T. lra.
Qed.
Theorem bad_fails r : cholesky64 2 M r -> r = Raise LinAlgError.
Proof.
  destruct 1 as [L C|L j s Hj C R N]; [|easy]. exfalso.
  destruct (C 1%nat ltac:(lia)) as [(s & R & T & _) _]. rewrite (last_pivot L s (C 0%nat ltac:(lia)) R) in T. discriminate.
Qed.
(** a call has an outcome *)
Theorem bad_runs : exists r, cholesky64 2 M r.
Proof.
  set (t := fmul (M 0%nat 0%nat) f1). set (l := fsqrt t). set (q := fdiv (fmul (M 1%nat 0%nat) f1) l).
  set (L := fun i j : nat => if Nat.eqb i 0 then l else q). set (s := fadd (fmul (M 1%nat 1%nat) f1) (fmul (fopp q) q)).
  assert (C : column64 2 M L 0).
  { split.
    - exists t. split; [constructor|]. split; [|easy]. destruct bad_entries as ((F0 & B0) & _ & _).
      destruct (fmul_spec (M 0%nat 0%nat) f1 F0 eq_refl) as [V F]; [rewrite B2R_f1, Rmult_1_r, rnd_B2R; apply B2R_lt_fmax|].
      apply flt_finite; [reflexivity|exact F|]. fold t in V. rewrite V, B2R_f1, Rmult_1_r, rnd_B2R, B2R_f0. lra.
    - intros i Hi. replace i with 1%nat by lia. exists (fmul (M 1%nat 0%nat) f1). split; [constructor|]. now left. }
  assert (R : reduced64 M L 1 1 s).
  { unfold reduced64. cbn [seq map]. apply (dot_add _ [(M 1%nat 1%nat, f1)] [(fopp q, q)]); try easy; constructor. }
  exists (Raise LinAlgError). apply (chol_fail 2 M L 1 s); [lia| |exact R|now apply (last_pivot L)].
  intros k Hk. now replace k with 0%nat by lia.
Qed.
End Bad.
