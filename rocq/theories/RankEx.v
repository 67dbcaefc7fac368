(** Transformations that keep comparisons, and one that does not. *)
From Coq Require Import ZArith Reals Bool List Lia Lra.
From Flocq Require Import Core BinarySingleNaN.
From Verif Require Import Fl FlFacts FlMag NpList NpFacts Spec Samplers SamplersSpec SamplersFacts EA EASpec EAFacts PSOFacts DEFacts RankSpec RankFacts.
Import ListNotations.
Local Open Scope R_scope.

Lemma fbin_pow k : (0 <= k)%Z -> (k < 1024)%Z -> isfin (fbin 1 k) = true /\ B2R (fbin 1 k) = bpow radix2 k.
Proof.
  intros H L. unfold fbin. pose proof (binary_normalize_correct 53 1024 prec53 prec53_lt mode_NE 1 k false) as C. cbv zeta in C.
  replace (F2R (Float radix2 1 k)) with (bpow radix2 k) in C by (unfold F2R; cbn; ring).
  change (round radix2 fexp64 (round_mode mode_NE) (bpow radix2 k)) with (rnd (bpow radix2 k)) in C.
  rewrite (rnd_bpow k), Rlt_bool_true in C; [|rewrite Rabs_pos_eq by apply bpow_ge_0; now apply bpow_lt_fmax|lia].
  destruct C as (V & F & _). split; [exact F|exact V].
Qed.
Lemma scale_exact k e x : (0 <= k)%Z -> (k + e < 1024)%Z -> (k < 1024)%Z -> size_le e x ->
  isfin (fmul (fbin 1 k) x) = true /\ B2R (fmul (fbin 1 k) x) = bpow radix2 k * B2R x.
Proof.
  intros Hk He Hk2 [Fx Lx]. destruct (fbin_pow k Hk Hk2) as [Fk Ek].
  assert (X : rnd (B2R (fbin 1 k) * B2R x) = bpow radix2 k * B2R x).
  { rewrite Ek, Rmult_comm. rewrite rnd_scaled; auto. apply format_B2R. }
  assert (M : Rabs (rnd (B2R (fbin 1 k) * B2R x)) < fmax).
  { rewrite X, Rabs_mult, (Rabs_pos_eq (bpow _ _)) by apply bpow_ge_0.
    apply Rle_lt_trans with (bpow radix2 k * bpow radix2 e).
    - apply Rmult_le_compat_l; [apply bpow_ge_0|exact Lx].
    - rewrite <- bpow_plus. now apply bpow_lt_fmax. }
  destruct (fmul_spec _ _ Fk Fx M) as (A & B). split; [first [exact A|exact B]|]. rewrite <- X. first [exact A|exact B].
Qed.
Lemma bool_iff (a b : bool) : (a = true <-> b = true) -> a = b.
Proof. destruct a, b; intuition congruence. Qed.
Lemma scale_increasing k e : (0 <= k)%Z -> (k + e < 1024)%Z -> (k < 1024)%Z -> increasing_on (size_le e) (fmul (fbin 1 k)).
Proof.
  intros Hk He Hk2 x y Dx Dy. destruct (scale_exact k e x) as [Fx Ex]; auto. destruct (scale_exact k e y) as [Fy Ey]; auto.
  pose proof (bpow_gt_0 radix2 k) as P. split; apply bool_iff.
  - rewrite (flt_finite _ _ Fx Fy), (flt_finite x y (proj1 Dx) (proj1 Dy)), Ex, Ey. split.
    + apply Rmult_lt_reg_l; auto.
    + intros. apply Rmult_lt_compat_l; auto.
  - rewrite (fle_finite _ _ Fx Fy), (fle_finite x y (proj1 Dx) (proj1 Dy)), Ex, Ey. split.
    + apply Rmult_le_reg_l; auto.
    + intros. apply Rmult_le_compat_l; lra.
Qed.
Lemma zero_in e : size_le e f0.
Proof. split; [reflexivity|]. change (val f0) with 0. rewrite Rabs_R0. apply bpow_ge_0. Qed.
Lemma const_in e : (0 <= e)%Z -> responses_in (size_le e) (fun _ x => Ok (map (fun _ => f1) x)).
Proof.
  intros He k x y [= <-]. apply Forall_forall. intros v H. apply in_map_iff in H as (_ & <- & _).
  split; [reflexivity|]. change (val f1) with (B2R f1). rewrite B2R_f1, Rabs_R1. change 1 with (bpow radix2 0). now apply bpow_le.
Qed.

(** two individuals, responses 1 and 0; adding 2^60 makes them equal *)
Definition sh_cfg : pso_config := {| p_pop := 2; p_gen := 1; p_c1 := f1; p_c2 := f1; p_w := f1; p_vrate := fbin 1 (-2) |}.
Definition sh_draws : pso_draws := {| pd_loc := [[f0]; [fbin 1 (-1)]]; pd_vel := [[f0]; [f0]]; pd_rep := fun _ _ => [[f0]; [f0]] |}.
Definition sh_func : objective := fun _ _ => Ok [f1; f0].
Definition sh_loc (r : trace * result ea_out) : bool := match snd r with Ok o => flt f0 (hd f0 (o_location o)) | _ => false end.
Lemma shift_changes : exists cfg b func rng c tr out tr' out', pso_draws_ok cfg b rng /\ box_ok b /\ isfin c = true /\
  pso_run cfg b func rng None = (tr, Ok out) /\ pso_run cfg b (transformed (fadd c) func) rng None = (tr', Ok out') /\
  o_location out <> o_location out'.
Proof.
  exists sh_cfg, [(f0, f1)], sh_func, sh_draws, (fbin 1 60).
  assert (D : pso_draws_ok sh_cfg [(f0, f1)] sh_draws).
  { split; [|split; [|intros]]; apply draw_array_b; reflexivity. }
  destruct (pso_returns sh_cfg [(f0, f1)] sh_func sh_draws None D) as (tr & out & E); try (simpl; lia).
  { intros k x L. exists [f1; f0]. split; reflexivity. }
  destruct (pso_returns sh_cfg [(f0, f1)] (transformed (fadd (fbin 1 60)) sh_func) sh_draws None D) as (tr' & out' & E'); try (simpl; lia).
  { intros k x L. eexists. split; reflexivity. }
  exists tr, out, tr', out'. split; [exact D|]. split; [repeat constructor|]. split; [apply fbin_pow; lia|]. split; [exact E|]. split; [exact E'|].
  assert (C : sh_loc (pso_run sh_cfg [(f0, f1)] sh_func sh_draws None) = true) by reflexivity.
  assert (C' : sh_loc (pso_run sh_cfg [(f0, f1)] (transformed (fadd (fbin 1 60)) sh_func) sh_draws None) = false) by reflexivity.
  rewrite E in C. rewrite E' in C'. unfold sh_loc in C, C'. cbn [snd] in C, C'. intros F. rewrite F in C. congruence.
Qed.
