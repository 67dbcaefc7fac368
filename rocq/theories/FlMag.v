(** Overflow and NaN facts: magnitudes bounded by powers of two. *)
From Coq Require Import ZArith Reals Bool List Lia Lra.
From Flocq Require Import Core IEEE754.BinarySingleNaN.
From Verif Require Import Fl FlFacts.
Local Open Scope R_scope.

Lemma isnan_SF (x : b64) : isnan x = is_nan_SF (B2SF x) .
Proof. destruct x; reflexivity. Qed.

Lemma fmul_nnan x y : isfin x = true -> isfin y = true -> isnan (fmul x y) = false.
Proof.
  intros Fx Fy. generalize (Bmult_correct 53 1024 _ _ mode_NE x y). case Rlt_bool_spec; intros H.
  - intros (_ & B & _). apply isfin_not_nan. unfold isfin, fmul in *. now rewrite B, Fx, Fy.
  - intros A. rewrite isnan_SF. unfold fmul. rewrite A. reflexivity.
Qed.
Lemma fadd_nnan x y : isfin x = true -> isnan y = false -> isnan (fadd x y) = false.
Proof.
  intros Fx Ny. destruct (fin_or y Ny) as [Fy|[-> | ->]].
  - generalize (Bplus_correct 53 1024 _ _ mode_NE x y Fx Fy). case Rlt_bool_spec; intros H.
    + intros (_ & B & _). now apply isfin_not_nan.
    + intros (A & _). rewrite isnan_SF. unfold fadd. rewrite A. reflexivity.
  - destruct x; try discriminate; reflexivity.
  - destruct x; try discriminate; reflexivity.
Qed.

Lemma fsub_within lo hi y z : isfin lo = true -> isfin hi = true -> isfin (fsub hi lo) = true ->
  isfin y = true -> isfin z = true -> B2R lo <= B2R y <= B2R hi -> B2R lo <= B2R z <= B2R hi ->
  isfin (fsub y z) = true.
Proof.
  intros A B C Fy Fz Hy Hz. apply fsub_spec; auto.
  pose proof (fsub_fin hi lo B A C) as E. pose proof (B2R_lt_fmax (fsub hi lo)) as M. rewrite E in M.
  assert (U : rnd (B2R y - B2R z) <= rnd (B2R hi - B2R lo)) by (apply rnd_le; lra).
  assert (V : - rnd (B2R hi - B2R lo) <= rnd (B2R y - B2R z)).
  { unfold rnd. rewrite <- round_NE_opp. apply rnd_le. lra. }
  eapply Rle_lt_trans; [|exact M]. apply Rabs_le. split.
  - eapply Rle_trans; [|exact V]. apply Ropp_le_contravar, Rle_abs.
  - eapply Rle_trans; [exact U|apply Rle_abs].
Qed.

(** [x] is finite and at most [2^e] in magnitude. *)
Definition mag_le (e : Z) (x : b64) : Prop := isfin x = true /\ Rabs (B2R x) <= bpow radix2 e.

Lemma rnd_bpow e : (-1074 <= e)%Z -> rnd (bpow radix2 e) = bpow radix2 e.
Proof.
  intros H. unfold rnd. apply round_generic; auto with typeclass_instances.
  apply generic_format_bpow. unfold SpecFloat.fexp, SpecFloat.emin. lia.
Qed.
Lemma rnd_abs_le x e : (-1074 <= e)%Z -> Rabs x <= bpow radix2 e -> Rabs (rnd x) <= bpow radix2 e.
Proof.
  intros He H. apply Rabs_le. apply Rabs_le_inv in H. split.
  - rewrite <- (rnd_bpow e He). unfold rnd. rewrite <- round_NE_opp. apply rnd_le. lra.
  - rewrite <- (rnd_bpow e He). apply rnd_le. lra.
Qed.
Lemma bpow_lt_fmax e : (e < 1024)%Z -> bpow radix2 e < fmax.
Proof. intros. now apply bpow_lt. Qed.

Lemma mag_weaken e e' x : (e <= e')%Z -> mag_le e x -> mag_le e' x.
Proof. intros H [A B]. split; auto. eapply Rle_trans; [exact B|]. now apply bpow_le. Qed.
Lemma bpow_double e : bpow radix2 (e + 1) = bpow radix2 e + bpow radix2 e.
Proof. rewrite bpow_plus. simpl (bpow radix2 1). unfold Z.pow_pos; simpl. lra. Qed.

Lemma mag_add e x y : (-1074 <= e < 1023)%Z -> mag_le e x -> mag_le e y -> mag_le (e + 1) (fadd x y).
Proof.
  intros He [A B] [C D].
  assert (H : Rabs (B2R x + B2R y) <= bpow radix2 (e + 1)).
  { rewrite bpow_double. eapply Rle_trans; [apply Rabs_triang|]. lra. }
  apply (rnd_abs_le _ (e + 1)) in H; [|lia].
  destruct (fadd_spec x y A C) as [E F].
  - eapply Rle_lt_trans; [exact H|]. apply bpow_lt_fmax. lia.
  - split; auto. now rewrite E.
Qed.
Lemma mag_sub e x y : (-1074 <= e < 1023)%Z -> mag_le e x -> mag_le e y -> mag_le (e + 1) (fsub x y).
Proof.
  intros He [A B] [C D].
  assert (H : Rabs (B2R x - B2R y) <= bpow radix2 (e + 1)).
  { rewrite bpow_double. unfold Rminus. eapply Rle_trans; [apply Rabs_triang|]. rewrite Rabs_Ropp. lra. }
  apply (rnd_abs_le _ (e + 1)) in H; [|lia].
  destruct (fsub_spec x y A C) as [E F].
  - eapply Rle_lt_trans; [exact H|]. apply bpow_lt_fmax. lia.
  - split; auto. now rewrite E.
Qed.
Lemma mag_mul e e' x y : (-1074 <= e + e' < 1024)%Z -> mag_le e x -> mag_le e' y -> mag_le (e + e') (fmul x y).
Proof.
  intros He [A B] [C D].
  assert (H : Rabs (B2R x * B2R y) <= bpow radix2 (e + e')).
  { rewrite bpow_plus, Rabs_mult. apply Rmult_le_compat; auto; apply Rabs_pos. }
  apply (rnd_abs_le _ (e + e')) in H; [|lia].
  destruct (fmul_spec x y A C) as [E F].
  - eapply Rle_lt_trans; [exact H|]. apply bpow_lt_fmax. lia.
  - split; auto. now rewrite E.
Qed.
Lemma mag_abs e x : mag_le e x -> mag_le e (fabs x).
Proof.
  intros [A B]. split.
  - unfold isfin, fabs. now rewrite is_finite_Babs.
  - unfold fabs. rewrite B2R_Babs, Rabs_Rabsolu. exact B.
Qed.

Lemma rnd_scaled x k : generic_format radix2 fexp64 x -> (0 <= k)%Z -> rnd (x * bpow radix2 k) = x * bpow radix2 k.
Proof.
  intros Fx Hk. unfold rnd. apply round_generic; auto with typeclass_instances.
  destruct (Req_dec x 0) as [->|Hx]; [rewrite Rmult_0_l; apply generic_format_0|].
  apply generic_format_FLT. apply FLT_format_generic in Fx; auto with typeclass_instances.
  destruct Fx as [f E1 E2 E3]. exists (Float radix2 (Fnum f) (Fexp f + k)).
  - unfold F2R in *. cbn [Fnum Fexp] in *. rewrite bpow_plus. rewrite E1. ring.
  - exact E2.
  - cbn [Fexp]. lia.
Qed.

(** the velocity clamp keeps the magnitude of [vmax], even when [v * vmax] underflows *)
Lemma clamp_mag v vmax e k : (0 <= k < 1024)%Z -> (-1074 <= e + k < 1024)%Z -> mag_le e v -> mag_le k vmax ->
  0 < Rabs (B2R v) -> mag_le k (fdiv (fmul v vmax) (fabs v)).
Proof.
  intros Hk Hek [A B] [C D] Hv. destruct (mag_mul e k v vmax ltac:(lia) (conj A B) (conj C D)) as [Fm Mm].
  assert (Em : B2R (fmul v vmax) = rnd (B2R v * B2R vmax)).
  { apply fmul_spec; auto. eapply Rle_lt_trans; [apply rnd_abs_le|apply (bpow_lt_fmax (e + k)); lia]; [lia|].
    rewrite bpow_plus, Rabs_mult. apply Rmult_le_compat; auto; apply Rabs_pos. }
  assert (Hm : Rabs (B2R (fmul v vmax)) <= Rabs (B2R v) * bpow radix2 k).
  { rewrite Em. rewrite <- (Rabs_pos_eq (bpow radix2 k)) by apply bpow_ge_0. rewrite <- Rabs_mult.
    rewrite <- (rnd_scaled (B2R v) k) by (try apply format_B2R; lia).
    unfold rnd. rewrite <- !round_NE_abs by auto with typeclass_instances. apply rnd_le. rewrite !Rabs_mult.
    apply Rmult_le_compat_l; [apply Rabs_pos|]. rewrite (Rabs_pos_eq (bpow radix2 k)) by apply bpow_ge_0. exact D. }
  assert (Ha : B2R (fabs v) = Rabs (B2R v)) by (unfold fabs; apply B2R_Babs).
  assert (Q : Rabs (B2R (fmul v vmax) / B2R (fabs v)) <= bpow radix2 k).
  { unfold Rdiv. rewrite Rabs_mult, Rabs_inv, Ha, Rabs_Rabsolu.
    apply (Rmult_le_reg_r (Rabs (B2R v))); auto. rewrite Rmult_assoc, Rinv_l, Rmult_1_r by lra. lra. }
  assert (HB : B2R (fabs v) <> 0) by lra.
  generalize (Bdiv_correct 53 1024 _ _ mode_NE (fmul v vmax) (fabs v) HB).
  change (round_mode mode_NE) with ZnearestE. fold (rnd (B2R (fmul v vmax) / B2R (fabs v))).
  apply (rnd_abs_le _ k) in Q; [|lia].
  rewrite Rlt_bool_true by (eapply Rle_lt_trans; [exact Q|]; apply bpow_lt_fmax; lia).
  intros (E & F & _). split; [unfold isfin, fdiv; now rewrite F|]. unfold fdiv. now rewrite E.
Qed.
