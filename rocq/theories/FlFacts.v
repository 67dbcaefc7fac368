(** Order and rounding facts about binary64. *)
From Coq Require Import ZArith Bool List Reals Lra Lia Psatz.
From Coq Require Import SpecFloat.
From Flocq Require Import Core Plus_error IEEE754.BinarySingleNaN.
From Coquelicot Require Import Rbar.
From Verif Require Import Fl.
Local Open Scope R_scope.

(** Extended-real value of a float (0 for NaN). *)
Definition toRbar (x : b64) : Rbar :=
  match x with
  | B754_infinity false => p_infty
  | B754_infinity true => m_infty
  | _ => Finite (B2R x)
  end.

Lemma isfin_not_nan x : isfin x = true -> isnan x = false.
Proof. now destruct x. Qed.

Lemma toRbar_fin x : isfin x = true -> toRbar x = Finite (B2R x).
Proof. destruct x as [s|[|]| |s m e H]; easy. Qed.

Lemma fin_or x : isnan x = false -> isfin x = true \/ x = finf \/ x = fninf.
Proof.
  destruct x as [s|[|]| |s m e H]; unfold finf, fninf; simpl; auto; discriminate.
Qed.

Lemma fle_iff x y :
  fle x y = true <-> isnan x = false /\ isnan y = false /\ Rbar_le (toRbar x) (toRbar y).
Proof.
  unfold fle, isnan.
  destruct (is_nan x) eqn:Nx.
  { destruct x; try discriminate. simpl; intuition (try discriminate). }
  destruct (is_nan y) eqn:Ny.
  { destruct y; try discriminate. unfold Bleb, SFleb, SFcompare.
    destruct x as [s|[|]| |s m e H]; simpl; intuition (try discriminate). }
  destruct (fin_or x Nx) as [Fx|[->| ->]]; destruct (fin_or y Ny) as [Fy|[->| ->]].
  - rewrite (Bleb_correct _ _ x y Fx Fy), (toRbar_fin x Fx), (toRbar_fin y Fy). simpl.
    case Rle_bool_spec; intros; intuition (try discriminate; try lra).
  - rewrite (toRbar_fin x Fx). destruct x as [s|[|]| |s m e H]; simpl; try discriminate; intuition (try discriminate).
  - rewrite (toRbar_fin x Fx). destruct x as [s|[|]| |[|] m e H]; simpl; try discriminate; intuition (try discriminate).
  - rewrite (toRbar_fin y Fy). destruct y as [s|[|]| |[|] m e H]; simpl; try discriminate; intuition (try discriminate).
  - simpl; intuition.
  - simpl; intuition (try discriminate).
  - rewrite (toRbar_fin y Fy). destruct y as [s|[|]| |[|] m e H]; simpl; try discriminate; intuition (try discriminate).
  - simpl; intuition.
  - simpl; intuition.
Qed.


Lemma flt_iff x y :
  flt x y = true <-> isnan x = false /\ isnan y = false /\ fle y x = false.
Proof.
  unfold flt, fle, Bltb, Bleb, SFltb, SFleb.
  change (SFcompare (B2SF x) (B2SF y)) with (Bcompare x y).
  change (SFcompare (B2SF y) (B2SF x)) with (Bcompare y x).
  rewrite (Bcompare_swap _ _ x y).
  unfold isnan.
  destruct (is_nan x) eqn:Nx.
  { destruct x; try discriminate. simpl. split; [discriminate|intuition discriminate]. }
  destruct (is_nan y) eqn:Ny.
  { destruct y; try discriminate. destruct x as [s|[|]| |[|] m e H]; simpl; split; try discriminate; intuition discriminate. }
  destruct (Bcompare x y) as [[| |]|] eqn:E; simpl; split; try discriminate; intuition try discriminate.
  (* None impossible *)
  destruct (fin_or x Nx) as [Fx|[->| ->]]; destruct (fin_or y Ny) as [Fy|[->| ->]];
    try (rewrite (Bcompare_correct _ _ x y Fx Fy) in E; discriminate);
    try (destruct x as [s|[|]| |[|] m e Hx]; discriminate);
    try (destruct y as [s|[|]| |[|] m e Hy]; discriminate); discriminate.
Qed.

Lemma feq_iff x y : feq x y = true <-> fle x y = true /\ fle y x = true.
Proof.
  unfold feq, fle, Beqb, Bleb, SFeqb, SFleb.
  change (SFcompare (B2SF x) (B2SF y)) with (Bcompare x y).
  change (SFcompare (B2SF y) (B2SF x)) with (Bcompare y x).
  rewrite (Bcompare_swap _ _ x y).
  destruct (Bcompare x y) as [[| |]|]; simpl; intuition discriminate.
Qed.

Lemma fle_refl x : isnan x = false -> fle x x = true.
Proof. intros H. apply fle_iff. repeat split; auto. apply Rbar_le_refl. Qed.

Lemma fle_trans x y z : fle x y = true -> fle y z = true -> fle x z = true.
Proof.
  rewrite !fle_iff. intros (A&B&C) (D&E&F). repeat split; auto. eapply Rbar_le_trans; eauto.
Qed.

Lemma fle_nnan_l x y : fle x y = true -> isnan x = false.
Proof. rewrite fle_iff. tauto. Qed.
Lemma fle_nnan_r x y : fle x y = true -> isnan y = false.
Proof. rewrite fle_iff. tauto. Qed.

Lemma fle_total x y : isnan x = false -> isnan y = false -> fle x y = true \/ fle y x = true.
Proof.
  intros A B. rewrite !fle_iff. destruct (Rbar_le_lt_dec (toRbar x) (toRbar y)) as [H|H].
  - left; auto.
  - right. repeat split; auto. now apply Rbar_lt_le.
Qed.

Lemma flt_fle x y : flt x y = true -> fle x y = true.
Proof.
  rewrite flt_iff. intros (A&B&C). destruct (fle_total x y A B); auto. congruence.
Qed.

Lemma fle_flt_trans x y z : fle x y = true -> flt y z = true -> flt x z = true.
Proof.
  rewrite !flt_iff. intros H (A&B&C). repeat split; auto.
  - eapply fle_nnan_l; eauto.
  - destruct (fle z x) eqn:E; auto. rewrite (fle_trans z x y) in C; auto.
Qed.

Lemma flt_fle_trans x y z : flt x y = true -> fle y z = true -> flt x z = true.
Proof.
  rewrite !flt_iff. intros (A&B&C) H. repeat split; auto.
  - eapply fle_nnan_r; eauto.
  - destruct (fle z x) eqn:E; auto. rewrite (fle_trans y z x) in C; auto.
Qed.

Lemma flt_nnan_l x y : flt x y = true -> isnan x = false.
Proof. rewrite flt_iff. tauto. Qed.
Lemma flt_nnan_r x y : flt x y = true -> isnan y = false.
Proof. rewrite flt_iff. tauto. Qed.

Lemma flt_irrefl x : flt x x = false.
Proof.
  destruct (flt x x) eqn:E; auto. apply flt_iff in E as (A&_&C). rewrite fle_refl in C; auto.
Qed.

Lemma flt_false x y : isnan x = false -> isnan y = false -> flt x y = false -> fle y x = true.
Proof.
  intros A B C. destruct (fle y x) eqn:E; auto.
  assert (flt x y = true) by (apply flt_iff; auto). congruence.
Qed.

Lemma fle_false x y : isnan x = false -> isnan y = false -> fle x y = false -> flt y x = true.
Proof. intros A B C. apply flt_iff; auto. Qed.

Lemma fle_not_flt x y : fle x y = true -> flt y x = false.
Proof.
  intros H. destruct (flt y x) eqn:E; auto. apply flt_iff in E as (_&_&E). congruence.
Qed.

Lemma feq_refl x : isnan x = false -> feq x x = true.
Proof. intros; apply feq_iff; split; now apply fle_refl. Qed.

Lemma feq_sym x y : feq x y = true -> feq y x = true.
Proof. rewrite !feq_iff. tauto. Qed.

Lemma fle_nan_l x y : isnan x = true -> fle x y = false.
Proof. destruct x; try discriminate; reflexivity. Qed.
Lemma fle_nan_r x y : isnan y = true -> fle x y = false.
Proof. destruct y; try discriminate. destruct x as [s|[|]| |[|] m e H]; reflexivity. Qed.
Lemma flt_nan_l x y : isnan x = true -> flt x y = false.
Proof. destruct x; try discriminate; reflexivity. Qed.
Lemma flt_nan_r x y : isnan y = true -> flt x y = false.
Proof. destruct y; try discriminate. destruct x as [s|[|]| |[|] m e H]; reflexivity. Qed.

Lemma fle_finite x y : isfin x = true -> isfin y = true -> (fle x y = true <-> B2R x <= B2R y).
Proof.
  intros Fx Fy. unfold fle. rewrite (Bleb_correct _ _ x y Fx Fy).
  case Rle_bool_spec; intros; split; auto; try lra; discriminate.
Qed.

Lemma flt_finite x y : isfin x = true -> isfin y = true -> (flt x y = true <-> B2R x < B2R y).
Proof.
  intros Fx Fy. unfold flt. rewrite (Bltb_correct _ _ x y Fx Fy).
  case Rlt_bool_spec; intros; split; auto; try lra; discriminate.
Qed.

(** ** rounding *)

Notation fexp64 := (SpecFloat.fexp 53 1024).
Definition rnd (x : R) : R := round radix2 fexp64 ZnearestE x.
Definition fmax : R := bpow radix2 1024.

#[global] Instance fexp64_valid : Valid_exp fexp64 := fexp_correct 53 1024 _.

Lemma rnd_le x y : x <= y -> rnd x <= rnd y.
Proof. intros H. unfold rnd. apply round_le; auto with typeclass_instances. Qed.

Lemma rnd_B2R (x : b64) : rnd (B2R x) = B2R x.
Proof.
  unfold rnd. apply round_generic; auto with typeclass_instances. apply (generic_format_B2R 53 1024 x).
Qed.

Lemma rnd_0 : rnd 0 = 0.
Proof. unfold rnd. apply round_0; auto with typeclass_instances. Qed.

Lemma B2R_lt_fmax (x : b64) : Rabs (B2R x) < fmax.
Proof. apply abs_B2R_lt_emax. Qed.

Lemma fadd_spec x y : isfin x = true -> isfin y = true -> Rabs (rnd (B2R x + B2R y)) < fmax ->
  B2R (fadd x y) = rnd (B2R x + B2R y) /\ isfin (fadd x y) = true.
Proof.
  intros Fx Fy H. generalize (Bplus_correct 53 1024 _ _ mode_NE x y Fx Fy).
  change (round_mode mode_NE) with ZnearestE. fold (rnd (B2R x + B2R y)).
  rewrite Rlt_bool_true by exact H. intros (A&B&_). split; assumption.
Qed.

Lemma fsub_spec x y : isfin x = true -> isfin y = true -> Rabs (rnd (B2R x - B2R y)) < fmax ->
  B2R (fsub x y) = rnd (B2R x - B2R y) /\ isfin (fsub x y) = true.
Proof.
  intros Fx Fy H. generalize (Bminus_correct 53 1024 _ _ mode_NE x y Fx Fy).
  change (round_mode mode_NE) with ZnearestE. fold (rnd (B2R x - B2R y)).
  rewrite Rlt_bool_true by exact H. intros (A&B&_). split; assumption.
Qed.

Lemma fmul_spec x y : isfin x = true -> isfin y = true -> Rabs (rnd (B2R x * B2R y)) < fmax ->
  B2R (fmul x y) = rnd (B2R x * B2R y) /\ isfin (fmul x y) = true.
Proof.
  intros Fx Fy H. generalize (Bmult_correct 53 1024 _ _ mode_NE x y).
  change (round_mode mode_NE) with ZnearestE. fold (rnd (B2R x * B2R y)).
  rewrite Rlt_bool_true by exact H. intros (A&B&_). split; [assumption|].
  unfold isfin, fmul in *. rewrite B. unfold isfin in Fx, Fy. now rewrite Fx, Fy.
Qed.

(** A finite result means no overflow. *)
Lemma fsub_fin x y : isfin x = true -> isfin y = true -> isfin (fsub x y) = true ->
  B2R (fsub x y) = rnd (B2R x - B2R y).
Proof.
  intros Fx Fy F. generalize (Bminus_correct 53 1024 _ _ mode_NE x y Fx Fy).
  change (round_mode mode_NE) with ZnearestE. fold (rnd (B2R x - B2R y)).
  case Rlt_bool_spec; intros H.
  - now intros (A&_).
  - intros (A&_). exfalso. unfold isfin, fsub in F. rewrite <- is_finite_SF_B2SF, A in F. discriminate.
Qed.

Lemma fadd_fin x y : isfin x = true -> isfin y = true -> isfin (fadd x y) = true ->
  B2R (fadd x y) = rnd (B2R x + B2R y).
Proof.
  intros Fx Fy F. generalize (Bplus_correct 53 1024 _ _ mode_NE x y Fx Fy).
  change (round_mode mode_NE) with ZnearestE. fold (rnd (B2R x + B2R y)).
  case Rlt_bool_spec; intros H.
  - now intros (A&_).
  - intros (A&_). exfalso. unfold isfin, fadd in F. rewrite <- is_finite_SF_B2SF, A in F. discriminate.
Qed.

Lemma fadd_comm x y : isnan (fadd x y) = false -> isfin x = true -> isfin y = true -> feq (fadd x y) (fadd y x) = true.
Proof.
  intros N Fx Fy.
  generalize (Bplus_correct 53 1024 _ _ mode_NE x y Fx Fy) (Bplus_correct 53 1024 _ _ mode_NE y x Fy Fx).
  change (round_mode mode_NE) with ZnearestE. rewrite (Rplus_comm (B2R y)).
  case Rlt_bool_spec; intros H.
  - intros (A&B&_) (C&D&_). apply feq_iff. unfold fadd. split; apply fle_finite; auto; lra.
  - intros (A&E) (C&_). rewrite <- E in C. rewrite <- C in A. apply B2SF_inj in A.
    unfold fadd. rewrite A. apply feq_refl. unfold fadd in N. now rewrite A in N.
Qed.

Lemma fadd_comm_fin x y : isfin x = true -> isfin y = true -> fadd x y = fadd y x.
Proof.
  intros Fx Fy.
  generalize (Bplus_correct 53 1024 _ _ mode_NE x y Fx Fy) (Bplus_correct 53 1024 _ _ mode_NE y x Fy Fx).
  change (round_mode mode_NE) with ZnearestE. rewrite (Rplus_comm (B2R y)).
  case Rlt_bool_spec; intros H.
  - intros (A&B&S1) (C&D&S2). unfold fadd. apply B2R_Bsign_inj; auto.
    + now rewrite A, C.
    + rewrite S1, S2. destruct (Rcompare _ _); auto. apply andb_comm.
  - intros (A&E) (C&_). rewrite <- E in C. rewrite <- C in A. apply B2SF_inj in A. exact A.
Qed.

(** ** scaling a unit draw to an interval *)

Lemma B2R_f0 : B2R f0 = 0. Proof. reflexivity. Qed.
Lemma B2R_f1 : B2R f1 = 1.
Proof.
  unfold f1, fz, fbin.
  generalize (binary_normalize_correct 53 1024 _ _ mode_NE 1 0 false).
  change (round_mode mode_NE) with ZnearestE.
  assert (E : F2R (Float radix2 1 0) = 1) by (unfold F2R; simpl; lra).
  cbv zeta. rewrite E. rewrite round_generic; auto with typeclass_instances.
  - rewrite Rlt_bool_true. now intros (A&_). rewrite Rabs_R1. apply (bpow_lt radix2 0 1024). lia.
  - apply (generic_format_bpow radix2 _ 0). simpl. unfold SpecFloat.fexp, SpecFloat.emin. lia.
Qed.
Lemma isfin_f1 : isfin f1 = true. Proof. reflexivity. Qed.

Lemma Rabs_between a b x M : a <= x <= b -> Rabs a < M -> Rabs b < M -> Rabs x < M.
Proof. intros H. unfold Rabs. repeat destruct Rcase_abs; lra. Qed.

(** The width of an interval of floats, when it does not overflow. *)
Lemma width_nonneg lo hi : isfin lo = true -> isfin hi = true -> isfin (fsub hi lo) = true ->
  fle lo hi = true -> 0 <= B2R (fsub hi lo).
Proof.
  intros Fl Fh Fw H. rewrite fsub_fin by auto. rewrite <- rnd_0. apply rnd_le.
  apply fle_finite in H; auto. lra.
Qed.

Lemma unit_mul u w : isfin u = true -> isfin w = true -> 0 <= B2R u <= 1 -> 0 <= B2R w ->
  isfin (fmul u w) = true /\ B2R (fmul u w) = rnd (B2R u * B2R w) /\ 0 <= B2R (fmul u w) <= B2R w.
Proof.
  intros Fu Fw Hu Hw.
  assert (H0 : 0 <= rnd (B2R u * B2R w)).
  { rewrite <- rnd_0. apply rnd_le. nra. }
  assert (H1 : rnd (B2R u * B2R w) <= B2R w).
  { rewrite <- (rnd_B2R w) at 2. apply rnd_le. nra. }
  destruct (fmul_spec u w Fu Fw) as [A B].
  { generalize (B2R_lt_fmax w). rewrite !Rabs_pos_eq; lra. }
  rewrite A. auto.
Qed.

Lemma neg_sign_le (m : b64) : Bsign m = true -> B2R m <= 0.
Proof.
  destruct m as [s|s| |s mm e Hl]; simpl; intros; try lra. subst s.
  apply Rlt_le. apply F2R_lt_0. reflexivity.
Qed.

(** [lo + u*(hi-lo)] never drops below [lo]; it stays below the float [lo + (hi-lo)]. *)
Lemma scale_lower lo hi u :
  isfin lo = true -> isfin hi = true -> isfin (fsub hi lo) = true -> fle lo hi = true ->
  isfin u = true -> 0 <= B2R u <= 1 ->
  fle lo (fadd lo (fmul u (fsub hi lo))) = true.
Proof.
  intros Fl Fh Fw H Fu Hu.
  pose proof (width_nonneg lo hi Fl Fh Fw H) as Hw.
  destruct (unit_mul u (fsub hi lo) Fu Fw Hu Hw) as (Fm & Em & Hm).
  set (m := fmul u (fsub hi lo)) in *. clearbody m.
  assert (Hr : B2R lo <= rnd (B2R lo + B2R m)).
  { rewrite <- (rnd_B2R lo) at 1. apply rnd_le. lra. }
  generalize (Bplus_correct 53 1024 _ _ mode_NE lo m Fl Fm).
  change (round_mode mode_NE) with ZnearestE. fold (rnd (B2R lo + B2R m)).
  case Rlt_bool_spec; intros Ho.
  - intros (A&B&_). apply fle_finite; auto. unfold fadd. rewrite A. exact Hr.
  - intros (A&S).
    assert (P : B2R lo + B2R m > 0).
    { destruct (Rle_or_lt (B2R lo + B2R m) 0); auto. exfalso.
      assert (rnd (B2R lo + B2R m) <= 0) by (rewrite <- rnd_0; apply rnd_le; auto).
      generalize (B2R_lt_fmax lo). rewrite Rabs_left1 in Ho by lra. intros L.
      assert (B2R lo <= 0) by lra. rewrite Rabs_left1 in L by lra.
      unfold fmax in L. lra. }
    assert (Bsign lo = false).
    { destruct lo as [s|s| |s mm e Hl]; try discriminate.
      - simpl in S. simpl. destruct s; auto. exfalso.
        simpl in P. assert (0 < B2R m) by lra.
        apply Rlt_not_le in H0. apply H0. now apply neg_sign_le.
      - simpl in S |- *. destruct s; auto. exfalso.
        assert (B2R (B754_finite true mm e Hl) < 0) by (apply F2R_lt_0; reflexivity).
        assert (0 < B2R m) by (unfold b64 in *; lra).
        apply Rlt_not_le in H1. apply H1. now apply neg_sign_le. }
    assert (E : fadd lo m = finf).
    { apply B2SF_inj. unfold fadd. rewrite A, H0. reflexivity. }
    rewrite E. apply fle_iff. split; [|split]; auto.
    + now apply isfin_not_nan.
    + rewrite toRbar_fin by auto. exact I.
Qed.

Lemma fadd_mono_r a x y : isfin a = true -> isfin x = true -> isfin y = true ->
  B2R x <= B2R y -> isfin (fadd a y) = true -> B2R a <= rnd (B2R a + B2R x) ->
  isfin (fadd a x) = true /\ B2R (fadd a x) <= B2R (fadd a y).
Proof.
  intros Fa Fx Fy H Fs Hl.
  rewrite (fadd_fin a y Fa Fy Fs).
  assert (Hr : rnd (B2R a + B2R x) <= rnd (B2R a + B2R y)) by (apply rnd_le; lra).
  destruct (fadd_spec a x Fa Fx) as [A B].
  - apply (Rabs_between (B2R a) (rnd (B2R a + B2R y))); auto.
    + apply B2R_lt_fmax.
    + rewrite <- (fadd_fin a y Fa Fy Fs). apply B2R_lt_fmax.
  - rewrite A. auto.
Qed.

(** closed unit interval: needs the float sum [lo + (hi-lo)] to be at most [hi] *)
Lemma scale_upper_closed lo hi u :
  isfin lo = true -> isfin hi = true -> isfin (fsub hi lo) = true -> fle lo hi = true ->
  fle (fadd lo (fsub hi lo)) hi = true ->
  isfin u = true -> 0 <= B2R u <= 1 ->
  fle (fadd lo (fmul u (fsub hi lo))) hi = true.
Proof.
  intros Fl Fh Fw H Hc Fu Hu.
  pose proof (width_nonneg lo hi Fl Fh Fw H) as Hw.
  destruct (unit_mul u (fsub hi lo) Fu Fw Hu Hw) as (Fm & Em & Hm).
  set (w := fsub hi lo) in *. set (m := fmul u w) in *.
  assert (L : fle lo (fadd lo w) = true).
  { pose proof (scale_lower lo hi f1 Fl Fh Fw H isfin_f1) as S. rewrite B2R_f1 in S.
    specialize (S ltac:(lra)). fold w in S.
    replace (fadd lo w) with (fadd lo (fmul f1 w)); auto.
    f_equal. destruct (unit_mul f1 w isfin_f1 Fw) as (F1&E1&_); rewrite ?B2R_f1; try lra; auto.
    rewrite B2R_f1, Rmult_1_l, rnd_B2R in E1. apply B2R_Bsign_inj; auto.
    generalize (Bmult_correct 53 1024 _ _ mode_NE f1 w).
    change (round_mode mode_NE) with ZnearestE. fold (rnd (B2R f1 * B2R w)).
    rewrite B2R_f1, Rmult_1_l, rnd_B2R, Rlt_bool_true by apply B2R_lt_fmax.
    intros (_&_&S1). unfold fmul. rewrite S1 by (exact (isfin_not_nan _ F1)).
    replace (Bsign f1) with false by (vm_compute; reflexivity). now destruct (Bsign w). }
  assert (Fs : isfin (fadd lo w) = true).
  { destruct (fin_or (fadd lo w)) as [?|[E|E]]; auto.
    - eapply fle_nnan_l; eauto.
    - rewrite E in Hc. apply fle_iff in Hc as (_&_&Hc). rewrite (toRbar_fin hi) in Hc by auto. destruct Hc.
    - rewrite E in L. apply fle_iff in L as (_&_&L). rewrite (toRbar_fin lo) in L by auto. destruct L. }
  destruct (fadd_mono_r lo m w Fl Fm Fw) as [Fr Hr]; auto.
  { lra. }
  { rewrite <- (rnd_B2R lo) at 1. apply rnd_le. lra. }
  apply fle_trans with (fadd lo w); auto. apply fle_finite; auto.
Qed.

(** half-open unit interval: the upper bound holds with no side condition *)

Lemma format_B2R (x : b64) : generic_format radix2 fexp64 (B2R x).
Proof. apply (generic_format_B2R 53 1024 x). Qed.

Lemma unit_below_one u : isfin u = true -> B2R u < 1 -> B2R u <= 1 - bpow radix2 (-53).
Proof.
  intros Fu H.
  assert (F1 : generic_format radix2 fexp64 1).
  { rewrite <- B2R_f1. apply format_B2R. }
  pose proof (pred_ge_gt radix2 fexp64 _ _ (format_B2R u) F1 H) as P.
  change 1 with (bpow radix2 0) in P at 1. rewrite pred_bpow in P.
  exact P.
Qed.

(** A nearest rounding is never two steps above its argument. *)
Lemma pred_rnd_le t : pred radix2 fexp64 (rnd t) <= t.
Proof.
  destruct (Rle_or_lt (pred radix2 fexp64 (rnd t)) t); auto. exfalso.
  assert (F : generic_format radix2 fexp64 (rnd t)) by (apply generic_format_round; auto with typeclass_instances).
  assert (Fp : generic_format radix2 fexp64 (pred radix2 fexp64 (rnd t))) by (apply generic_format_pred; auto with typeclass_instances).
  assert (rnd t <= pred radix2 fexp64 (rnd t)).
  { apply round_le_generic; auto with typeclass_instances. lra. }
  assert (Z : rnd t <> 0).
  { intros Z. assert (t <= 0 \/ 0 < t) as [T|T] by lra.
    - rewrite Z in H. rewrite Z in H0. rewrite pred_0 in H0.
      pose proof (ulp_ge_0 radix2 fexp64 0). 
      rewrite pred_0 in H.
      assert (0 < ulp radix2 fexp64 0); [|lra].
      unfold ulp. rewrite Req_bool_true by auto.
      destruct (negligible_exp_spec fexp64) as [N|n N].
      + specialize (N (-1080)%Z). unfold SpecFloat.fexp, SpecFloat.emin in N. lia.
      + apply bpow_gt_0.
    - rewrite Z, pred_0 in H. pose proof (ulp_ge_0 radix2 fexp64 0). lra. }
  pose proof (pred_lt_id radix2 fexp64 (rnd t) Z). lra.
Qed.

Lemma scaled_below w u : isfin u = true -> isfin w = true -> 0 <= B2R u < 1 ->
  bpow radix2 (-1021) < B2R w ->
  rnd (B2R u * B2R w) <= pred radix2 fexp64 (B2R w).
Proof.
  intros Fu Fw Hu Hw.
  pose proof (unit_below_one u Fu (proj2 Hu)) as U.
  assert (W0 : 0 < B2R w) by (eapply Rlt_trans; [apply bpow_gt_0|exact Hw]).
  assert (Fp : generic_format radix2 fexp64 (pred radix2 fexp64 (B2R w))).
  { apply generic_format_pred; auto with typeclass_instances. apply format_B2R. }
  apply round_N_le_midp; auto with typeclass_instances.
  rewrite succ_pred; auto with typeclass_instances; [|apply format_B2R].
  (* w - pred w < w * 2^-52 *)
  assert (G : B2R w - pred radix2 fexp64 (B2R w) < B2R w * bpow radix2 (-52)).
  { rewrite pred_eq_pos by lra. unfold pred_pos.
    destruct (mag radix2 (B2R w)) as (e, He). cbn [mag_val].
    specialize (He (Rgt_not_eq _ _ W0)). rewrite Rabs_pos_eq in He by lra.
    assert (E : (-1021 < e)%Z).
    { apply (lt_bpow radix2). lra. }
    case Req_bool_spec; intros HE.
    - replace (B2R w - (B2R w - bpow radix2 (fexp64 (e - 1)))) with (bpow radix2 (fexp64 (e-1))) by ring.
      rewrite HE, <- bpow_plus. apply bpow_lt.
      unfold SpecFloat.fexp, SpecFloat.emin. 
      rewrite HE in Hw. apply lt_bpow in Hw. lia.
    - replace (B2R w - (B2R w - ulp radix2 fexp64 (B2R w))) with (ulp radix2 fexp64 (B2R w)) by ring.
      rewrite ulp_neq_0 by lra. unfold cexp. rewrite (mag_unique_pos radix2 (B2R w) e He).
      apply Rle_lt_trans with (bpow radix2 (e-1) * bpow radix2 (-52)).
      + rewrite <- bpow_plus. apply bpow_le. unfold SpecFloat.fexp, SpecFloat.emin. lia.
      + apply Rmult_lt_compat_r. apply bpow_gt_0. lra. }
  change (bpow radix2 (-53)) with (/ IZR (2^53)) in U.
  change (bpow radix2 (-52)) with (/ IZR (2^52)) in G.
  assert (B2R u * B2R w <= (1 - / IZR (2^53)) * B2R w) by (apply Rmult_le_compat_r; lra).
  simpl in *. lra.
Qed.

Lemma small_width_le lo hi : isfin lo = true -> isfin hi = true -> isfin (fsub hi lo) = true ->
  B2R lo <= B2R hi ->
  B2R (fsub hi lo) <= bpow radix2 (-1021) -> B2R (fsub hi lo) <= B2R hi - B2R lo.
Proof.
  intros Fl Fh Fw H. rewrite fsub_fin by auto.
  destruct (Rle_or_lt (B2R hi - B2R lo) (bpow radix2 (-1021))) as [L|L]; [|lra].
  intros _. apply Req_le.
  unfold rnd. apply round_generic; auto with typeclass_instances.
  unfold Rminus.
  change fexp64 with (FLT_exp (-1074) 53).
  apply FLT_format_plus_small; auto with typeclass_instances.
  - apply (format_B2R hi).
  - apply generic_format_opp. apply (format_B2R lo).
  - change (bpow radix2 (53 + -1074)) with (bpow radix2 (-1021)).
    rewrite Rabs_pos_eq; lra.
Qed.

Lemma scale_upper_open lo hi u :
  isfin lo = true -> isfin hi = true -> isfin (fsub hi lo) = true -> fle lo hi = true ->
  isfin u = true -> 0 <= B2R u < 1 ->
  fle (fadd lo (fmul u (fsub hi lo))) hi = true.
Proof.
  intros Fl Fh Fw H Fu Hu.
  pose proof (width_nonneg lo hi Fl Fh Fw H) as Hw.
  destruct (unit_mul u (fsub hi lo) Fu Fw ltac:(lra) Hw) as (Fm & Em & Hm).
  pose proof (proj1 (fle_finite _ _ Fl Fh) H) as H'.
  assert (K : B2R (fmul u (fsub hi lo)) <= B2R hi - B2R lo).
  { destruct (Rle_or_lt (B2R (fsub hi lo)) (bpow radix2 (-1021))) as [S|S].
    - pose proof (small_width_le lo hi Fl Fh Fw H' S). lra.
    - pose proof (scaled_below (fsub hi lo) u Fu Fw Hu S) as B. rewrite <- Em in B.
      rewrite (fsub_fin hi lo) in B by auto.
      pose proof (pred_rnd_le (B2R hi - B2R lo)). lra. }
  set (m := fmul u (fsub hi lo)) in *.
  assert (R1 : rnd (B2R lo + B2R m) <= B2R hi).
  { rewrite <- (rnd_B2R hi). apply rnd_le. lra. }
  assert (R2 : B2R lo <= rnd (B2R lo + B2R m)).
  { rewrite <- (rnd_B2R lo) at 1. apply rnd_le. lra. }
  destruct (fadd_spec lo m Fl Fm) as [A B].
  - apply (Rabs_between (B2R lo) (B2R hi)); auto using B2R_lt_fmax.
  - apply fle_finite; auto. rewrite A. exact R1.
Qed.

Lemma scale_finite_open lo hi u :
  isfin lo = true -> isfin hi = true -> isfin (fsub hi lo) = true -> fle lo hi = true ->
  isfin u = true -> 0 <= B2R u < 1 ->
  isfin (fadd lo (fmul u (fsub hi lo))) = true.
Proof.
  intros Fl Fh Fw H Fu Hu.
  pose proof (scale_upper_open lo hi u Fl Fh Fw H Fu Hu) as U.
  pose proof (scale_lower lo hi u Fl Fh Fw H Fu ltac:(lra)) as L.
  destruct (fin_or (fadd lo (fmul u (fsub hi lo)))) as [?|[E|E]]; auto.
  - eapply fle_nnan_l; eauto.
  - rewrite E in U. apply fle_iff in U as (_&_&U). rewrite (toRbar_fin hi) in U by auto. destruct U.
  - rewrite E in L. apply fle_iff in L as (_&_&L). rewrite (toRbar_fin lo) in L by auto. destruct L.
Qed.

(** When the width is exact the closed-interval side condition holds. *)
Lemma width_exact_cond lo hi : isfin lo = true -> isfin hi = true -> isfin (fsub hi lo) = true ->
  B2R (fsub hi lo) = B2R hi - B2R lo -> fle (fadd lo (fsub hi lo)) hi = true.
Proof.
  intros Fl Fh Fw E.
  destruct (fadd_spec lo (fsub hi lo) Fl Fw) as [A B].
  - rewrite E. replace (B2R lo + (B2R hi - B2R lo)) with (B2R hi) by ring. rewrite rnd_B2R. apply B2R_lt_fmax.
  - apply fle_finite; auto. rewrite A, E. replace (B2R lo + (B2R hi - B2R lo)) with (B2R hi) by ring.
    rewrite rnd_B2R. lra.
Qed.
