(** Facts about expected improvement on the reals. *)
From Coq Require Import Reals Lra.
From Coquelicot Require Import Coquelicot.
From Verif Require Import Normal NormalFacts AcqSpec.
Local Open Scope R_scope.

Lemma gauss_density m s y : 0 < s -> gauss m s y = normal_density m s y.
Proof.
  intros H. unfold gauss, normal_density, norm_pdf. pose proof sqrt_2PI.
  replace (- ((y - m) / s) ^ 2 / 2) with (- (((y - m) / s) ^ 2 / 2)) by (field; lra). field. lra.
Qed.
Lemma gauss_total m s : 0 < s -> is_RInt_gen (gauss m s) (Rbar_locally m_infty) (Rbar_locally p_infty) 1.
Proof.
  intros H. apply is_RInt_gen_ext with (normal_density m s); [|now apply density_total].
  apply filter_forall. intros ab y _. symmetry. now apply gauss_density.
Qed.
Lemma prob_cdf m s c : 0 < s -> prob_below m s c (norm_cdf ((c - m) / s)).
Proof.
  intros H. unfold prob_below. apply is_RInt_gen_ext with (normal_density m s).
  { apply filter_forall. intros ab y _. symmetry. now apply gauss_density. }
  replace (norm_cdf ((c - m) / s)) with (norm_cdf ((c - m) / s) - 0) by ring.
  apply (gen_primitive (fun y => norm_cdf ((y - m) / s))).
  - intros y. unfold normal_density. replace (norm_pdf ((y - m) / s) / s) with (scal (/ s) (norm_pdf ((y - m) / s))) by (unfold scal; simpl; unfold mult; simpl; field; lra).
    apply (is_derive_comp (V := R_NormedModule) norm_cdf); [apply cdf_derive|]. auto_derive; [lra|field; lra].
  - intros y. apply cont_of. unfold normal_density, norm_pdf. pose proof sqrt_2PI. auto_derive. lra.
  - apply (filterlim_comp _ _ _ _ norm_cdf _ (Rbar_locally m_infty)); [now apply lin_lim_m|apply cdf_lim_m].
  - apply (lim_at (fun y => norm_cdf ((y - m) / s))).
Qed.
Lemma cdf_integral x : prob_below 0 1 x (norm_cdf x).
Proof. replace x with ((x - 0) / 1) at 2 by field. apply prob_cdf. lra. Qed.
Lemma ei_pos_int f m s : 0 < s -> is_RInt_gen (fun y => Rmax (f - y) 0 * gauss m s y) (Rbar_locally m_infty) (Rbar_locally p_infty) (ei_exact (f - m) s).
Proof.
  intros H. apply is_RInt_gen_ext with (fun y => Rmax (f - y) 0 * normal_density m s y); [|now apply ei_expectation].
  apply filter_forall. intros ab y _. now rewrite gauss_density.
Qed.
Lemma ei_formula f m s : 0 < s -> expected_improvement f m s ((f - m) * norm_cdf ((f - m) / s) + s * norm_pdf ((f - m) / s)).
Proof. intros H. left. split; auto. now apply ei_pos_int. Qed.
(** the value of the expectation is determined *)
Lemma ei_value f m s v : expected_improvement f m s v -> (0 < s /\ v = ei_exact (f - m) s) \/ (s = 0 /\ v = Rmax (f - m) 0).
Proof.
  intros [[H I]|H]; auto. left. split; auto.
  pose proof (ei_pos_int f m s H) as J.
  apply (is_RInt_gen_unique (V := R_CompleteNormedModule)) in I.
  apply (is_RInt_gen_unique (V := R_CompleteNormedModule)) in J. congruence.
Qed.
Lemma ei_exists f m s : 0 <= s -> exists v, expected_improvement f m s v.
Proof. intros [H| <-]; [eexists; now apply ei_formula|]. eexists. right. split; reflexivity. Qed.
Lemma ei_bounds f m s v : expected_improvement f m s v -> Rmax (f - m) 0 <= v /\ (0 < s -> 0 < v).
Proof.
  intros H. destruct (ei_value _ _ _ _ H) as [[P ->]|[-> ->]].
  - split; [left; apply Rmax_lub_lt|intros _]; now apply ei_ge.
  - split; [lra|]. intros; lra.
Qed.
Lemma ei_mono f m s v f' m' s' v' : expected_improvement f m s v -> expected_improvement f' m' s' v' -> f - m <= f' - m' -> s <= s' -> v <= v'.
Proof.
  intros H H' U S.
  assert (M : forall a b t, 0 < t -> a <= b -> ei_exact a t <= ei_exact b t).
  { intros a b t T [L| ->]; [left; now apply ei_mono_u|lra]. }
  destruct (ei_value _ _ _ _ H) as [[P ->]|[-> ->]], (ei_value _ _ _ _ H') as [[P' ->]|[-> ->]].
  - apply Rle_trans with (ei_exact (f' - m') s); auto.
    destruct S as [S| ->]; [|lra]. pose proof (ei_step_s (f' - m') s (s' - s) P ltac:(lra)) as Q.
    replace (s + (s' - s)) with s' in Q by ring. lra.
  - lra.
  - pose proof (ei_small (f' - m') s' P'). assert (Rmax (f - m) 0 <= Rmax (f' - m') 0) by (apply Rle_max_compat_r; auto). lra.
  - apply Rle_max_compat_r; auto.
Qed.
(** strictly: more uncertainty is worth more *)
Lemma ei_mono_strict f m s v f' m' s' v' : expected_improvement f m s v -> expected_improvement f' m' s' v' -> f - m <= f' - m' -> s < s' -> v < v'.
Proof.
  intros H H' U S.
  assert (exists w, expected_improvement f' m' ((s + s') / 2) w) as [w W].
  { apply ei_exists. destruct H as [[? _]|[-> _]]; lra. }
  apply Rle_lt_trans with w; [eapply ei_mono; eauto; lra|].
  destruct (ei_value _ _ _ _ W) as [[P ->]|[Z _]]; [|destruct H as [[? _]|[? _]]; lra].
  destruct (ei_value _ _ _ _ H') as [[P' ->]|[Z _]]; [|lra].
  pose proof (ei_step_s (f' - m') ((s + s') / 2) ((s' - s) / 2) P ltac:(lra)) as Q.
  replace ((s + s') / 2 + (s' - s) / 2) with s' in Q by field. lra.
Qed.
(** the offset in the ratio changes the value by at most [e * phi 0] *)
Lemma ei_close f m s e v : 0 < e -> expected_improvement f m s v ->
  let z := (f - m) / (s + e) in let a := (f - m) * norm_cdf z + s * norm_pdf z in
  v - e * norm_pdf 0 <= a <= v + e * norm_pdf 0 /\ - (e * norm_pdf 0) < a.
Proof.
  intros He H. cbv zeta. assert (0 <= s) by (destruct H as [[? _]|[-> _]]; lra).
  rewrite ei_offset by lra. pose proof (pdf_pos ((f - m) / (s + e))) as P. pose proof (pdf_max ((f - m) / (s + e))) as M.
  pose proof (proj1 (ei_ge (f - m) (s + e) ltac:(lra))) as G.
  assert (v < ei_exact (f - m) (s + e) <= v + e * norm_pdf 0).
  { destruct (ei_value _ _ _ _ H) as [[Q ->]|[-> ->]].
    - pose proof (ei_step_s (f - m) s e Q He). lra.
    - rewrite Rplus_0_l. now apply ei_small. }
  assert (0 < e * norm_pdf ((f - m) / (s + e)) <= e * norm_pdf 0) by nra. lra.
Qed.
Lemma normal_functions x : prob_below 0 1 x (norm_cdf x) /\ norm_pdf x = gauss 0 1 x.
Proof.
  split; [apply cdf_integral|]. rewrite gauss_density by lra. unfold normal_density.
  replace ((x - 0) / 1) with x by field. field.
Qed.
Lemma ei_unique f m s v w : expected_improvement f m s v -> expected_improvement f m s w -> v = w.
Proof.
  intros H K. destruct (ei_value _ _ _ _ H) as [[P ->]|[Z ->]], (ei_value _ _ _ _ K) as [[P' ->]|[Z' ->]]; auto; lra.
Qed.
Lemma ei_monotone f m s v f' m' s' v' : expected_improvement f m s v -> expected_improvement f' m' s' v' ->
  f - m <= f' - m' -> s <= s' -> v <= v' /\ (s < s' -> v < v').
Proof. intros. split; [eapply ei_mono; eauto|]. intros. eapply ei_mono_strict; eauto. Qed.
