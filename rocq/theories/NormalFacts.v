(** The Gaussian integral and the facts about the normal distribution used for the acquisitions. *)
From Coq Require Import Reals Lra Lia.
From Coquelicot Require Import Coquelicot.
From Verif Require Import Normal.
Local Open Scope R_scope.

(** ** the Gaussian integral *)
Definition gA (x : R) : R := RInt (fun t => exp (- t ^ 2)) 0 x.
Definition gB (x : R) : R := RInt (fun t => exp (- (x ^ 2 * (1 + t ^ 2))) / (1 + t ^ 2)) 0 1.

Lemma cont_of (f : R -> R) x : ex_derive f x -> continuous f x.
Proof. apply (ex_derive_continuous (V := R_NormedModule)). Qed.
Lemma exr_of (f : R -> R) a b : (forall x, continuous f x) -> ex_RInt f a b.
Proof. intros H. apply (ex_RInt_continuous (V := R_CompleteNormedModule)). auto. Qed.
Lemma exp_cont x : continuous (fun t => exp (- t ^ 2)) x.
Proof. apply cont_of. auto_derive. auto. Qed.
Lemma p1 t : 1 + t ^ 2 <> 0.
Proof. pose proof (pow2_ge_0 t). lra. Qed.
Lemma gA_derive x : is_derive gA x (exp (- x ^ 2)).
Proof.
  apply (is_derive_RInt (V := R_NormedModule) (fun t => exp (- t ^ 2)) gA 0 x).
  - exists (mkposreal _ Rlt_0_1). intros y _. unfold gA. apply (RInt_correct (V := R_CompleteNormedModule)). apply exr_of, exp_cont.
  - apply exp_cont.
Qed.
Lemma gB_in x t : Derive (fun u => exp (- (u ^ 2 * (1 + t ^ 2))) / (1 + t ^ 2)) x = - (2 * x * exp (- (x ^ 2 * (1 + t ^ 2)))).
Proof. apply is_derive_unique. auto_derive; auto. simpl. field. pose proof (pow2_ge_0 t). simpl in *. lra. Qed.
Lemma gB_cont x t : continuous (fun t => exp (- (x ^ 2 * (1 + t ^ 2))) / (1 + t ^ 2)) t.
Proof. apply cont_of. auto_derive. apply p1. Qed.
Lemma gB_derive x : is_derive gB x (RInt (fun t => - (2 * x * exp (- (x ^ 2 * (1 + t ^ 2))))) 0 1).
Proof.
  rewrite <- (RInt_ext (fun t => Derive (fun u => exp (- (u ^ 2 * (1 + t ^ 2))) / (1 + t ^ 2)) x)).
  2: { intros t _. apply gB_in. }
  apply (is_derive_RInt_param (fun x t => exp (- (x ^ 2 * (1 + t ^ 2))) / (1 + t ^ 2))).
  - exists (mkposreal _ Rlt_0_1). intros y _ t _. auto_derive. auto.
  - intros t _. apply continuity_2d_pt_ext with (fun u v => - (2 * u * exp (- (u ^ 2 * (1 + v ^ 2))))).
    { intros u v. symmetry. apply gB_in. }
    apply continuity_2d_pt_opp. apply continuity_2d_pt_mult.
    + apply continuity_2d_pt_mult; [apply continuity_2d_pt_const|apply continuity_2d_pt_id1].
    + apply (continuity_1d_2d_pt_comp exp).
      * apply derivable_continuous, derivable_exp.
      * apply continuity_2d_pt_opp. simpl. repeat first [apply continuity_2d_pt_mult|apply continuity_2d_pt_plus|apply continuity_2d_pt_const|apply continuity_2d_pt_id1|apply continuity_2d_pt_id2].
  - exists (mkposreal _ Rlt_0_1). intros y _. apply exr_of, gB_cont.
Qed.
Lemma gB_value x : RInt (fun t => - (2 * x * exp (- (x ^ 2 * (1 + t ^ 2))))) 0 1 = - (2 * exp (- x ^ 2) * gA x).
Proof.
  rewrite (RInt_ext _ (fun t => scal (- (2 * exp (- x ^ 2))) (x * exp (- (x * t + 0) ^ 2)))).
  2: { intros t _. unfold scal; simpl; unfold mult; simpl.
       replace (- (x * (x * 1) * (1 + t * (t * 1)))) with (- (x * (x * 1)) + - ((x * t + 0) * ((x * t + 0) * 1))) by ring.
       rewrite exp_plus. ring. }
  rewrite (RInt_scal (V := R_CompleteNormedModule)).
  2: { apply exr_of. intros t. apply cont_of. auto_derive. auto. }
  pose proof (RInt_comp_lin (V := R_CompleteNormedModule) (fun t => exp (- t ^ 2)) x 0 0 1) as H.
  unfold scal in *. simpl in *. unfold mult in *. simpl in *. rewrite H.
  - unfold gA. replace (x * 0 + 0) with 0 by ring. replace (x * 1 + 0) with x by ring. simpl. ring.
  - apply exr_of. intros t. apply cont_of. auto_derive. auto.
Qed.
Lemma g_const x : gA x ^ 2 + gB x = PI / 4.
Proof.
  assert (D : forall y, is_derive (fun x => gA x ^ 2 + gB x) y 0).
  { intros y. pose proof (gA_derive y) as HA. pose proof (gB_derive y) as HB. rewrite gB_value in HB.
    replace 0 with (plus (2 * gA y * exp (- y ^ 2)) (- (2 * exp (- y ^ 2) * gA y))) by (unfold plus; simpl; ring).
    apply (is_derive_plus (V := R_NormedModule)); auto.
replace (2 * gA y * exp (- y ^ 2)) with (INR 2 * exp (- y ^ 2) * gA y ^ pred 2) by (simpl; ring).
    apply is_derive_pow; auto. }
  assert (E : gA x ^ 2 + gB x = gA 0 ^ 2 + gB 0).
  { destruct (MVT_gen (fun x => gA x ^ 2 + gB x) 0 x (fun _ => 0)) as (c & _ & Hc).
    - intros; apply D.
    - intros y _. apply continuity_pt_filterlim. apply (ex_derive_continuous (V := R_NormedModule) (fun x => gA x ^ 2 + gB x)). eexists; apply D.
    - lra. }
  rewrite E. unfold gA, gB. rewrite RInt_point. unfold zero; simpl.
  rewrite (RInt_ext _ (fun t => / (1 + t ^ 2))).
  2: { intros t _. replace (- (0 * (0 * 1) * (1 + t * (t * 1)))) with 0 by ring. rewrite exp_0. apply Rmult_1_l. }
  rewrite (is_RInt_unique _ 0 1 (minus (atan 1) (atan 0))).
  - rewrite atan_0, atan_1. unfold minus, plus, opp; simpl. ring.
  - apply (is_RInt_derive (V := R_CompleteNormedModule) atan).
    + intros y _. apply is_derive_Reals, derivable_pt_lim_atan.
    + intros y _. apply cont_of. auto_derive. apply p1.
Qed.

Lemma gB_bound x : 0 <= gB x <= exp (- x ^ 2).
Proof.
  unfold gB. split.
  - apply RInt_ge_0; [lra|apply exr_of, gB_cont|]. intros t _. apply Rlt_le, Rdiv_lt_0_compat; [apply exp_pos|]. pose proof (pow2_ge_0 t). lra.
  - replace (exp (- x ^ 2)) with (RInt (fun _ => exp (- x ^ 2)) 0 1).
    2: { rewrite RInt_const. unfold scal; simpl; unfold mult; simpl. ring. }
    apply RInt_le; [lra|apply exr_of, gB_cont|apply exr_of; intros; apply continuous_const|].
    intros t _. pose proof (pow2_ge_0 t). pose proof (pow2_ge_0 x).
    assert (exp (- (x ^ 2 * (1 + t ^ 2))) <= exp (- x ^ 2)).
    { destruct (Req_dec (x ^ 2 * t ^ 2) 0) as [Z|Z].
      - replace (x ^ 2 * (1 + t ^ 2)) with (x ^ 2 + x ^ 2 * t ^ 2) by ring. rewrite Z, Rplus_0_r. lra.
      - apply Rlt_le, exp_increasing. assert (0 <= x ^ 2 * t ^ 2) by (now apply Rmult_le_pos). lra. }
    pose proof (exp_pos (- (x ^ 2 * (1 + t ^ 2)))).
    apply Rle_trans with (exp (- (x ^ 2 * (1 + t ^ 2)))); auto.
    unfold Rdiv. rewrite <- (Rmult_1_r (exp (- (x ^ 2 * (1 + t ^ 2))))) at 2. apply Rmult_le_compat_l; [lra|].
    rewrite <- Rinv_1. apply Rinv_le_contravar; lra.
Qed.
(** tails: exp decays faster than any line *)
Lemma exp_tail x : 0 < x -> exp (- x ^ 2) <= / x.
Proof.
  intros H. rewrite exp_Ropp. apply Rinv_le_contravar; auto.
  apply Rle_trans with (1 + x ^ 2); [pose proof (pow2_ge_0 (x - 1)); nra|]. apply exp_ineq1_le.
Qed.
Lemma gA_pos x : 0 <= x -> 0 <= gA x.
Proof. intros H. apply RInt_ge_0; auto; [apply exr_of, exp_cont|]. intros; apply Rlt_le, exp_pos. Qed.
(** [|sqrt pi / 2 - gA x| <= 1 / x] *)
Lemma gA_tail x : 0 < x -> 0 <= sqrt PI / 2 - gA x <= 2 * / x.
Proof.
  intros H. pose proof (g_const x) as E. pose proof (gB_bound x) as [B1 B2]. pose proof (gA_pos x (Rlt_le _ _ H)) as P.
  pose proof (exp_tail x H) as T. pose proof PI_RGT_0 as PI0. pose proof PI_4 as PI4.
  assert (S : (sqrt PI / 2) ^ 2 = PI / 4).
  { replace ((sqrt PI / 2) ^ 2) with (sqrt PI * sqrt PI / 4) by field. rewrite sqrt_sqrt; lra. }
  assert (SP : 1 / 2 <= sqrt PI / 2).
  { assert (1 <= sqrt PI); [|lra]. rewrite <- sqrt_1. apply sqrt_le_1_alt. pose proof PI_ineq 0. unfold tg_alt, PI_tg in *; simpl in *; lra. }
  assert (0 < / x) by (now apply Rinv_0_lt_compat).
  split; nra.
Qed.

(** ** the distribution *)
Definition nP (x : R) : R := RInt norm_pdf 0 x.
Lemma sqrt_2PI : 0 < sqrt (2 * PI).
Proof. apply sqrt_lt_R0. pose proof PI_RGT_0. lra. Qed.
Lemma pdf_pos x : 0 < norm_pdf x.
Proof. apply Rdiv_lt_0_compat; [apply exp_pos|apply sqrt_2PI]. Qed.
Lemma pdf_derive x : is_derive norm_pdf x (- x * norm_pdf x).
Proof. unfold norm_pdf. pose proof sqrt_2PI. auto_derive; auto. unfold Rdiv. simpl. field. lra. Qed.
Lemma pdf_cont x : continuous norm_pdf x.
Proof. apply cont_of. eexists. apply pdf_derive. Qed.
Lemma pdf_even x : norm_pdf (- x) = norm_pdf x.
Proof. unfold norm_pdf. now replace ((- x) ^ 2) with (x ^ 2) by ring. Qed.
Lemma pdf_max x : norm_pdf x <= norm_pdf 0.
Proof.
  unfold norm_pdf, Rdiv. apply Rmult_le_compat_r; [apply Rlt_le, Rinv_0_lt_compat, sqrt_2PI|].
  replace (- (0 ^ 2 * / 2)) with 0 by ring. rewrite exp_0. pose proof (pow2_ge_0 x).
  destruct (Req_dec (x ^ 2) 0) as [->|N]; [replace (- (0 * / 2)) with 0 by ring; rewrite exp_0; lra|].
  rewrite <- exp_0. apply Rlt_le, exp_increasing. lra.
Qed.
Lemma pdf_0 : norm_pdf 0 = / sqrt (2 * PI).
Proof. unfold norm_pdf. replace (- (0 ^ 2 / 2)) with 0 by field. rewrite exp_0. field. pose proof sqrt_2PI. lra. Qed.
Lemma pdf_0_bound : norm_pdf 0 <= 5 / 12.
Proof.
  rewrite pdf_0. replace (5 / 12) with (/ (12 / 5)) by field. apply Rinv_le_contravar; [lra|].
  rewrite <- (sqrt_square (12 / 5)) by lra. apply sqrt_le_1_alt. pose proof PI2_3_2. lra.
Qed.
Lemma nP_derive x : is_derive nP x (norm_pdf x).
Proof.
  apply (is_derive_RInt (V := R_NormedModule) norm_pdf nP 0 x).
  - exists (mkposreal _ Rlt_0_1). intros y _. unfold nP. apply (RInt_correct (V := R_CompleteNormedModule)). apply exr_of, pdf_cont.
  - apply pdf_cont.
Qed.
Lemma sqrt2 : 0 < sqrt 2.
Proof. apply sqrt_lt_R0. lra. Qed.
Lemma nP_gA x : nP x = gA (x / sqrt 2) / sqrt PI.
Proof.
  pose proof sqrt2 as S2. assert (SP : 0 < sqrt PI) by apply sqrt_lt_R0, PI_RGT_0.
  unfold nP, gA.
  rewrite (RInt_ext _ (fun t => scal (/ sqrt PI) (/ sqrt 2 * exp (- (/ sqrt 2 * t + 0) ^ 2)))).
  2: { intros t _. unfold norm_pdf, scal; simpl; unfold mult; simpl. rewrite sqrt_mult; [|lra|apply Rlt_le, PI_RGT_0].
       replace (- ((/ sqrt 2 * t + 0) * ((/ sqrt 2 * t + 0) * 1))) with (- (t * (t * 1) / 2)).
       - unfold Rdiv. rewrite Rinv_mult. apply Rmult_eq_compat_l with (r := 1) || idtac. ring.
       - replace (/ 2) with (/ sqrt 2 * / sqrt 2); [unfold Rdiv; replace (/ 2) with (/ sqrt 2 * / sqrt 2); [ring|]|];
           rewrite <- Rinv_mult, sqrt_sqrt; lra. }
  rewrite (RInt_scal (V := R_CompleteNormedModule)).
  2: { apply exr_of. intros t. apply cont_of. auto_derive. auto. }
  pose proof (RInt_comp_lin (V := R_CompleteNormedModule) (fun t => exp (- t ^ 2)) (/ sqrt 2) 0 0 x) as H.
  unfold scal in *. simpl in *. unfold mult in *. simpl in *. rewrite H.
  - replace (/ sqrt 2 * 0 + 0) with 0 by ring. replace (/ sqrt 2 * x + 0) with (x / sqrt 2) by (unfold Rdiv; ring).
    unfold Rdiv. apply Rmult_comm.
  - apply exr_of. intros t. apply cont_of. auto_derive. auto.
Qed.
Lemma nP_odd x : nP (- x) = - nP x.
Proof.
  assert (D : forall y, is_derive (fun x => nP x + nP (- x)) y 0).
  { intros y. replace 0 with (plus (norm_pdf y) (- norm_pdf (- y))) by (rewrite pdf_even; unfold plus; simpl; ring).
    apply (is_derive_plus (V := R_NormedModule)); [apply nP_derive|].
    replace (- norm_pdf (- y)) with (scal (-1) (norm_pdf (- y))) by (unfold scal; simpl; unfold mult; simpl; ring).
    apply (is_derive_comp (V := R_NormedModule) nP Ropp); [apply nP_derive|]. auto_derive; auto. }
  destruct (MVT_gen (fun x => nP x + nP (- x)) 0 x (fun _ => 0)) as (c & _ & Hc).
  - intros; apply D.
  - intros y _. apply continuity_pt_filterlim. apply (ex_derive_continuous (V := R_NormedModule) (fun x => nP x + nP (- x))). eexists; apply D.
  - rewrite Ropp_0 in Hc. assert (Z : nP 0 = 0) by (unfold nP; rewrite RInt_point; reflexivity). rewrite Z in Hc. lra.
Qed.
Lemma nP_tail x : 0 < x -> 0 <= 1 / 2 - nP x <= 4 * / x.
Proof.
  intros H. pose proof sqrt2 as S2. assert (SP : 0 < sqrt PI) by apply sqrt_lt_R0, PI_RGT_0.
  assert (0 < x / sqrt 2) as H2 by (apply Rdiv_lt_0_compat; lra).
  pose proof (gA_tail _ H2) as [T1 T2]. rewrite nP_gA.
  replace (1 / 2 - gA (x / sqrt 2) / sqrt PI) with ((sqrt PI / 2 - gA (x / sqrt 2)) / sqrt PI) by (field; lra).
  assert (1 <= sqrt PI).
  { rewrite <- sqrt_1. apply sqrt_le_1_alt. pose proof PI_ineq 0. unfold tg_alt, PI_tg in *; simpl in *; lra. }
  assert (sqrt 2 <= 2). { rewrite <- (sqrt_square 2) at 2 by lra. apply sqrt_le_1_alt. lra. }
  split; [apply Rdiv_le_0_compat; lra|].
  apply Rle_trans with ((sqrt PI / 2 - gA (x / sqrt 2)) / 1).
  - unfold Rdiv at 1 3. apply Rmult_le_compat_l; auto. apply Rinv_le_contravar; lra.
  - apply Rle_trans with (2 * / (x / sqrt 2)); [lra|]. replace (/ (x / sqrt 2)) with (sqrt 2 * / x) by (field; lra).
    assert (0 < / x) by (now apply Rinv_0_lt_compat). nra.
Qed.
Lemma lim_tail (f : R -> R) l C : (forall x, 0 < x -> Rabs (f x - l) <= C * / x) -> filterlim f (Rbar_locally p_infty) (locally l).
Proof.
  intros H. apply filterlim_locally. intros eps. exists (Rmax 1 ((Rabs C + 1) / eps)). intros x Hx.
  assert (1 < x) by (eapply Rle_lt_trans; [apply Rmax_l|eauto]).
  assert ((Rabs C + 1) / eps < x) by (eapply Rle_lt_trans; [apply Rmax_r|eauto]).
  unfold ball; simpl. unfold AbsRing_ball, abs, minus, plus, opp; simpl.
  eapply Rle_lt_trans; [apply H; lra|]. pose proof (cond_pos eps) as E.
  apply Rmult_lt_reg_r with x; [lra|]. rewrite Rmult_assoc, Rinv_l by lra.
  apply (Rmult_lt_compat_l eps) in H1; auto. replace (eps * ((Rabs C + 1) / eps)) with (Rabs C + 1) in H1 by (field; lra).
  pose proof (Rle_abs C). lra.
Qed.
Lemma lim_m (f : R -> R) l : filterlim (fun x => f (- x)) (Rbar_locally p_infty) (locally l) -> filterlim f (Rbar_locally m_infty) (locally l).
Proof.
  intros H. apply filterlim_ext with (fun x => f (- - x)); [intros; now rewrite Ropp_involutive|].
  apply (filterlim_comp _ _ _ Ropp (fun x => f (- x)) _ (Rbar_locally p_infty)); auto.
  intros P [M HM]. exists (- M). intros x Hx. apply HM. lra.
Qed.
Lemma nP_lim_p : filterlim nP (Rbar_locally p_infty) (locally (1 / 2)).
Proof. apply lim_tail with 4. intros x H. pose proof (nP_tail x H) as [A B]. rewrite Rabs_minus_sym, Rabs_right; lra. Qed.
Lemma nP_lim_m : filterlim nP (Rbar_locally m_infty) (locally (- (1 / 2))).
Proof.
  apply lim_m, lim_tail with 4. intros x H. pose proof (nP_tail x H) as [A B]. rewrite nP_odd.
  replace (- nP x - - (1 / 2)) with (1 / 2 - nP x) by ring. rewrite Rabs_right; lra.
Qed.

Lemma lim_at (F : R -> R) x : filterlim F (at_point x) (locally (F x)).
Proof. intros P HP. exact (locally_singleton _ _ HP). Qed.
Lemma gen_primitive {Fa Fb : (R -> Prop) -> Prop} {FFa : Filter Fa} {FFb : Filter Fb} (F f : R -> R) la lb :
  (forall x, is_derive F x (f x)) -> (forall x, continuous f x) -> filterlim F Fa (locally la) -> filterlim F Fb (locally lb) ->
  is_RInt_gen f Fa Fb (lb - la).
Proof.
  intros D C La Lb. assert (E : forall x, Derive F x = f x) by (intros; now apply is_derive_unique).
  apply is_RInt_gen_ext with (Derive F). { apply filter_forall. intros ab x _. apply E. }
  apply is_RInt_gen_Derive; auto; apply filter_forall; intros ab x _.
  - eexists; apply D.
  - apply continuous_ext with f; auto.
Qed.
Lemma cdf_gen x : is_RInt_gen norm_pdf (Rbar_locally m_infty) (at_point x) (1 / 2 + nP x).
Proof.
  replace (1 / 2 + nP x) with (nP x - - (1 / 2)) by ring.
  apply (gen_primitive nP); auto using nP_derive, pdf_cont, nP_lim_m, lim_at.
Qed.
Lemma cdf_nP x : norm_cdf x = 1 / 2 + nP x.
Proof. apply (is_RInt_gen_unique (V := R_CompleteNormedModule)). apply cdf_gen. Qed.
Lemma cdf_is x : is_RInt_gen norm_pdf (Rbar_locally m_infty) (at_point x) (norm_cdf x).
Proof. rewrite cdf_nP. apply cdf_gen. Qed.
Lemma pdf_total : is_RInt_gen norm_pdf (Rbar_locally m_infty) (Rbar_locally p_infty) 1.
Proof.
  replace 1 with (1 / 2 - - (1 / 2)) by field. apply (gen_primitive nP); auto using nP_derive, pdf_cont, nP_lim_m, nP_lim_p.
Qed.
Lemma cdf_derive x : is_derive norm_cdf x (norm_pdf x).
Proof.
  apply is_derive_ext with (fun x => 1 / 2 + nP x). { intros; now rewrite cdf_nP. }
  replace (norm_pdf x) with (plus 0 (norm_pdf x)) by (unfold plus; simpl; ring).
  apply (is_derive_plus (V := R_NormedModule)); [apply (is_derive_const (V := R_NormedModule))|apply nP_derive].
Qed.
Lemma cdf_opp x : norm_cdf (- x) = 1 - norm_cdf x.
Proof. rewrite !cdf_nP, nP_odd. lra. Qed.
Lemma cdf_0 : norm_cdf 0 = 1 / 2.
Proof. pose proof (cdf_opp 0). rewrite Ropp_0 in H. lra. Qed.

Lemma increasing_of (F f : R -> R) : (forall x, is_derive F x (f x)) -> (forall x, 0 < f x) -> forall x y, x < y -> F x < F y.
Proof.
  intros D P x y H. destruct (MVT_gen F x y f) as (c & _ & Hc).
  - intros; apply D.
  - intros z _. apply continuity_pt_filterlim. apply (ex_derive_continuous (V := R_NormedModule) F). eexists; apply D.
  - pose proof (P c). nra.
Qed.
Lemma cdf_increasing x y : x < y -> norm_cdf x < norm_cdf y.
Proof. apply (increasing_of _ norm_pdf); auto using cdf_derive, pdf_pos. Qed.
Lemma cdf_le x y : x <= y -> norm_cdf x <= norm_cdf y.
Proof. intros [H| ->]; [left; now apply cdf_increasing|lra]. Qed.
Lemma cdf_lt_1 x : norm_cdf x < 1.
Proof.
  apply Rlt_le_trans with (norm_cdf (Rabs x + 1)); [apply cdf_increasing; pose proof (Rle_abs x); lra|].
  rewrite cdf_nP. assert (0 < Rabs x + 1) as P by (pose proof (Rabs_pos x); lra). pose proof (nP_tail _ P). lra.
Qed.
Lemma cdf_gt_0 x : 0 < norm_cdf x.
Proof. pose proof (cdf_lt_1 (- x)). rewrite cdf_opp in H. lra. Qed.
Lemma cdf_lim_m : filterlim norm_cdf (Rbar_locally m_infty) (locally 0).
Proof.
  apply filterlim_ext with (fun x => 1 / 2 + nP x). { intros; now rewrite cdf_nP. }
  apply lim_m, lim_tail with 4. intros x H. pose proof (nP_tail x H). rewrite nP_odd.
  replace (1 / 2 + - nP x - 0) with (1 / 2 - nP x) by ring. rewrite Rabs_right; lra.
Qed.
Lemma cdf_lim_p : filterlim norm_cdf (Rbar_locally p_infty) (locally 1).
Proof.
  apply filterlim_ext with (fun x => 1 / 2 + nP x). { intros; now rewrite cdf_nP. }
  apply lim_tail with 4. intros x H. pose proof (nP_tail x H).
  rewrite Rabs_minus_sym. replace (1 - (1 / 2 + nP x)) with (1 / 2 - nP x) by field. rewrite Rabs_right; lra.
Qed.
Lemma pdf_tail x : 0 < x -> Rabs (norm_pdf x - 0) <= 2 * / x.
Proof.
  intros H. rewrite Rminus_0_r, Rabs_right by (apply Rle_ge, Rlt_le, pdf_pos). unfold norm_pdf.
  assert (1 <= sqrt (2 * PI)). { rewrite <- sqrt_1. apply sqrt_le_1_alt. pose proof PI2_3_2. lra. }
  assert (E : exp (- (x ^ 2 / 2)) <= 2 * / x).
  { rewrite exp_Ropp. replace (2 * / x) with (/ (x / 2)) by (field; lra). apply Rinv_le_contravar; [lra|].
    apply Rle_trans with (1 + x ^ 2 / 2); [pose proof (pow2_ge_0 (x - 1)); nra|]. apply exp_ineq1_le. }
  apply Rle_trans with (exp (- (x ^ 2 / 2)) / 1); [|lra].
  unfold Rdiv at 1 3. apply Rmult_le_compat_l; [apply Rlt_le, exp_pos|]. apply Rinv_le_contravar; lra.
Qed.
Lemma pdf_lim_p : filterlim norm_pdf (Rbar_locally p_infty) (locally 0).
Proof. apply lim_tail with 2, pdf_tail. Qed.
Lemma pdf_lim_m : filterlim norm_pdf (Rbar_locally m_infty) (locally 0).
Proof. apply lim_m, lim_tail with 2. intros x. rewrite pdf_even. apply pdf_tail. Qed.

(** ** the improvement function [h z = z Phi z + phi z] *)
Definition nh (z : R) : R := z * norm_cdf z + norm_pdf z.
Definition ei_exact (u s : R) : R := u * norm_cdf (u / s) + s * norm_pdf (u / s).
Lemma ei_nh u s : 0 < s -> ei_exact u s = s * nh (u / s).
Proof. intros H. unfold ei_exact, nh. field. lra. Qed.
Lemma nh_derive z : is_derive nh z (norm_cdf z).
Proof.
  unfold nh. replace (norm_cdf z) with (plus (plus (norm_cdf z) (z * norm_pdf z)) (- z * norm_pdf z)) by (unfold plus; simpl; ring).
  apply (is_derive_plus (V := R_NormedModule)); [|apply pdf_derive].
  replace (plus (norm_cdf z) (z * norm_pdf z)) with (plus (mult 1 (norm_cdf z)) (mult z (norm_pdf z))) by (unfold plus, mult; simpl; ring).
  apply (is_derive_mult (fun z => z) norm_cdf); [apply (is_derive_id (K := R_AbsRing))|apply cdf_derive|]. intros; apply Rmult_comm.
Qed.
Lemma nh_increasing x y : x < y -> nh x < nh y.
Proof. apply (increasing_of _ norm_cdf); auto using nh_derive, cdf_gt_0. Qed.
(** the primitive of [(z - t) phi t] *)
Lemma prim_derive z t : is_derive (fun t => z * norm_cdf t + norm_pdf t) t ((z - t) * norm_pdf t).
Proof.
  replace ((z - t) * norm_pdf t) with (plus (scal z (norm_pdf t)) (- t * norm_pdf t)) by (unfold plus, scal; simpl; unfold mult; simpl; ring).
  apply (is_derive_plus (V := R_NormedModule)); [|apply pdf_derive]. apply is_derive_scal, cdf_derive.
Qed.
Lemma prim_le z a : a <= z -> z * norm_cdf a + norm_pdf a <= nh z.
Proof.
  intros H. destruct (MVT_gen (fun t => z * norm_cdf t + norm_pdf t) a z (fun t => (z - t) * norm_pdf t)) as (c & Hc & E).
  - intros; apply prim_derive.
  - intros t _. apply continuity_pt_filterlim. apply (ex_derive_continuous (V := R_NormedModule) (fun t => z * norm_cdf t + norm_pdf t)). eexists; apply prim_derive.
  - rewrite Rmin_left, Rmax_right in Hc by auto. unfold nh.
    assert (0 <= (z - c) * norm_pdf c * (z - a)); [|lra].
    apply Rmult_le_pos; [|lra]. apply Rmult_le_pos; [lra|apply Rlt_le, pdf_pos].
Qed.
Lemma prim_lim_m u s : filterlim (fun t => u * norm_cdf t + s * norm_pdf t) (Rbar_locally m_infty) (locally 0).
Proof.
  replace 0 with (plus (scal u 0) (scal s 0)) by (unfold plus, scal; simpl; unfold mult; simpl; ring).
  apply (filterlim_comp_2 (G := locally (scal (V := R_ModuleSpace) u 0)) (H := locally (scal (V := R_ModuleSpace) s 0))).
  - apply (filterlim_comp _ _ _ norm_cdf (fun x => scal (V := R_ModuleSpace) u x) _ (locally 0)); [apply cdf_lim_m|].
    apply (filterlim_scal_r (V := R_NormedModule) u 0).
  - apply (filterlim_comp _ _ _ norm_pdf (fun x => scal (V := R_ModuleSpace) s x) _ (locally 0)); [apply pdf_lim_m|].
    apply (filterlim_scal_r (V := R_NormedModule) s 0).
  - apply (filterlim_plus (V := R_NormedModule)).
Qed.
Lemma nh_ge_0 z : 0 <= nh z.
Proof.
  apply (filterlim_le (F := Rbar_locally m_infty) (fun t => z * norm_cdf t + 1 * norm_pdf t) (fun _ => nh z) 0 (nh z)).
  - exists z. intros t H. rewrite Rmult_1_l. apply prim_le. lra.
  - apply (prim_lim_m z 1).
  - apply filterlim_const.
Qed.
Lemma nh_pos z : 0 < nh z.
Proof. apply Rle_lt_trans with (nh (z - 1)); [apply nh_ge_0|apply nh_increasing; lra]. Qed.
Lemma nh_opp z : nh (- z) = nh z - z.
Proof. unfold nh. rewrite cdf_opp, pdf_even. ring. Qed.
Lemma nh_gt z : z < nh z.
Proof. pose proof (nh_pos (- z)). rewrite nh_opp in H. lra. Qed.
Lemma nh_0 : nh 0 = norm_pdf 0.
Proof. unfold nh. ring. Qed.
Lemma nh_upper z : nh z <= Rmax z 0 + norm_pdf 0.
Proof.
  rewrite <- nh_0. destruct (Rle_lt_dec z 0) as [H|H].
  - rewrite Rmax_right by auto. destruct H as [H| ->]; [|lra]. apply nh_increasing in H. lra.
  - rewrite Rmax_left by lra. assert (- z < 0) by lra. apply nh_increasing in H0. rewrite nh_opp in H0. lra.
Qed.
Lemma ei_ge u s : 0 < s -> 0 < ei_exact u s /\ u < ei_exact u s.
Proof.
  intros H. rewrite ei_nh by auto. split; [apply Rmult_lt_0_compat; auto using nh_pos|].
  pose proof (nh_gt (u / s)) as N. apply (Rmult_lt_compat_l s) in N; auto. replace (s * (u / s)) with u in N by (field; lra). auto.
Qed.
Lemma ei_mono_u u u' s : 0 < s -> u < u' -> ei_exact u s < ei_exact u' s.
Proof.
  intros H L. rewrite !ei_nh by auto. apply Rmult_lt_compat_l; auto. apply nh_increasing.
  unfold Rdiv. apply Rmult_lt_compat_r; auto. now apply Rinv_0_lt_compat.
Qed.
Lemma ei_derive_s u s : 0 < s -> is_derive (ei_exact u) s (norm_pdf (u / s)).
Proof.
  intros H. unfold ei_exact.
  assert (D : is_derive (fun s => u / s) s (- u / (s * s))). { auto_derive; [lra|]. field. lra. }
  pose proof (is_derive_comp (V := R_NormedModule) norm_cdf (fun s => u / s) s _ _ (cdf_derive (u / s)) D) as D1.
  pose proof (is_derive_comp (V := R_NormedModule) norm_pdf (fun s => u / s) s _ _ (pdf_derive (u / s)) D) as D2.
  unfold scal in D1, D2; simpl in D1, D2; unfold mult in D1, D2; simpl in D1, D2.
  replace (norm_pdf (u / s)) with (plus (scal u (- u / (s * s) * norm_pdf (u / s)))
    (plus (mult 1 (norm_pdf (u / s))) (mult s (- u / (s * s) * (- (u / s) * norm_pdf (u / s)))))) .
  2: { unfold plus, scal; simpl; unfold mult; simpl. field. lra. }
  apply (is_derive_plus (V := R_NormedModule)).
  - apply is_derive_scal. exact D1.
  - apply (is_derive_mult (fun s => s) (fun s => norm_pdf (u / s))); [apply (is_derive_id (K := R_AbsRing))|exact D2|]. intros; apply Rmult_comm.
Qed.
Lemma ei_step_s u s e : 0 < s -> 0 < e -> 0 < ei_exact u (s + e) - ei_exact u s <= e * norm_pdf 0.
Proof.
  intros H He. destruct (MVT_gen (ei_exact u) s (s + e) (fun s => norm_pdf (u / s))) as (c & Hc & E).
  - intros t Ht. rewrite Rmin_left, Rmax_right in Ht by lra. apply ei_derive_s. lra.
  - intros t Ht. rewrite Rmin_left, Rmax_right in Ht by lra. apply continuity_pt_filterlim.
    apply (ex_derive_continuous (V := R_NormedModule) (ei_exact u)). eexists; apply ei_derive_s. lra.
  - rewrite E. pose proof (pdf_pos (u / c)). pose proof (pdf_max (u / c)). nra.
Qed.
Lemma ei_small u e : 0 < e -> Rmax u 0 < ei_exact u e <= Rmax u 0 + e * norm_pdf 0.
Proof.
  intros H. split; [apply Rmax_lub_lt; now apply ei_ge|].
  rewrite ei_nh by auto. pose proof (nh_upper (u / e)) as N. apply (Rmult_le_compat_l e) in N; [|lra].
  rewrite Rmult_plus_distr_l in N. replace (e * Rmax (u / e) 0) with (Rmax u 0) in N; auto.
  unfold Rmax. destruct (Rle_dec u 0) as [L|L], (Rle_dec (u / e) 0) as [M|M]; try (field; lra).
  - exfalso. apply M. unfold Rdiv. assert (0 < / e) by (now apply Rinv_0_lt_compat). nra.
  - exfalso. apply L. apply (Rmult_le_compat_l e) in M; [|lra]. replace (e * (u / e)) with u in M by (field; lra). lra.
Qed.
(** the formula with an offset [e] in the ratio, as the acquisitions compute it *)
Lemma ei_offset u s e : 0 < s + e -> u * norm_cdf (u / (s + e)) + s * norm_pdf (u / (s + e)) = ei_exact u (s + e) - e * norm_pdf (u / (s + e)).
Proof. intros. unfold ei_exact. ring. Qed.

(** ** the expectation *)
Definition normal_density (m s y : R) : R := norm_pdf ((y - m) / s) / s.
Lemma lin_lim_p m s : 0 < s -> filterlim (fun y => (y - m) / s) (Rbar_locally p_infty) (Rbar_locally p_infty).
Proof.
  intros H P [M HM]. exists (M * s + m). intros y Hy. apply HM.
  apply Rmult_lt_reg_r with s; auto. unfold Rdiv. rewrite Rmult_assoc, Rinv_l by lra. lra.
Qed.
Lemma lin_lim_m m s : 0 < s -> filterlim (fun y => (y - m) / s) (Rbar_locally m_infty) (Rbar_locally m_infty).
Proof.
  intros H P [M HM]. exists (M * s + m). intros y Hy. apply HM.
  apply Rmult_lt_reg_r with s; auto. unfold Rdiv. rewrite Rmult_assoc, Rinv_l by lra. lra.
Qed.
Lemma density_total m s : 0 < s -> is_RInt_gen (normal_density m s) (Rbar_locally m_infty) (Rbar_locally p_infty) 1.
Proof.
  intros H. replace 1 with (1 - 0) by ring. apply (gen_primitive (fun y => norm_cdf ((y - m) / s))).
  - intros y. unfold normal_density. replace (norm_pdf ((y - m) / s) / s) with (scal (/ s) (norm_pdf ((y - m) / s))) by (unfold scal; simpl; unfold mult; simpl; field; lra).
    apply (is_derive_comp (V := R_NormedModule) norm_cdf); [apply cdf_derive|]. auto_derive; [lra|field; lra].
  - intros y. apply cont_of. unfold normal_density, norm_pdf. pose proof sqrt_2PI. auto_derive. lra.
  - apply (filterlim_comp _ _ _ _ norm_cdf _ (Rbar_locally m_infty)); [now apply lin_lim_m|apply cdf_lim_m].
  - apply (filterlim_comp _ _ _ _ norm_cdf _ (Rbar_locally p_infty)); [now apply lin_lim_p|apply cdf_lim_p].
Qed.
Lemma ei_expectation f m s : 0 < s ->
  is_RInt_gen (fun y => Rmax (f - y) 0 * normal_density m s y) (Rbar_locally m_infty) (Rbar_locally p_infty) (ei_exact (f - m) s).
Proof.
  intros H. set (F y := (f - m) * norm_cdf ((y - m) / s) + s * norm_pdf ((y - m) / s)).
  assert (DF : forall y, is_derive F y ((f - y) * normal_density m s y)).
  { intros y. unfold F, normal_density.
    assert (D : is_derive (fun y => (y - m) / s) y (/ s)). { auto_derive; [lra|]. field. lra. }
    pose proof (is_derive_comp (V := R_NormedModule) norm_cdf _ y _ _ (cdf_derive ((y - m) / s)) D) as D1.
    pose proof (is_derive_comp (V := R_NormedModule) norm_pdf _ y _ _ (pdf_derive ((y - m) / s)) D) as D2.
    replace ((f - y) * (norm_pdf ((y - m) / s) / s)) with (plus (scal (f - m) (scal (/ s) (norm_pdf ((y - m) / s))))
      (scal s (scal (/ s) (- ((y - m) / s) * norm_pdf ((y - m) / s))))).
    2: { unfold plus, scal; simpl; unfold mult; simpl. field. lra. }
    apply (is_derive_plus (V := R_NormedModule)); apply is_derive_scal; assumption. }
  assert (CD : forall y, continuous (fun y => (f - y) * normal_density m s y) y).
  { intros y. apply cont_of. unfold normal_density, norm_pdf. pose proof sqrt_2PI. auto_derive. lra. }
  replace (ei_exact (f - m) s) with (plus (F f - 0) 0) by (unfold plus, F, ei_exact; simpl; ring).
  apply (is_RInt_gen_Chasles (V := R_NormedModule) _ f).
  - apply is_RInt_gen_ext with (fun y => (f - y) * normal_density m s y).
    { apply Filter_prod with (fun x => x < f) (fun x => x = f); [now exists f|reflexivity|].
      intros x y Hx -> z Hz. simpl in *. rewrite Rmin_left, Rmax_right in Hz by lra. rewrite Rmax_left; lra. }
    apply (gen_primitive F); auto using lim_at.
    apply (filterlim_comp _ _ _ (fun y => (y - m) / s) (fun t => (f - m) * norm_cdf t + s * norm_pdf t) _ (Rbar_locally m_infty)); [now apply lin_lim_m|apply prim_lim_m].
  - apply is_RInt_gen_ext with (fun _ => 0).
    { apply Filter_prod with (fun x => x = f) (fun x => f < x); [reflexivity|now exists f|].
      intros x y -> Hy z Hz. simpl in *. rewrite Rmin_left, Rmax_right in Hz by lra. rewrite Rmax_right by lra. ring. }
    assert (E : is_RInt_gen (V := R_NormedModule) (fun _ => 0) (at_point f) (Rbar_locally p_infty) (0 - 0)); [|now rewrite Rminus_0_r in E].
    apply (gen_primitive (fun _ => 0)).
    + intros; apply (is_derive_const (V := R_NormedModule)).
    + intros; apply continuous_const.
    + apply filterlim_const.
    + apply filterlim_const.
Qed.
