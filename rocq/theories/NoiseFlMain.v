(** Standard deviations in binary64: signs, and the share of the noise. *)
From Coq Require Import ZArith Bool List Reals Lra Lia Psatz.
From Flocq Require Import Core IEEE754.BinarySingleNaN.
From Verif Require AcqFlErr.
From Verif Require Import Fl Spec NpList FlFacts FlMag KernelFl KernelFlSpec FlErr KernelFlFacts OutputFl OutputFlSpec OutputFlFacts OutputFlMain TrainFl CKTrainFl HKTrainFl SKTrainFl NoiseFlSpec.
Import ListNotations.
Local Open Scope R_scope.

Lemma nan_is x : isnan x = true -> x = fnan.
Proof. destruct x; try discriminate; reflexivity. Qed.
(** NaN or at least [lo] *)
Definition above (lo v : b64) : Prop := isnan v = true \/ fle lo v = true.
Lemma above_cases v : above f0 v -> isnan v = true \/ v = finf \/ (isfin v = true /\ 0 <= B2R v).
Proof.
  intros [N|L]; [now left|]. pose proof (fle_nnan_r _ _ L) as N. destruct (fin_or v N) as [F|[->| ->]]; [right; right|right; now left|discriminate L].
  split; [exact F|]. apply (fle_finite f0 v eq_refl F) in L. exact L.
Qed.
Lemma cases_above v : isnan v = true \/ v = finf \/ (isfin v = true /\ 0 <= B2R v) -> above f0 v.
Proof. intros [N|[->|[F V]]]; [now left|now right|right]. apply (fle_finite f0 v eq_refl F). exact V. Qed.
Lemma max_above x : above f0 (fmaximum x f0).
Proof.
  unfold fmaximum. destruct (isnan x) eqn:N; [now left|]. change (isnan f0) with false. cbn iota. destruct (flt x f0) eqn:L; [now right|]. right. now apply flt_false.
Qed.
Lemma square_above x : above f0 (fmul x x).
Proof.
  apply cases_above. destruct (isfin x) eqn:F.
  - generalize (Bmult_correct 53 1024 _ _ mode_NE x x). case Rlt_bool_spec; intros H.
    + intros (V & B & _). right. right. change (Bmult mode_NE x x) with (fmul x x) in *. unfold isfin in *. rewrite F in B. split; [exact B|]. rewrite V. change (round _ _ _ _) with (rnd (B2R x * B2R x)). rewrite <- rnd_0. apply rnd_le. nra.
    + intros A. right. left. rewrite xorb_nilpotent in A. unfold fmul. destruct (Bmult mode_NE x x) as [c|c| |c m e K]; cbn in A; try discriminate A. now injection A as ->.
  - destruct x as [c|c| |c m e K]; try discriminate F; [right; left; destruct c; reflexivity|now left].
Qed.
Lemma sqrt_fin x : isfin x = true -> 0 <= B2R x -> isfin (fsqrt x) = true /\ B2R (fsqrt x) = rnd (sqrt (B2R x)).
Proof.
  intros F P. destruct (Bsqrt_correct 53 1024 _ _ mode_NE x) as (V & B & _). change (Bsqrt mode_NE x) with (fsqrt x) in *. split; [|exact V].
  unfold isfin. rewrite B. destruct x as [c|c| |c m e K]; try discriminate F; [reflexivity|]. destruct c; [|reflexivity]. exfalso. assert (B2R (B754_finite true m e K) < 0) by (apply F2R_lt_0; reflexivity). lra.
Qed.
Lemma sqrt_above x : above f0 x -> above f0 (fsqrt x).
Proof.
  intros A. apply cases_above. destruct (above_cases x A) as [N|[->|[F P]]]; [rewrite (nan_is x N); now left|right; now left|]. right. right. destruct (sqrt_fin x F P) as [G V]. split; [exact G|]. rewrite V, <- rnd_0. apply rnd_le, sqrt_pos.
Qed.
Lemma sqrt_mono x y : above f0 x -> fle x y = true -> fle (fsqrt x) (fsqrt y) = true.
Proof.
  intros A L. destruct (above_cases x A) as [N|[->|[F P]]].
  - apply fle_nnan_l in L. congruence.
  - destruct (fin_or y (fle_nnan_r _ _ L)) as [Fy|[->| ->]]; try discriminate L; [|reflexivity]. destruct y as [c|c| |c m e K]; try discriminate Fy; try discriminate L.
  - destruct (sqrt_fin x F P) as [G V]. destruct (fin_or y (fle_nnan_r _ _ L)) as [Fy|[->| ->]].
    + apply (fle_finite x y F Fy) in L. destruct (sqrt_fin y Fy ltac:(lra)) as [G' V']. apply (fle_finite _ _ G G'). rewrite V, V'. apply rnd_le, sqrt_le_1_alt. exact L.
    + change (fsqrt finf) with finf. destruct (fsqrt x) as [c|c| |c m e K]; try discriminate G; [|destruct c]; reflexivity.
    + destruct x as [c|c| |c m e K]; try discriminate F; [|destruct c]; discriminate L.
Qed.
Lemma add_above e q : above f0 e -> above f0 q -> above q (fadd e q).
Proof.
  intros A B. destruct (above_cases e A) as [N|[->|[F P]]]; [rewrite (nan_is e N); now left| |].
  - destruct (above_cases q B) as [N|[->|[G Q]]]; [rewrite (nan_is q N); now left|now right|]. right. destruct q as [c|c| |c m e K]; try discriminate G; [|destruct c]; reflexivity.
  - destruct (above_cases q B) as [N|[->|[G Q]]]; [rewrite (nan_is q N); left; destruct e; reflexivity|right; destruct e; try discriminate F; reflexivity|].
    right. destruct (isfin (fadd e q)) eqn:H.
    + apply (fle_finite _ _ G H). rewrite (FlFacts.fadd_fin e q F G H), <- (rnd_B2R q) at 1. apply rnd_le. lra.
    + generalize (Bplus_correct 53 1024 _ _ mode_NE e q F G). case Rlt_bool_spec; intros I.
      * intros (_ & B' & _). unfold isfin, fadd in H. rewrite B' in H. discriminate H.
      * intros (V & S). assert (Se : Bsign e = false).
        { destruct (Bsign e) eqn:Ss; [exfalso|reflexivity]. symmetry in S. pose proof (neg_sign_le e Ss). pose proof (neg_sign_le q S). assert (Ze : B2R e = 0) by lra. assert (Zq : B2R q = 0) by lra. rewrite Ze, Zq, Rplus_0_r, round_0, Rabs_R0 in I by apply valid_rnd_N. pose proof (bpow_gt_0 radix2 1024). lra. }
        rewrite Se in V. assert (E : fadd e q = finf). { unfold fadd. destruct (Bplus mode_NE e q) as [c|c| |c m x K]; cbn in V; try discriminate V. now injection V as ->. }
        rewrite E. destruct q as [c|c| |c m x K]; try discriminate G; [|destruct c]; reflexivity.
Qed.
(** the total of an epistemic part and the noise *)
Lemma total_above x z : above f0 x -> above (fsqrt (fmul z z)) (fsqrt (fadd x (fmul z z))).
Proof.
  intros A. destruct (add_above x (fmul z z) A (square_above z)) as [N|L]; [left; now rewrite (nan_is _ N)|]. right. apply sqrt_mono; [apply square_above|exact L].
Qed.
Lemma above_deviation v : above f0 v -> deviation v.
Proof. intros A. exact (above_cases v A). Qed.
Lemma above_trans a b v : fle a b = true -> above b v -> above a v.
Proof. intros L [N|M]; [now left|right]. exact (fle_trans _ _ _ L M). Qed.
(** fsqrt (z * z) is |z| up to rounding *)
Lemma covers_of z v : isfin z = true -> / 2 ^ 500 <= Rabs (val z) -> above (fsqrt (fmul z z)) v -> covers z v.
Proof.
  intros F Z A. destruct A as [N|L]; [now left|]. right. unfold val in *.
  destruct (above_cases _ (square_above z)) as [N|[E|[G P]]].
  - rewrite (nan_is _ N) in L. discriminate L.
  - rewrite E in L. change (fsqrt finf) with finf in L. left. destruct (fin_or v (fle_nnan_r _ _ L)) as [Fv|[->| ->]]; [|reflexivity|discriminate L]. destruct v as [c|c| |c m e K]; try discriminate Fv; [|destruct c]; discriminate L.
  - destruct (fin_or v (fle_nnan_r _ _ L)) as [Fv|[->| ->]]; [right|now left|].
    + split; [exact Fv|]. destruct (sqrt_fin _ G P) as [Gs Vs]. apply (fle_finite _ _ Gs Fv) in L. eapply Rle_trans; [|exact L]. rewrite Vs.
      pose proof (AcqFlErr.fmul_fin z z F F G) as Vq. set (q := B2R (fmul z z)) in *. set (n := Rabs (B2R z)) in *. assert (n0 : 0 < n) by (apply Rlt_le_trans with (2 := Z); apply Rinv_0_lt_compat, pow_lt; lra).
      pose proof uro_pos as U. pose proof uro_val as UV. pose proof eta_pos as EP.
      assert (E2 : B2R z * B2R z = n * n). { unfold n. rewrite <- Rabs_mult. symmetry. apply Rabs_pos_eq. nra. }
      assert (En : eta <= uro * (n * n) /\ eta <= uro * n).
      { rewrite inv_pow in Z. assert (Hn : bpow radix2 (-500) <= n) by exact Z. unfold uro. split.
        - apply Rle_trans with (bpow radix2 (-53) * (bpow radix2 (-500) * bpow radix2 (-500))); [unfold eta; rewrite <- !bpow_plus; apply bpow_le; cbn; lia|]. apply Rmult_le_compat_l; [apply bpow_ge_0|]. apply Rmult_le_compat; try exact Hn; apply bpow_ge_0.
        - apply Rle_trans with (bpow radix2 (-53) * bpow radix2 (-500)); [unfold eta; rewrite <- bpow_plus; apply bpow_le; cbn; lia|]. apply Rmult_le_compat_l; [apply bpow_ge_0|exact Hn]. }
      destruct En as [En1 En2]. pose proof (rnd_err (B2R z * B2R z)) as Er. rewrite <- Vq, E2 in Er. rewrite (Rabs_pos_eq (n * n)) in Er by nra. apply Rabs_le_inv in Er.
      assert (Q : (n * (1 - 2 * uro)) * (n * (1 - 2 * uro)) <= q). { apply Rle_trans with (n * n * (1 - 2 * uro)); [|lra]. replace (n * (1 - 2 * uro) * (n * (1 - 2 * uro))) with (n * n * ((1 - 2 * uro) * (1 - 2 * uro))) by ring. apply Rmult_le_compat_l; [nra|]. rewrite UV. lra. }
      assert (SQ : n * (1 - 2 * uro) <= sqrt q). { rewrite <- (sqrt_square (n * (1 - 2 * uro))) by (apply Rmult_le_pos; [lra|rewrite UV; lra]). apply sqrt_le_1_alt. exact Q. }
      pose proof (rnd_err (sqrt q)) as Es. rewrite (Rabs_pos_eq (sqrt q)) in Es by apply sqrt_pos. apply Rabs_le_inv in Es.
      assert (SL : n * (1 - 2 * uro) * (1 - uro) <= sqrt q * (1 - uro)) by (apply Rmult_le_compat_r; [rewrite UV; lra|exact SQ]).
      assert (P50 : 2 ^ 50 = 1125899906842624) by ring. rewrite P50.
      assert (FINAL : n * (1 - / 1125899906842624) <= n * ((1 - 2 * uro) * (1 - uro) - uro)) by (apply Rmult_le_compat_l; [lra|rewrite UV; lra]). lra.
    + exfalso. pose proof (sqrt_above _ (square_above z)) as S. destruct (sqrt_fin _ G P) as [Gs _]. destruct (fsqrt (fmul z z)) as [c|c| |c m e K]; try discriminate Gs; [|destruct c]; discriminate L.
Qed.

Lemma forall_map {A B} (P : B -> Prop) (f : A -> B) l : (forall x, P (f x)) -> Forall P (map f l).
Proof. intros H. apply Forall_forall. intros y I. apply in_map_iff in I. destruct I as (x & <- & _). apply H. Qed.
Section Models.
Variables (np_sum : list b64 -> b64) (np_dot : list (b64 * b64) -> b64) (np_exp : b64 -> b64).
Variable np_solve : nat -> nat -> array -> array -> result array.
Variable basis : row -> row.
Variable p : nat.
Variable bounds : box.
Lemma gp_deviations o X means stds : predict_std64 np_sum np_dot np_exp np_solve basis p bounds o X = Ok (means, stds) -> Forall deviation stds.
Proof.
  unfold predict_std64. destruct (predict64 _ _ _ _ _ _ _ _); cbn [bind]; [|discriminate]. destruct (get64 (g_data o)); cbn [bind]; [|discriminate]. cbv zeta.
  destruct (get_rows (g_attr o aL) _); cbn [bind]; [|discriminate]. destruct (solve2 _ _ _ _ _); cbn [bind]; [|discriminate]. destruct (get_rows (g_attr o af) _); cbn [bind]; [|discriminate].
  destruct (get_rows (g_attr o ald) _); cbn [bind]; [|discriminate]. destruct (get_rows (g_attr o asigma2) _); cbn [bind]; [|discriminate]. destruct (solve2 _ _ _ _ _); cbn [bind]; [|discriminate].
  destruct (g_noise o); [|discriminate]. intros Q. injection Q as <- <-. apply forall_map. intros j. apply above_deviation, sqrt_above, max_above.
Qed.
Lemma hk_above o X means stds : hk_predict_std64 np_sum np_dot np_exp np_solve bounds o X = Ok (means, stds) ->
  exists noise, h_noise o = Some noise /\ Forall (above (fsqrt (fmul noise noise))) stds.
Proof.
  unfold hk_predict_std64. destruct (hk_predict64 _ _ _ _ _ _); cbn [bind]; [|discriminate]. destruct (get64 (h_data o)); cbn [bind]; [|discriminate]. cbv zeta.
  destruct (lf64_predict _ _ _ _ _ _); cbn [bind]; [|discriminate].
  destruct (get_rows (h_attr o aL) _); cbn [bind]; [|discriminate]. destruct (solve2 _ _ _ _ _); cbn [bind]; [|discriminate]. destruct (get_rows (h_attr o af) _); cbn [bind]; [|discriminate].
  destruct (get_rows (h_attr o asigma2) _); cbn [bind]; [|discriminate]. destruct (get_rows (h_attr o ald) _); cbn [bind]; [|discriminate]. destruct (solve2 _ _ _ _ _); cbn [bind]; [|discriminate].
  destruct (h_noise o) as [z|]; [|discriminate]. intros Q. injection Q as <- <-. exists z. split; [reflexivity|]. apply forall_map. intros j. apply total_above, square_above.
Qed.
Lemma ck_above o X o' means stds : ck_predict_std64 np_sum np_dot np_exp np_solve bounds o X = (o', Ok (means, stds)) ->
  exists noise, c_noise o' = Some noise /\ Forall (above (fsqrt (fmul noise noise))) stds.
Proof.
  unfold ck_predict_std64. destruct (ck_means64 _ _ _ _ _ _ _) as [[ms [[c LC] v]]|]; [|discriminate]. destruct (get64 (c_data o)); [|discriminate]. cbv zeta. destruct (solve2 _ _ _ _ _); [|discriminate].
  destruct (c_noise o) as [z|]; [|discriminate]. intros Q. injection Q as <- <- <-. eexists. split; [reflexivity|]. apply forall_map. intros j. apply total_above, square_above.
Qed.
Lemma above_both noise stds : Forall (above (fsqrt (fmul noise noise))) stds ->
  Forall deviation stds /\ (isfin noise = true -> / 2 ^ 500 <= Rabs (val noise) -> Forall (covers noise) stds).
Proof.
  intros H. split.
  - eapply Forall_impl; [|exact H]. cbv beta. intros v A. apply above_deviation. destruct (sqrt_above _ (square_above noise)) as [N|L]; [|exact (above_trans _ _ _ L A)]. destruct A as [N'|L]; [now left|]. apply fle_nnan_l in L. congruence.
  - intros F Z. eapply Forall_impl; [|exact H]. cbv beta. intros v. exact (covers_of noise v F Z).
Qed.
Lemma hk_deviations o X means stds : hk_predict_std64 np_sum np_dot np_exp np_solve bounds o X = Ok (means, stds) ->
  exists noise, h_noise o = Some noise /\ Forall deviation stds /\ (isfin noise = true -> / 2 ^ 500 <= Rabs (val noise) -> Forall (covers noise) stds).
Proof. intros H. destruct (hk_above o X means stds H) as (z & E & A). exists z. split; [exact E|exact (above_both z stds A)]. Qed.
Lemma ck_deviations o X o' means stds : ck_predict_std64 np_sum np_dot np_exp np_solve bounds o X = (o', Ok (means, stds)) ->
  exists noise, c_noise o' = Some noise /\ Forall deviation stds /\ (isfin noise = true -> / 2 ^ 500 <= Rabs (val noise) -> Forall (covers noise) stds).
Proof. intros H. destruct (ck_above o X o' means stds H) as (z & E & A). exists z. split; [exact E|exact (above_both z stds A)]. Qed.
Lemma mul_above x y : above f0 x -> above f0 y -> above f0 (fmul x y).
Proof.
  intros A B. apply cases_above. destruct (above_cases x A) as [N|[->|[F P]]]; [rewrite (nan_is x N); now left| |].
  - destruct (above_cases y B) as [N|[->|[G Q]]]; [rewrite (nan_is y N); now left|right; now left|]. destruct y as [c|c| |c m e K]; try discriminate G; [now left|]. destruct c; [|right; now left].
    exfalso. assert (B2R (B754_finite true m e K) < 0) by (apply F2R_lt_0; reflexivity). lra.
  - destruct (above_cases y B) as [N|[->|[G Q]]]; [rewrite (nan_is y N); left; destruct x; reflexivity| |].
    + destruct x as [c|c| |c m e K]; try discriminate F; [now left|]. destruct c; [|right; now left]. exfalso. assert (B2R (B754_finite true m e K) < 0) by (apply F2R_lt_0; reflexivity). lra.
    + destruct (isfin (fmul x y)) eqn:H.
      * right. right. split; [reflexivity|]. rewrite (AcqFlErr.fmul_fin x y F G H), <- rnd_0. apply rnd_le. apply Rmult_le_pos; assumption.
      * generalize (Bmult_correct 53 1024 _ _ mode_NE x y). case Rlt_bool_spec; intros I.
        -- intros (_ & B' & _). unfold isfin, fmul in *. rewrite B', F, G in H. discriminate H.
        -- assert (S : forall u : b64, isfin u = true -> 0 <= B2R u -> Bsign u = true -> B2R u = 0) by (intros u _ Pu Su; pose proof (neg_sign_le u Su); lra).
           destruct (Bsign x) eqn:Sx; [exfalso; rewrite (S x F P Sx), Rmult_0_l, round_0, Rabs_R0 in I by apply valid_rnd_N; pose proof (bpow_gt_0 radix2 1024); lra|].
           destruct (Bsign y) eqn:Sy; [exfalso; rewrite (S y G Q Sy), Rmult_0_r, round_0, Rabs_R0 in I by apply valid_rnd_N; pose proof (bpow_gt_0 radix2 1024); lra|].
           intros V. right. left. unfold fmul. destruct (Bmult mode_NE x y) as [c|c| |c m e K]; cbn in V; try discriminate V. now injection V as ->.
Qed.
Lemma sk_deviations o X means stds : sk_predict_std64 np_sum np_dot np_exp np_solve bounds o X = Ok (means, stds) -> Forall deviation stds.
Proof.
  unfold sk_predict_std64. destruct (predict_std64 _ _ _ _ _ _ _ (s_lf o) X) as [l|]; cbn [bind]; [|discriminate]. destruct (predict_std64 _ _ _ _ _ _ _ (s_disc o) X) as [e|]; cbn [bind]; [|discriminate].
  intros Q. injection Q as <- <-. apply forall_map. intros q. apply above_deviation, sqrt_above.
  destruct (add_above (fmul (fmul (s_rho o) (s_rho o)) (fmul (fst q) (fst q))) (fmul (snd q) (snd q)) (mul_above _ _ (square_above _) (square_above _)) (square_above _)) as [N|L]; [now left|].
  destruct (square_above (snd q)) as [N|M]; [apply fle_nnan_l in L; congruence|]. right. exact (fle_trans _ _ _ M L).
Qed.
End Models.
