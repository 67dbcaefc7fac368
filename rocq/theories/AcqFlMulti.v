(** When the values of the multi-fidelity acquisitions are NaN or infinite in binary64. *)
From Coq Require Import ZArith Reals Bool List Lia Lra Permutation.
From Flocq Require Import Core IEEE754.BinarySingleNaN.
From Verif Require Import Fl NpList KernelFl Spec FlFacts FlErr FlMag NpFacts OutputFlMain AcqFl AcqFlSpec AcqFlFacts AcqFlMain.
Import ListNotations.
Local Open Scope R_scope.

Lemma mul1 x : isfin (fmul x f1) = isfin x /\ isnan (fmul x f1) = isnan x /\ (isfin x = true -> B2R (fmul x f1) = B2R x).
Proof.
  destruct (isfin x) eqn:F.
  - assert (E : rnd (B2R x * B2R f1) = B2R x) by (rewrite B2R_f1, Rmult_1_r; apply rnd_B2R).
    destruct (fmul_spec x f1 F eq_refl) as [A B]; [rewrite E; apply B2R_lt_fmax|]. rewrite B, (isfin_not_nan _ B), (isfin_not_nan _ F). rewrite A, E. auto.
  - destruct x; try discriminate F; repeat split; discriminate.
Qed.
Lemma eps_ge s : isfin s = true -> flt s eps64 = false -> bpow radix2 (-52) <= B2R s.
Proof.
  intros F L. destruct eps_val as [Fe Ve]. destruct (Rle_dec (bpow radix2 (-52)) (B2R s)) as [H|H]; [exact H|].
  assert (flt s eps64 = true); [|congruence]. apply flt_finite; [exact F|exact Fe|]. rewrite Ve. lra.
Qed.
Lemma den_abs m ml s k : mag_le 300 m -> mag_le 300 ml -> mag_le 300 s -> 0 <= B2R s -> (-1074 <= k)%Z ->
  let d := fadd (fabs (fsub m ml)) s in
  mag_le 302 d /\ 0 <= B2R d /\ (bpow radix2 k <= Rabs (B2R m - B2R ml) \/ bpow radix2 k <= B2R s -> bpow radix2 k <= B2R d) /\
  (B2R m = B2R ml -> B2R s = 0 -> B2R d = 0).
Proof.
  intros Hm Hl Hs Ps Hk. cbv zeta. pose proof (mag_sub 300 m ml ltac:(lia) Hm Hl) as U. pose proof (mag_abs _ _ U) as A.
  pose proof (mag_add 301 _ s ltac:(lia) A (mag_weaken 300 301 s ltac:(lia) Hs)) as D. split; [exact D|].
  pose proof (fsub_fin m ml (proj1 Hm) (proj1 Hl) (proj1 U)) as VU.
  assert (VA : B2R (fabs (fsub m ml)) = Rabs (rnd (B2R m - B2R ml))) by (unfold fabs; rewrite B2R_Babs; now rewrite VU).
  pose proof (fadd_fin _ s (proj1 A) (proj1 Hs) (proj1 D)) as VD. rewrite VD, VA.
  assert (R0 : 0 <= Rabs (rnd (B2R m - B2R ml))) by apply Rabs_pos. split; [rewrite <- rnd_0; apply rnd_le; lra|]. split.
  - intros H. rewrite <- (rnd_bpow k Hk). apply rnd_le. destruct H as [H|H]; [|lra].
    assert (bpow radix2 k <= Rabs (rnd (B2R m - B2R ml))); [|lra]. unfold rnd. apply abs_round_ge_generic; [exact _|exact _|apply generic_format_bpow; unfold SpecFloat.fexp, SpecFloat.emin; lia|exact H].
  - intros E Z. rewrite E, Z, Rminus_diag_eq by reflexivity. rewrite rnd_0, Rabs_R0, Rplus_0_r. apply rnd_0.
Qed.
Lemma div_mag sl d k : mag_le 300 sl -> isfin d = true -> bpow radix2 (- k) <= B2R d -> (0 <= k <= 700)%Z -> mag_le (300 + k) (fdiv sl d).
Proof.
  intros Hs Fd Hd Hk. pose proof (bpow_gt_0 radix2 (- k)) as P.
  assert (Q : Rabs (B2R sl / B2R d) <= bpow radix2 (300 + k)).
  { unfold Rdiv. rewrite Rabs_mult, Rabs_inv, (Rabs_pos_eq (B2R d)) by lra. rewrite bpow_plus. apply Rmult_le_compat; [apply Rabs_pos|apply Rlt_le, Rinv_0_lt_compat; lra|apply Hs|].
    replace (bpow radix2 k) with (/ bpow radix2 (- k)) by (rewrite bpow_opp; apply Rinv_inv). apply Rinv_le; [exact P|exact Hd]. }
  pose proof (rnd_abs_le _ (300 + k) ltac:(lia) Q) as RQ. destruct (fdiv_spec sl d (proj1 Hs)) as [A B]; [lra| |].
  - apply Rle_lt_trans with (1 := RQ). apply bpow_lt_fmax. lia.
  - split; [exact B|]. rewrite A. exact RQ.
Qed.

Section Multi.
Variables (cdf pdf : b64 -> b64) (np_prod : list b64 -> b64).
Hypothesis K : normal_kind cdf pdf.
Let imp := improvement64 cdf pdf.

Lemma map_nth {A B} (f : A -> B) l j : nth_error (map f l) j = option_map f (nth_error l j).
Proof. revert j. induction l as [|a l IH]; intros [|j]; cbn; auto. Qed.

(** [VFEI] *)
Theorem vfei_high s fmin x mu sd : u_hierarchical s = true -> moderate_finite fmin -> u_predict_std s x = Ok (mu, sd) -> predicted mu sd ->
  exists V, vfei_eval64 cdf pdf s fmin 0 x = Ok V /\ forall j m t, nth_error mu j = Some m -> nth_error sd j = Some t ->
  exists v, nth_error V j = Some v /\ (flt t eps64 = true -> isfin v = true /\ val v = 0) /\
    (flt t eps64 = false -> (isfin v = true <-> isfin m = true /\ isfin t = true) /\ (isnan v = true <-> isnan m = true \/ isnan t = true \/ m = finf \/ (m = fninf /\ t = finf))).
Proof.
  intros Hh Hf Hp [Hm Hs]. unfold vfei_eval64. rewrite Hh, Hp. cbn [bind fst snd]. eexists. split; [reflexivity|].
  intros j m t Em Es. rewrite !map2_nth, Em, Es. eexists. split; [reflexivity|]. destruct (Forall_nth _ _ _ _ Hs Es) as [Ms Ds]. split; intros L; rewrite L.
  - unfold val. rewrite fopp_fin, fopp_val. split; [reflexivity|]. cbn. ring.
  - rewrite fopp_fin, fopp_nan. destruct ten_nano_val as (F & P). apply (imp_table cdf pdf K); [now apply mod_mag|exact (Forall_nth _ _ _ _ Hm Em)|exact Ms|exact Ds|]. now apply den_add.
Qed.
Theorem vfei_low s fmin x mu sd mul sdl beta : u_hierarchical s = true -> moderate_finite fmin -> u_predict_std s x = Ok (mu, sd) -> u_predict_lf_std s x = Ok (mul, sdl) ->
  u_beta s = Ok beta -> predicted mu sd ->
  exists V, vfei_eval64 cdf pdf s fmin 1 x = Ok V /\ forall j m t tl, nth_error mu j = Some m -> nth_error sd j = Some t -> nth_error sdl j = Some tl ->
  exists v, nth_error V j = Some v /\ (flt (fmul beta tl) eps64 = true -> isfin v = true /\ val v = 0) /\
    (flt (fmul beta tl) eps64 = false -> (isfin v = true <-> isfin m = true /\ isfin t = true) /\ (isnan v = true <-> isnan m = true \/ isnan t = true \/ m = finf \/ (m = fninf /\ t = finf))).
Proof.
  intros Hh Hf Hp Hl Hb [Hm Hs]. unfold vfei_eval64. rewrite Hh, Hp. cbn [bind fst snd]. rewrite Hl. cbn [bind fst snd]. rewrite Hb. cbn [bind]. eexists. split; [reflexivity|].
  intros j m t tl Em Es El. rewrite !map2_nth, Em, Es, map_nth, El. cbn [option_map]. eexists. split; [reflexivity|]. destruct (Forall_nth _ _ _ _ Hs Es) as [Ms Ds]. split; intros L; rewrite L.
  - unfold val. rewrite fopp_fin, fopp_val. split; [reflexivity|]. cbn. ring.
  - rewrite fopp_fin, fopp_nan. destruct ten_nano_val as (F & P). apply (imp_table cdf pdf K); [now apply mod_mag|exact (Forall_nth _ _ _ _ Hm Em)|exact Ms|exact Ds|]. now apply den_add.
Qed.

(** [AugmentedEI] *)
Lemma best_mag s xb fm : steady s -> u_predict s [xb] = Ok fm -> mag_le 300 (nth 0 fm fnan).
Proof. intros H E. destruct (H _ _ E) as [L F]. destruct fm as [|v [|]]; try discriminate L. apply mod_mag. now inversion F. Qed.
Theorem aei_high s cr x mu sd V : steady s -> u_predict_std s x = Ok (mu, sd) -> predicted mu sd -> length mu = length x -> aei_eval64 cdf pdf s cr 0 x = Ok V ->
  forall j m t, nth_error mu j = Some m -> nth_error sd j = Some t ->
  exists v, nth_error V j = Some v /\ (flt t eps64 = true -> isfin v = true /\ val v = 0) /\
    (flt t eps64 = false -> (isfin v = true <-> isfin m = true /\ isfin t = true) /\ (isnan v = true <-> isnan m = true \/ isnan t = true \/ m = finf \/ (m = fninf /\ t = finf))).
Proof.
  intros St Hp [Hm Hs] Lx. unfold aei_eval64. rewrite Hp. cbn [bind]. destruct (effective_best64 s) as [xb|]; [|discriminate]. cbn [bind]. destruct (u_predict s [xb]) as [fm|] eqn:Ef; [|discriminate]. cbn [bind mf_corr64 fst snd]. intros [= <-].
  pose proof (best_mag s xb fm St Ef) as Hf. intros j m t Em Es. rewrite !map2_nth, Em, Es, map_nth.
  destruct (nth_error x j) as [r|] eqn:Ex. 2: { apply nth_error_None in Ex. assert (j < length mu)%nat by (apply nth_error_Some; congruence). lia. }
  cbn [option_map]. eexists. split; [reflexivity|]. destruct (Forall_nth _ _ _ _ Hs Es) as [Ms Ds].
  split; intros L; rewrite L.
  - unfold val. destruct (mul1 f0) as (A1 & _ & A3). destruct (mul1 (fmul f0 f1)) as (B1 & _ & B3). rewrite fopp_fin, fopp_val, B1, A1. split; [reflexivity|]. rewrite B3, A3 by (try rewrite A1; reflexivity). cbn. ring.
  - set (w := improvement64 _ _ _ _ _ _). destruct (mul1 w) as (A1 & A2 & _). destruct (mul1 (fmul w f1)) as (B1 & B2 & _). rewrite fopp_fin, fopp_nan, B1, B2, A1, A2. unfold w.
    apply (imp_table cdf pdf K); [exact Hf|exact (Forall_nth _ _ _ _ Hm Em)|exact Ms|exact Ds|]. now apply den_self.
Qed.

Lemma pred_nth mu sd j m t : predicted_finite mu sd -> nth_error mu j = Some m -> nth_error sd j = Some t -> mag_le 300 m /\ mag_le 300 t /\ 0 <= B2R t.
Proof. intros [A B] Em Et. destruct (Forall_nth _ _ _ _ B Et) as [C D]. split; [|split]; [apply mod_mag; exact (Forall_nth _ _ _ _ A Em)|apply mod_mag; exact C|exact D]. Qed.
Lemma zero_mul x y : isfin x = true -> B2R x = 0 -> isfin y = true -> isfin (fmul x y) = true /\ B2R (fmul x y) = 0.
Proof.
  intros F Z G. destruct (fmul_spec x y F G) as [A B]; rewrite Z, Rmult_0_l, rnd_0 in *; [rewrite Rabs_R0; apply bpow_gt_0|]. now split.
Qed.
Lemma corr_cases m ml t tl : mag_le 300 m -> mag_le 300 ml -> mag_le 300 t -> 0 <= B2R t -> mag_le 300 tl -> 0 <= B2R tl ->
  let c := fdiv tl (fadd (fabs (fsub m ml)) t) in
  (flt t eps64 = false -> mag_le 352 c) /\
  (B2R m = B2R ml -> B2R t = 0 -> isfin c = false /\ fmul f0 c = fnan) /\
  (bpow radix2 (-600) <= Rabs (B2R m - B2R ml) \/ bpow radix2 (-600) <= B2R t -> isfin c = true).
Proof.
  intros Hm Hl Ht Pt Htl Ptl. cbv zeta. set (d := fadd _ _). split; [|split].
  - intros H. apply (div_mag tl d 52); [exact Htl| | |lia]; destruct (den_abs m ml t (-52) Hm Hl Ht Pt ltac:(lia)) as (D1 & _ & D3 & _); fold d in D1, D3; [apply D1|]. apply D3. right. apply eps_ge; [apply Ht|exact H].
  - intros H H0. destruct (den_abs m ml t (-52) Hm Hl Ht Pt ltac:(lia)) as (D1 & _ & _ & D4). fold d in D1, D4. specialize (D4 H H0). destruct (zero_case d (proj1 D1) D4) as [b ->]. destruct Htl as [F _]. destruct tl; try discriminate F; now split.
  - intros H. destruct (den_abs m ml t (-600) Hm Hl Ht Pt ltac:(lia)) as (D1 & _ & D3 & _). fold d in D1, D3. apply (div_mag tl d 600); [exact Htl|apply D1|now apply D3|lia].
Qed.
Lemma fmul_nonfin_0 a b : fmul f0 a = fnan -> fmul (fmul f0 a) b = fnan.
Proof. intros ->. reflexivity. Qed.
Theorem aei_low s cr x mu sd mul sdl V : steady s -> moderate_finite cr -> u_predict_std s x = Ok (mu, sd) -> u_predict_lf_std s x = Ok (mul, sdl) ->
  predicted_finite mu sd -> predicted_finite mul sdl -> aei_eval64 cdf pdf s cr 1 x = Ok V ->
  forall j m t ml tl, nth_error mu j = Some m -> nth_error sd j = Some t -> nth_error mul j = Some ml -> nth_error sdl j = Some tl ->
  exists v, nth_error V j = Some v /\ (flt t eps64 = false -> isfin v = true) /\
    (flt t eps64 = true -> / 2 ^ 600 <= Rabs (val m - val ml) \/ / 2 ^ 600 <= val t -> isfin v = true /\ val v = 0) /\
    (val m = val ml -> val t = 0 -> isnan v = true).
Proof.
  intros St Hc Hp Hl P1 P2. unfold aei_eval64. rewrite Hp. cbn [bind]. destruct (effective_best64 s) as [xb|]; [|discriminate]. cbn [bind]. destruct (u_predict s [xb]) as [fm|] eqn:Ef; [|discriminate]. cbn [bind mf_corr64]. rewrite Hp. cbn [bind]. rewrite Hl. cbn [bind fst snd]. intros [= <-].
  pose proof (best_mag s xb fm St Ef) as Hf. apply mod_mag in Hc. intros j m t ml tl Em Et Eml Etl. rewrite !map2_nth, Em, Et, Eml, Etl. eexists. split; [reflexivity|].
  destruct (pred_nth _ _ _ _ _ P1 Em Et) as (Mm & Mt & Pt). destruct (pred_nth _ _ _ _ _ P2 Eml Etl) as (Mml & Mtl & Ptl).
  destruct (corr_cases m ml t tl Mm Mml Mt Pt Mtl Ptl) as (C1 & C2 & C3). set (c := fdiv tl _) in *.
  assert (E600 : / 2 ^ 600 = bpow radix2 (-600)) by (rewrite pow_bpow; symmetry; apply (bpow_opp radix2 600)).
  split; [|split].
  - intros L. rewrite L. rewrite fopp_fin. set (w := improvement64 _ _ _ _ _ _). assert (W : mag_le 302 w).
    { apply (imp_fin cdf pdf K); [exact Hf|exact Mm|exact Mt|]. apply fdiv_nnan; [apply (mag_sub 300); [lia|exact Hf|exact Mm]|apply Mt|]. pose proof (eps_ge t (proj1 Mt) L). pose proof (bpow_gt_0 radix2 (-52)). lra. }
    apply (mag_mul (302 + 352) 300); [lia| |exact Hc]. apply mag_mul; [lia|exact W|now apply C1].
  - intros L Q. rewrite L. rewrite E600 in Q. pose proof (C3 Q) as Fc. destruct (zero_mul f0 c eq_refl eq_refl Fc) as [A1 A2]. destruct (zero_mul _ cr A1 A2 (proj1 Hc)) as [B1 B2].
    unfold val. rewrite fopp_fin, fopp_val, B2. split; [exact B1|ring].
  - intros Q1 Q2. destruct (C2 Q1 Q2) as [_ N]. destruct eps_val as [Fe Ve]. assert (L : flt t eps64 = true) by (apply flt_finite; [apply Mt|exact Fe|]; unfold val in Q2; rewrite Ve, Q2; apply bpow_gt_0).
    rewrite L, N. reflexivity.
Qed.

(** [ExtendedPI] *)
Lemma crowd_mag s f x eta e : crowds np_prod s -> crowding64 np_prod s f x = Ok eta -> In e eta -> mag_le 300 e.
Proof.
  intros H. unfold crowding64. assert (G : forall c, (c = u_corr s x (u_xh s) 0 \/ c = u_corr s x (u_xl s) 1) -> match c with Some c => Ok (map np_prod c) | None => Raise TypeError end = Ok eta -> In e eta -> mag_le 300 e).
  { intros [c|] D; [|discriminate]. intros [= <-] I. apply in_map_iff in I. destruct I as (r & <- & I). apply mod_mag. assert (F : Forall (fun r => moderate_finite (np_prod r)) c) by (destruct D as [D|D]; symmetry in D; exact (H _ _ _ _ D)). rewrite Forall_forall in F. now apply F. }
  destruct f as [|[|f]]; [apply G; now left|apply G; now right|discriminate].
Qed.
Lemma pi_mag fmin m t : mag_le 300 fmin -> mag_le 300 m -> mag_le 300 t -> 0 <= B2R t -> mag_le 0 (fopp (if flt t eps64 then f0 else cdf (fdiv (fsub fmin m) t))).
Proof.
  intros Hf Hm Ht Pt. assert (U : forall x, mag_le 0 x -> mag_le 0 (fopp x)) by (intros x [A B]; split; [now rewrite fopp_fin|now rewrite fopp_val, Rabs_Ropp]). apply U.
  destruct (flt t eps64) eqn:L.
  - split; [reflexivity|]. cbn [f0 B2R]. rewrite Rabs_R0. apply bpow_ge_0.
  - apply unit_mag, (cdf_unit cdf pdf K). apply fdiv_nnan; [apply (mag_sub 300); [lia|exact Hf|exact Hm]|apply Ht|]. pose proof (eps_ge t (proj1 Ht) L). pose proof (bpow_gt_0 radix2 (-52)). lra.
Qed.
Theorem epi_high s fmin cr x mu sd V : crowds np_prod s -> moderate_finite fmin -> u_predict_std s x = Ok (mu, sd) -> predicted_finite mu sd -> epi_eval64 cdf np_prod s fmin cr 0 x = Ok V ->
  Forall (Forall (fun v => isfin v = true)) V.
Proof.
  intros Cr Hf Hp P. unfold epi_eval64. rewrite Hp. cbn [bind fst snd mf_corr64]. destruct (crowding64 np_prod s 0 x) as [eta|] eqn:Ec; [|discriminate]. cbn [bind]. intros [= <-]. apply mod_mag in Hf.
  apply Forall_forall. intros rw I. apply In_nth_error in I. destruct I as [j Ej]. rewrite !map2_nth, map_nth in Ej.
  destruct (nth_error mu j) as [m|] eqn:Em; [|discriminate]. destruct (nth_error sd j) as [t|] eqn:Et; [|discriminate]. destruct (nth_error x j) as [r|]; [|discriminate]. cbn [option_map] in Ej. injection Ej as <-.
  apply Forall_forall. intros v I. apply in_map_iff in I. destruct I as (e & <- & I). destruct (pred_nth _ _ _ _ _ P Em Et) as (Mm & Mt & Pt).
  assert (M1 : mag_le 0 f1). { split; [reflexivity|]. rewrite B2R_f1, Rabs_R1. cbn. lra. }
  apply (mag_mul (0 + 0 + 0) 300); [lia| |now apply (crowd_mag s 0 x eta)]. apply mag_mul; [lia| |exact M1]. apply mag_mul; [lia| |exact M1]. now apply pi_mag.
Qed.
Theorem epi_low s fmin cr x mu sd mul sdl V : crowds np_prod s -> moderate_finite fmin -> moderate_finite cr -> u_predict_std s x = Ok (mu, sd) -> u_predict_lf_std s x = Ok (mul, sdl) ->
  predicted_finite mu sd -> predicted_finite mul sdl -> epi_eval64 cdf np_prod s fmin cr 1 x = Ok V ->
  forall j m t ml tl, nth_error mu j = Some m -> nth_error sd j = Some t -> nth_error mul j = Some ml -> nth_error sdl j = Some tl ->
  exists vs, nth_error V j = Some vs /\ (flt t eps64 = false -> Forall (fun v => isfin v = true) vs) /\
    (val m = val ml -> val t = 0 -> Forall (fun v => isnan v = true) vs).
Proof.
  intros Cr Hf Hc Hp Hl P1 P2. unfold epi_eval64. rewrite Hp. cbn [bind fst snd mf_corr64]. rewrite Hp. cbn [bind]. rewrite Hl. cbn [bind fst snd]. destruct (crowding64 np_prod s 1 x) as [eta|] eqn:Ec; [|discriminate]. cbn [bind]. intros [= <-]. apply mod_mag in Hf, Hc.
  intros j m t ml tl Em Et Eml Etl. rewrite !map2_nth, Em, Et, Eml, Etl. eexists. split; [reflexivity|].
  destruct (pred_nth _ _ _ _ _ P1 Em Et) as (Mm & Mt & Pt). destruct (pred_nth _ _ _ _ _ P2 Eml Etl) as (Mml & Mtl & Ptl).
  destruct (corr_cases m ml t tl Mm Mml Mt Pt Mtl Ptl) as (C1 & C2 & _). set (c := fdiv tl _) in *. split.
  - intros L. pose proof (pi_mag fmin m t Hf Mm Mt Pt) as PM. apply Forall_forall. intros v I. apply in_map_iff in I. destruct I as (e & <- & I).
    apply (mag_mul (0 + 352 + 300) 300); [lia| |now apply (crowd_mag s 1 x eta)]. apply mag_mul; [lia| |exact Hc]. apply mag_mul; [lia|exact PM|now apply C1].
  - intros Q1 Q2. destruct (C2 Q1 Q2) as [NF N]. destruct eps_val as [Fe Ve]. assert (L : flt t eps64 = true) by (apply flt_finite; [apply Mt|exact Fe|]; unfold val in Q2; rewrite Ve, Q2; apply bpow_gt_0).
    rewrite L. assert (N' : fmul (fopp f0) c = fnan) by (destruct c; try discriminate NF; reflexivity). rewrite N'. apply Forall_forall. intros v I. apply in_map_iff in I. destruct I as (e & <- & I). reflexivity.
Qed.
End Multi.

(** [VFLCB] *)
Theorem vflcb_high s k0 k1 cr x h l : u_predict_std s x = Ok h -> u_predict_lf_std s x = Ok l -> vflcb_eval64 s k0 k1 cr 0 x = lcb_eval64 (u_predict_std s) k0 k1 x.
Proof. intros Hh Hl. unfold vflcb_eval64, lcb_eval64. rewrite Hh. cbn [bind]. now rewrite Hl. Qed.
Theorem vflcb_low s k0 k1 cr x mu sd mul sdl : u_predict_std s x = Ok (mu, sd) -> u_predict_lf_std s x = Ok (mul, sdl) -> 
  moderate_finite k0 -> moderate_finite k1 -> 0 < val k0 -> 0 < val k1 -> predicted mu (map (fun t => fmul t cr) sdl) ->
  exists V, vflcb_eval64 s k0 k1 cr 1 x = Ok V /\ forall j m t, nth_error mu j = Some m -> nth_error sdl j = Some t ->
  exists v, nth_error V j = Some v /\ (isfin v = true <-> isfin m = true /\ isfin (fmul t cr) = true) /\
    (isnan v = true <-> isnan m = true \/ isnan (fmul t cr) = true \/ (m = finf /\ fmul t cr = finf)).
Proof.
  intros Hh Hl H0 H1 P0 P1 [Hm Hs]. unfold vflcb_eval64. rewrite Hh. cbn [bind]. rewrite Hl. cbn [bind fst snd]. eexists. split; [reflexivity|].
  intros j m t Em Et. assert (Et' : nth_error (map (fun t => fmul t cr) sdl) j = Some (fmul t cr)) by (rewrite map_nth, Et; reflexivity). rewrite map2_nth, Em, Et'. eexists. split; [reflexivity|].
  destruct (Forall_nth _ _ _ _ Hs Et') as [Ms Ds]. apply lcb_point; try assumption. exact (Forall_nth _ _ _ _ Hm Em).
Qed.
