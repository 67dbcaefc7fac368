(** How far the constrained and multi-fidelity acquisition values computed in binary64 are from the exact ones. *)
From Coq Require Import ZArith Reals Bool List Lia Lra Psatz Permutation.
From Flocq Require Import Core IEEE754.BinarySingleNaN.
From Verif Require Import Fl NpList KernelFl Spec FlFacts FlErr FlMag NpFacts OutputFlFacts OutputFlMain Normal NormalFacts AcqSpec AcqReal AcqFl AcqFlSpec AcqFlFacts AcqFlMain AcqFlMulti AcqFlErr.
Import ListNotations.
Local Open Scope R_scope.

Definition rprod (l : list R) : R := fold_right Rmult 1 l.
Lemma rprod_app l m : rprod (l ++ m) = rprod l * rprod m.
Proof. unfold rprod. induction l as [|a l IH]; cbn [fold_right app]; [ring|]. rewrite IH. ring. Qed.
Lemma rprod_perm l m : Permutation l m -> rprod l = rprod m.
Proof. unfold rprod. induction 1; cbn [fold_right]; try congruence. ring. Qed.
Lemma rprod_unit l : Forall (fun p => 0 <= p <= 1) l -> 0 <= rprod l <= 1.
Proof. unfold rprod. induction 1 as [|p l H F IH]; cbn [fold_right]; [lra|]. split; [apply Rmult_le_pos; lra|]. apply Rle_trans with (1 * 1); [apply Rmult_le_compat; lra|lra]. Qed.
(** a rounded product of numbers in [0,1] near numbers in [0,1] *)
Lemma prod_err d (l : list (b64 * R)) v : 0 <= d -> Forall (fun p => unit_closed (fst p) /\ 0 <= snd p <= 1 /\ Rabs (val (fst p) - snd p) <= d) l -> prod_of (map fst l) v ->
  unit_closed v /\ Rabs (val v - rprod (map snd l)) <= INR (length l) * (d + 2 * uro) - (match l with [] => 0 | _ => 2 * uro end).
Proof.
  intros Hd F H. remember (map fst l) as L eqn:EL. revert l EL F. induction H as [|x|L L1 L2 s1 s2 N1 N2 P H1 IH1 H2 IH2]; intros l EL F.
  - destruct l; [|discriminate]. split. { split; [reflexivity|]. unfold val. rewrite B2R_f1. lra. } unfold val. rewrite B2R_f1. cbn. rewrite Rminus_diag_eq, Rabs_R0 by reflexivity. lra.
  - destruct l as [|[a p] [|]]; try discriminate EL. injection EL as ->. inversion F as [|? ? (A & B & C) _]. cbn [fst snd] in *. split; [exact A|]. cbn [map rprod fold_right snd length INR]. rewrite Rmult_1_r. lra.
  - rewrite EL in P. apply Permutation_sym, Permutation_map_inv in P. destruct P as (l3 & E3 & P3). symmetry in E3. apply map_eq_app in E3. destruct E3 as (la & lb & -> & <- & <-).
    apply (Permutation_Forall P3) in F. apply Forall_app in F. destruct F as [Fa Fb]. destruct (IH1 la eq_refl Fa) as [U1 E1]. destruct (IH2 lb eq_refl Fb) as [U2 E2].
    assert (Va : forall l' : list (b64 * R), Forall (fun p => unit_closed (fst p) /\ 0 <= snd p <= 1 /\ Rabs (val (fst p) - snd p) <= d) l' -> 0 <= rprod (map snd l') <= 1).
    { intros l' G. apply rprod_unit, Forall_map. apply (Forall_impl _ (P := fun p : b64 * R => unit_closed (fst p) /\ 0 <= snd p <= 1 /\ Rabs (val (fst p) - snd p) <= d)); [|exact G]. tauto. }
    pose proof (Va la Fa) as Pa. pose proof (Va lb Fb) as Pb. clear Va.
    destruct U1 as [F1 V1], U2 as [F2 V2]. unfold val in *. destruct (unit_mul s1 s2 F1 F2 V1 (proj1 V2)) as (FM & C & D). split. { split; [exact FM|]. unfold val. lra. }
    rewrite (rprod_perm _ _ (Permutation_map snd P3)), map_app, rprod_app. rewrite (Permutation_length P3), app_length, plus_INR.
    destruct la as [|qa la]; [now elim N1|]. destruct lb as [|qb lb]; [now elim N2|]. destruct l as [|q l]; [apply Permutation_length in P3; discriminate P3|].
    set (na := INR (length (qa :: la))) in *. set (nb := INR (length (qb :: lb))) in *. set (pa := rprod (map snd (qa :: la))) in *. set (pb := rprod (map snd (qb :: lb))) in *.
    destruct (fmul_err s1 s2 F1 F2) as [_ EM]. { rewrite Rabs_pos_eq by (apply Rmult_le_pos; lra). apply Rle_trans with (1 * 1); [apply Rmult_le_compat; lra|]. pose proof big_pos. assert (1 <= big) by (change 1 with (bpow radix2 0); apply bpow_le; lia). lra. }
    set (M := B2R (fmul s1 s2)) in *. set (x1 := B2R s1) in *. set (x2 := B2R s2) in *. clearbody M x1 x2 na nb pa pb.
    assert (X12 : 0 <= x1 * x2 <= 1) by (split; [apply Rmult_le_pos; lra|replace 1 with (1 * 1) by ring; apply Rmult_le_compat; lra]). rewrite (Rabs_pos_eq (x1 * x2)) in EM by lra.
    destruct tiny as (T1 & Pe & VU & _). assert (eta <= uro) by (rewrite VU in *; lra). assert (uro * (x1 * x2) <= uro * 1) by (apply Rmult_le_compat_l; [rewrite VU; lra|lra]).
    replace (M - pa * pb) with ((M - x1 * x2) + ((x1 - pa) * x2 + pa * (x2 - pb))) by ring. apply Rle_trans with (1 := Rabs_triang _ _). pose proof (Rabs_triang ((x1 - pa) * x2) (pa * (x2 - pb))) as T. rewrite !Rabs_mult, (Rabs_pos_eq x2), (Rabs_pos_eq pa) in T by lra.
    assert (Rabs (x1 - pa) * x2 <= Rabs (x1 - pa) * 1) by (apply Rmult_le_compat_l; [apply Rabs_pos|lra]). assert (pa * Rabs (x2 - pb) <= 1 * Rabs (x2 - pb)) by (apply Rmult_le_compat_r; [apply Rabs_pos|lra]). lra.
Qed.

Section More.
Variables (cdf pdf : b64 -> b64) (np_prod : list b64 -> b64) (e : R).
Hypothesis K : normal_kind cdf pdf.
Hypothesis E0 : 0 <= e.
Hypothesis Near : normal_near e cdf pdf.

Lemma fsub_f0_r x : fsub x f0 = x. Proof. now destruct x as [[]|[]| |]. Qed.
Lemma fsub_f0_l x : isfin x = true -> isfin (fsub f0 x) = true /\ B2R (fsub f0 x) = - B2R x.
Proof.
  intros F. assert (E : rnd (B2R f0 - B2R x) = - B2R x). { cbn [f0 B2R]. replace (0 - B2R x) with (B2R (fopp x)) by (rewrite fopp_val; ring). rewrite rnd_B2R. apply fopp_val. }
  destruct (fsub_spec f0 x eq_refl F) as [A B]; [rewrite E, Rabs_Ropp; apply B2R_lt_fmax|]. split; [exact B|]. now rewrite A, E.
Qed.
Lemma term_err u s : mag_le 300 u -> mag_le 300 s -> 0 <= B2R s -> let c := cdf (fsub f0 (fdiv u (fadd s nano64))) in let q := norm_cdf ((0 - B2R u) / (B2R s + / 10 ^ 9)) in
  unit_closed c /\ 0 <= q <= 1 /\ Rabs (val c - q) <= e + 13 * uro.
Proof.
  intros Mu Ms Ps. cbv zeta. destruct (nano_den s Ms Ps) as (Fd & Ld & _ & Dd). assert (M0 : mag_le 300 f0). { split; [reflexivity|]. cbn [f0 B2R]. rewrite Rabs_R0. apply bpow_ge_0. }
  destruct (ratio_err u f0 (fadd s nano64) (B2R s + / 10 ^ 9) Mu M0 Fd Ld ltac:(lra) Dd) as (_ & _ & FZ & EZ). rewrite fsub_f0_r in FZ, EZ. set (Z := fdiv u _) in *. destruct (fsub_f0_l Z FZ) as [FY VY].
  replace (B2R u - B2R f0) with (B2R u) in EZ by (cbn [f0 B2R]; ring). replace ((0 - B2R u) / (B2R s + / 10 ^ 9)) with (- (B2R u / (B2R s + / 10 ^ 9))) by (field; lra). set (z := B2R u / _) in *.
  destruct (normal_at cdf pdf e Near (- z) (fsub f0 Z) FY) as [N _]. { rewrite VY, Rabs_Ropp. replace (- B2R Z - - z) with (- (B2R Z - z)) by ring. now rewrite Rabs_Ropp. }
  split; [now apply (cdf_unit cdf pdf K), isfin_not_nan|]. split; [|exact N]. pose proof (cdf_lt_1 (- z)). pose proof (cdf_gt_0 (- z)). lra.
Qed.
Theorem cei_near obj y cons x p ps : (forall l, prod_of l (np_prod l)) -> y <> [] -> Forall moderate_finite y -> answer x obj p -> Forall2 (answer x) cons ps ->
  Forall (fun q => moderate_finite (fst q) /\ moderate_finite (snd q) /\ 0 <= val (snd q)) (p :: ps) ->
  exists v fmin w qs, cei_eval64 cdf pdf np_prod obj y cons x = Ok v /\ isfin v = true /\ least64 y fmin /\
    expected_improvement (val fmin) (val (fst p)) (val (snd p)) w /\
    Forall2 (fun q pr => prob_below (val (fst q)) (val (snd q) + / 10 ^ 9) 0 pr) ps qs /\
    let b := / 10 ^ 9 / 2 + (/ 2 ^ 48 + e) * (Rabs (val fmin - val (fst p)) + val (snd p)) in
    Rabs (val v + w * fold_right Rmult 1 qs) <= b + (w + b) * INR (length ps + 1) * (/ 2 ^ 48 + e).
Proof.
  intros HP N Hy Ho Hc H. destruct (cei_finite cdf pdf np_prod K obj y cons x p ps HP N Hy Ho Hc H) as (v & HV & FV). destruct (min_mag y N Hy) as (fm & E & M). apply Forall_inv_tail in H as Ht. apply Forall_inv in H. destruct H as (H1 & H2 & H3).
  exists v, fm. destruct (ei_exists (val fm) (val (fst p)) (val (snd p)) H3) as [w Hw]. set (qf := fun q : b64 * b64 => norm_cdf ((0 - B2R (fst q)) / (B2R (snd q) + / 10 ^ 9))). exists w, (map qf ps).
  split; [exact HV|]. split; [exact FV|]. split; [now apply min_least|]. split; [exact Hw|]. split.
  { clear - Ht. induction Ht as [|q ps (A & B & C) F IH]; cbn [map]; constructor; [|exact IH]. unfold val in *. apply prob_cdf. lra. }
  unfold cei_eval64, cei_ei64 in HV. rewrite E in HV. cbn [bind] in HV. rewrite Ho in HV. cbn [bind fst snd map2] in HV. rewrite (terms_eq cdf cons x ps Hc) in HV. cbn [bind] in HV. injection HV as HV.
  apply mod_mag in H1 as M1. apply mod_mag in H2 as M2. destruct (ei_point cdf pdf e K E0 Near fm (fst p) (snd p) w M M1 M2 H3 Hw) as [FA EA]. set (A := improvement64 _ _ _ _ _ _) in *.
  set (pl := map (fun q : b64 * b64 => (cdf (fsub f0 (fdiv (fst q) (fadd (snd q) nano64))), qf q)) ps).
  assert (PL : Forall (fun r : b64 * R => unit_closed (fst r) /\ 0 <= snd r <= 1 /\ Rabs (val (fst r) - snd r) <= e + 13 * uro) pl).
  { unfold pl. apply Forall_map. apply (Forall_impl _ (P := fun q : b64 * b64 => moderate_finite (fst q) /\ moderate_finite (snd q) /\ 0 <= val (snd q))); [|exact Ht]. intros q (Q1 & Q2 & Q3). cbn [fst snd]. apply term_err; [now apply mod_mag|now apply mod_mag|exact Q3]. }
  assert (E1 : map fst pl = map (fun p0 : b64 * b64 => cdf (fsub f0 (fdiv (fst p0) (fadd (snd p0) nano64)))) ps) by (unfold pl; now rewrite map_map). assert (E2 : map snd pl = map qf ps) by (unfold pl; now rewrite map_map).
  pose proof uro_pos as PU. destruct (prod_err (e + 13 * uro) pl (np_prod (map fst pl)) ltac:(lra) PL (HP _)) as [UP EP]. rewrite E1 in UP, EP. rewrite E2 in EP. fold (rprod (map qf ps)). assert (LN : length pl = length ps) by (unfold pl; apply map_length). rewrite LN in EP.
  assert (EP' : Rabs (val (np_prod (map (fun p0 : b64 * b64 => cdf (fsub f0 (fdiv (fst p0) (fadd (snd p0) nano64)))) ps)) - rprod (map qf ps)) <= INR (length ps) * (e + 15 * uro)) by (apply Rle_trans with (1 := EP); destruct pl; lra). clear EP.
  assert (PR : 0 <= rprod (map qf ps) <= 1). { rewrite <- E2. apply rprod_unit, Forall_map. apply (Forall_impl _ (P := fun r : b64 * R => unit_closed (fst r) /\ 0 <= snd r <= 1 /\ Rabs (val (fst r) - snd r) <= e + 13 * uro)); [tauto|exact PL]. }
  set (T := np_prod _) in *. cbv zeta. unfold val in *. set (b := / 10 ^ 9 / 2 + _) in *. destruct UP as [FT UT]. unfold val in UT. set (n := length ps) in *. rewrite plus_INR. change (INR 1) with 1. set (Pq := rprod _) in *.
  assert (PW : 0 <= w). { destruct (ei_bounds _ _ _ _ Hw) as [Z _]. pose proof (Rmax_r (B2R fm - B2R (fst p)) 0). unfold val in Z. lra. }
  assert (PB : / 10 ^ 9 / 2 <= b). { unfold b. assert (0 <= (/ 2 ^ 48 + e) * (Rabs (B2R fm - B2R (fst p)) + B2R (snd p))); [|lra]. apply Rmult_le_pos; [lra|]. pose proof (Rabs_pos (B2R fm - B2R (fst p))). lra. }
  assert (MA : mag_le 302 (fopp A)). { assert (I : mag_le 302 A). { apply (imp_fin cdf pdf K); [exact M|exact M1|exact M2|]. destruct (nano_den (snd p) M2 H3) as (Fd & Ld & _). apply fdiv_nnan; [apply (mag_sub 300); [lia|exact M|exact M1]|exact Fd|]. pose proof (bpow_gt_0 radix2 (-60)). lra. } destruct I as [I1 I2]. split; [now rewrite fopp_fin|]. now rewrite fopp_val, Rabs_Ropp. }
  destruct (fmul_err (fopp A) T (proj1 MA) FT) as [_ EM]. { rewrite Rabs_mult, (Rabs_pos_eq (B2R T)) by lra. apply Rle_trans with (bpow radix2 302 * 1); [apply Rmult_le_compat; [apply Rabs_pos|lra|apply MA|lra]|]. assert (bpow radix2 302 <= big) by (apply bpow_le; lia). pose proof big_pos. lra. }
  rewrite HV in EM. rewrite fopp_val in EM. set (V := B2R v) in *. set (a := B2R A) in *. set (t := B2R T) in *. clearbody V a t b Pq n. pose proof (pos_INR n) as PN. set (N' := INR n) in *. clearbody N'.
  assert (AA : Rabs a <= w + b). { replace a with (w + (a - w)) by ring. apply Rle_trans with (1 := Rabs_triang _ _). rewrite (Rabs_pos_eq w) by exact PW. lra. }
  assert (AT : Rabs (- a * t) <= w + b). { rewrite Rabs_mult, Rabs_Ropp, (Rabs_pos_eq t) by lra. apply Rle_trans with (2 := AA). rewrite <- (Rmult_1_r (Rabs a)) at 2. apply Rmult_le_compat_l; [apply Rabs_pos|lra]. }
  assert (EM' : Rabs (V - - a * t) <= uro * (w + b) + eta). { apply Rle_trans with (1 := EM). apply Rplus_le_compat_r, Rmult_le_compat_l; lra. }
  replace (V + w * Pq) with ((V - - a * t) + (- (a - w) * t + w * (- (t - Pq)))) by ring. apply Rle_trans with (1 := Rabs_triang _ _). pose proof (Rabs_triang (- (a - w) * t) (w * (- (t - Pq)))) as TT. rewrite !Rabs_mult, !Rabs_Ropp, (Rabs_pos_eq t), (Rabs_pos_eq w) in TT by lra.
  assert (Q1 : Rabs (a - w) * t <= b * 1) by (apply Rmult_le_compat; [apply Rabs_pos|lra|exact EA|lra]). assert (Q2 : w * Rabs (t - Pq) <= w * (N' * (e + 15 * uro))) by (apply Rmult_le_compat_l; lra).
  assert (Q3 : w * (N' * (e + 15 * uro)) <= (w + b) * (N' * (/ 2 ^ 48 + e))). { rewrite <- uro48. apply Rmult_le_compat; [lra|apply Rmult_le_pos; lra|lra|apply Rmult_le_compat_l; lra]. }
  assert (Q4 : uro * (w + b) + eta <= (w + b) * (/ 2 ^ 48 + e)). { destruct tiny as (T1 & _). assert (eta <= uro * b). { apply Rle_trans with (1 := T1). apply Rmult_le_compat_l; lra. } rewrite <- uro48. assert (0 <= (w + b) * e) by (apply Rmult_le_pos; lra). assert (0 <= w * uro) by (apply Rmult_le_pos; lra). assert (0 <= b * uro) by (apply Rmult_le_pos; lra). lra. }
  lra.
Qed.
(** [VFEI] and [AugmentedEI] for the high-fidelity model, where the deviation is not masked *)
Lemma ten_nano_near : Rabs (B2R ten_nano64 - / 10 ^ 8) <= 2 * uro * / 10 ^ 8.
Proof.
  destruct (recip_val (10 ^ 8) ltac:(lia)) as (_ & E & _). fold ten_nano64 in E. change (IZR (10 ^ 8)) with 100000000 in E. destruct tiny as (T1 & _ & VU & _). replace (/ 10 ^ 8) with (/ 100000000) by (f_equal; lra). apply Rle_trans with (1 := E). rewrite VU in *. lra.
Qed.
Theorem vfei_near s fmin x mu sd V : u_hierarchical s = true -> moderate_finite fmin -> u_predict_std s x = Ok (mu, sd) -> predicted_finite mu sd -> vfei_eval64 cdf pdf s fmin 0 x = Ok V ->
  forall j m t, nth_error mu j = Some m -> nth_error sd j = Some t -> flt t eps64 = false -> exists v w, nth_error V j = Some v /\ isfin v = true /\
  expected_improvement (val fmin) (val m) (val t) w /\ Rabs (val v + w) <= / 10 ^ 8 / 2 + (/ 2 ^ 48 + e) * (Rabs (val fmin - val m) + val t).
Proof.
  intros Hh Hf Hp P. unfold vfei_eval64. rewrite Hh, Hp. cbn [bind fst snd]. intros [= <-] j m t Em Et L. rewrite !map2_nth, Em, Et, L. destruct (pred_nth _ _ _ _ _ P Em Et) as (Mm & Mt & Pt). apply mod_mag in Hf.
  destruct (ei_exists (val fmin) (val m) (val t) Pt) as [w Hw]. eexists. exists w. split; [reflexivity|]. destruct ten_nano_val as (F & Q). destruct tiny as (T1 & Pe & VU & _). pose proof ten_nano_near as TN.
  destruct (offset_den t ten_nano64 (/ 10 ^ 8) Mt Pt F ltac:(lra) Q TN) as (Fd & Ld & Bd & _).
  { apply Rle_trans with (/ 2 ^ 31); [replace (/ 2 ^ 31) with (bpow radix2 (-31)) by (rewrite pow_bpow; apply (bpow_opp radix2 31)); apply bpow_le; lia|]. rewrite VU in TN. revert TN. unfold Rabs. destruct Rcase_abs; lra. }
  destruct (imp_err cdf pdf e K E0 Near fmin m t (fadd t ten_nano64) _ w Hf Mm Mt Pt Fd Ld Bd Hw) as [FI EI]. unfold val. rewrite fopp_fin, fopp_val. split; [exact FI|]. split; [exact Hw|].
  rewrite <- Rabs_Ropp. match goal with |- Rabs ?a <= _ => replace a with (B2R (improvement64 cdf pdf fmin m t (fadd t ten_nano64)) - w) by ring end. apply Rle_trans with (1 := EI).
  rewrite <- uro48. pose proof (Rabs_pos (B2R fmin - B2R m)) as Pu. set (au := Rabs (B2R fmin - B2R m)) in *. set (S1 := B2R t) in *.
  assert (0 <= uro * au) by (apply Rmult_le_pos; [rewrite VU; lra|lra]). assert (0 <= uro * S1) by (apply Rmult_le_pos; [rewrite VU; lra|lra]). assert (/ 10 ^ 8 * uro <= / 10 ^ 8 * / 1000) by (apply Rmult_le_compat_l; [lra|rewrite VU; lra]). assert (eta <= / 10 ^ 12) by (rewrite VU in T1; lra). lra.
Qed.
Theorem aei_near s cr x mu sd V xb fm : u_predict_std s x = Ok (mu, sd) -> predicted_finite mu sd -> length mu = length x -> effective_best64 s = Ok xb -> u_predict s [xb] = Ok [fm] -> moderate_finite fm ->
  aei_eval64 cdf pdf s cr 0 x = Ok V ->
  forall j m t, nth_error mu j = Some m -> nth_error sd j = Some t -> flt t eps64 = false -> exists v w, nth_error V j = Some v /\ isfin v = true /\
  expected_improvement (val fm) (val m) (val t) w /\ Rabs (val v + w) <= (/ 2 ^ 48 + e) * (Rabs (val fm - val m) + val t).
Proof.
  intros Hp P Lx Hb Hu Hf. unfold aei_eval64. rewrite Hp. cbn [bind]. rewrite Hb. cbn [bind]. rewrite Hu. cbn [bind mf_corr64 fst snd nth]. intros [= <-] j m t Em Et L. rewrite !map2_nth, Em, Et, map_nth, L.
  destruct (nth_error x j) as [r|] eqn:Ex. 2: { apply nth_error_None in Ex. assert (j < length mu)%nat by (apply nth_error_Some; congruence). lia. }
  cbn [option_map]. destruct (pred_nth _ _ _ _ _ P Em Et) as (Mm & Mt & Pt). apply mod_mag in Hf. destruct (ei_exists (val fm) (val m) (val t) Pt) as [w Hw]. eexists. exists w. split; [reflexivity|].
  pose proof (eps_ge t (proj1 Mt) L) as Ge. assert (G6 : bpow radix2 (-60) <= B2R t) by (apply Rle_trans with (2 := Ge); apply bpow_le; lia).
  destruct (imp_err cdf pdf e K E0 Near fm m t t 0 w Hf Mm Mt Pt (proj1 Mt) G6 ltac:(lra) Hw) as [FI EI]. set (I := improvement64 _ _ _ _ _ _) in *.
  destruct (mul1 I) as (A1 & _ & A3). destruct (mul1 (fmul I f1)) as (B1 & _ & B3). unfold val. rewrite fopp_fin, fopp_val, B1, A1. split; [exact FI|]. split; [exact Hw|]. rewrite B3, A3 by congruence.
  rewrite <- Rabs_Ropp. replace (- (- B2R I + w)) with (B2R I - w) by ring. apply Rle_trans with (1 := EI). rewrite <- uro48.
  assert (ET : 3 * eta <= uro * B2R t). { apply Rle_trans with (uro * bpow radix2 (-52)); [|apply Rmult_le_compat_l; [left; apply uro_pos|exact Ge]]. apply Rle_trans with (bpow radix2 2 * eta); [change (bpow radix2 2) with 4; pose proof eta_pos; lra|]. unfold eta, uro. rewrite <- !bpow_plus. apply bpow_le. lia. }
  pose proof (Rabs_pos (B2R fm - B2R m)) as Pu. set (au := Rabs (B2R fm - B2R m)) in *. assert (0 <= uro * au) by (apply Rmult_le_pos; [left; apply uro_pos|lra]). assert (0 <= uro * B2R t) by (apply Rmult_le_pos; [left; apply uro_pos|lra]). lra.
Qed.
End More.
