(** The rounding errors of the RBF kernel in binary64. *)
From Coq Require Import ZArith Bool List Reals Lra Lia Psatz Permutation.
From Flocq Require Import Core Mult_error IEEE754.BinarySingleNaN.
From Verif Require Import Fl Spec NpList FlFacts FlMag KernelFl KernelFlSpec FlErr.
Import ListNotations.
Local Open Scope R_scope.

Lemma eta_tiny : eta <= uro * / 1000000.
Proof.
  apply Rle_trans with (bpow radix2 (-53 + -20)); [apply bpow_le; lia|]. rewrite bpow_plus. fold uro.
  apply Rmult_le_compat_l; [left; apply uro_pos|]. change (-20)%Z with (- (20))%Z. rewrite bpow_opp. apply Rinv_le; [lra|].
  change (bpow radix2 20) with (IZR 1048576). lra.
Qed.
Lemma big_large : 1000000000000 <= big.
Proof. apply Rle_trans with (bpow radix2 40); [change (bpow radix2 40) with (IZR 1099511627776); lra|]. apply bpow_le. lia. Qed.
Lemma Rabs_le2 x a b : Rabs x <= a -> a <= b -> Rabs x <= b. Proof. lra. Qed.
Lemma Rabs_near x y e : Rabs (x - y) <= e -> Rabs x <= Rabs y + e.
Proof. intros H. replace x with ((x - y) + y) by ring. pose proof (Rabs_triang (x - y) y). lra. Qed.
Lemma fz_small z : (Z.abs z < 2 ^ 53)%Z -> isfin (fz z) = true /\ val (fz z) = IZR z.
Proof.
  intros H. assert (G : generic_format radix2 fexp64 (IZR z)).
  { change fexp64 with (FLT_exp (-1074) 53). apply generic_format_FLT. exists (Float radix2 z 0); [unfold F2R; cbn; ring|exact H|cbn; lia]. }
  assert (E : rnd (IZR z) = IZR z) by (apply round_generic; [typeclasses eauto|exact G]).
  unfold fz, fbin, val. pose proof (binary_normalize_correct 53 1024 prec53 prec53_lt mode_NE z 0 false) as C. cbv zeta in C.
  replace (F2R (Float radix2 z 0)) with (IZR z) in C by (unfold F2R; cbn; ring).
  change (round radix2 fexp64 (round_mode mode_NE) (IZR z)) with (rnd (IZR z)) in C. rewrite E, Rlt_bool_true in C.
  - destruct C as (V & F & _). split; [exact F|exact V].
  - rewrite <- abs_IZR. apply Rlt_trans with (IZR (2 ^ 53)); [now apply IZR_lt|]. change (IZR (2 ^ 53)) with (bpow radix2 53). now apply bpow_lt.
Qed.
Lemma fz2 : B2R (fz 2) = 2 /\ isfin (fz 2) = true.
Proof. destruct (fz_small 2 ltac:(lia)) as [F V]. split; [exact V|exact F]. Qed.
Lemma prod_near a b p q c e : Rabs (a - p) <= e -> Rabs (b - q) <= e -> Rabs p <= c -> Rabs q <= c -> Rabs (a * b - p * q) <= e * (2 * c + e).
Proof.
  intros A B P Q. pose proof (Rabs_pos (a - p)). pose proof (Rabs_pos p). pose proof (Rabs_pos (b - q)).
  replace (a * b - p * q) with ((a - p) * q + (p * (b - q) + (a - p) * (b - q))) by ring.
  pose proof (Rabs_triang ((a - p) * q) (p * (b - q) + (a - p) * (b - q))).
  pose proof (Rabs_triang (p * (b - q)) ((a - p) * (b - q))). rewrite !Rabs_mult in *.
  assert (Rabs (a - p) * Rabs q <= e * c) by (apply Rmult_le_compat; try apply Rabs_pos; lra).
  assert (Rabs p * Rabs (b - q) <= c * e) by (apply Rmult_le_compat; lra).
  assert (Rabs (a - p) * Rabs (b - q) <= e * e) by (apply Rmult_le_compat; lra). lra.
Qed.

(** ** one coordinate *)
Definition unit_val (v : b64) : Prop := isfin v = true /\ Rabs (B2R v) <= 1.
Definition par_val (W : R) (v : b64) : Prop := isfin v = true /\ 0 < B2R v <= W.
Section Bound.
Variable W : R.
Hypotheses (W1 : 1 <= W) (W2 : W <= 1000000).
Lemma sq_term x w : unit_val x -> par_val W w ->
  isfin (fmul (fmul x x) w) = true /\ Rabs (B2R (fmul (fmul x x) w) - B2R x * B2R x * B2R w) <= 2.001 * uro * W.
Proof.
  intros [Fx X] [Fw [w0 w1]]. pose proof eta_tiny as ET. pose proof uro_val as UV. pose proof eta_pos as EP. pose proof big_large as BL. set (r := B2R x) in *. set (v := B2R w) in *.
  assert (X2 : Rabs (r * r) <= 1). { rewrite Rabs_mult. pose proof (Rabs_pos r). nra. }
  destruct (fmul_err x x Fx Fx) as [Fm Em]; [fold r; lra|]. fold r in Em.
  assert (Em' : Rabs (B2R (fmul x x) - r * r) <= uro + eta). { apply Rle_trans with (1 := Em). apply Rplus_le_compat_r. pose proof uro_pos. nra. }
  set (m := B2R (fmul x x)) in *. pose proof (Rabs_near _ _ _ Em') as Bm.
  assert (Bmw : Rabs (m * v) <= (1 + uro + eta) * W).
  { rewrite Rabs_mult, (Rabs_pos_eq v) by lra. pose proof (Rabs_pos m). apply Rmult_le_compat; lra. }
  assert (N : (1 + uro + eta) * W <= 2 * W) by (apply Rmult_le_compat_r; lra).
  destruct (fmul_err (fmul x x) w Fm Fw) as [Ft Et]; [fold m v; lra|]. fold m v in Et. split; [exact Ft|].
  set (t := B2R (fmul (fmul x x) w)) in *.
  replace (t - r * r * v) with ((t - m * v) + (m - r * r) * v) by ring.
  apply Rle_trans with (1 := Rabs_triang _ _). rewrite (Rabs_mult (m - r * r)), (Rabs_pos_eq v) by lra.
  assert (Rabs (m - r * r) * v <= (uro + eta) * W) by (apply Rmult_le_compat; try apply Rabs_pos; lra).
  assert (uro * Rabs (m * v) <= uro * ((1 + uro + eta) * W)) by (apply Rmult_le_compat_l; [left; apply uro_pos|lra]).
  assert (eta * W <= uro * / 1000000 * W) by (apply Rmult_le_compat_r; lra).
  assert (uro * ((1 + uro + eta) * W) <= uro * (1.0001 * W)). { apply Rmult_le_compat_l; [left; apply uro_pos|]. apply Rmult_le_compat_r; lra. }
  assert (eta <= eta * W) by nra. assert (uro <= uro * W) by (pose proof uro_pos; nra). lra.
Qed.
Definition sW : R := sqrt W.
Lemma sW_sq : sW * sW = W. Proof. apply sqrt_sqrt. lra. Qed.
Lemma sW_1 : 1 <= sW. Proof. unfold sW. rewrite <- sqrt_1. apply sqrt_le_1; lra. Qed.
Lemma sW_W : sW <= W. Proof. pose proof sW_1. pose proof sW_sq. nra. Qed.
Lemma fsqrt_err w : par_val W w -> isfin (fsqrt w) = true /\ Rabs (B2R (fsqrt w) - sqrt (B2R w)) <= uro * sqrt (B2R w) + eta.
Proof.
  intros [Fw [w0 w1]]. destruct (Bsqrt_correct 53 1024 _ _ mode_NE w) as (V & F & _). change (round_mode mode_NE) with ZnearestE in V. fold (rnd (sqrt (B2R w))) in V.
  unfold fsqrt, isfin in *. split.
  - rewrite F. destruct w as [s|s| |s m e B]; try reflexivity; try discriminate Fw. destruct s; [|reflexivity].
    exfalso. pose proof (F2R_lt_0 radix2 (Float radix2 (Zneg m) e) eq_refl) as H. cbn [B2R] in w0. change (cond_Zopp true (Z.pos m)) with (Z.neg m) in w0. lra.
  - rewrite V. apply Rle_trans with (1 := rnd_err _). rewrite (Rabs_pos_eq (sqrt (B2R w))) by apply sqrt_pos. lra.
Qed.
Lemma wt_term w x : unit_val x -> par_val W w ->
  isfin (fmul (fsqrt w) x) = true /\ Rabs (B2R (fmul (fsqrt w) x) - sqrt (B2R w) * B2R x) <= 2.0002 * uro * sW.
Proof.
  intros [Fx X] P. destruct (fsqrt_err w P) as [Fq Eq]. destruct P as [Fw [w0 w1]].
  pose proof eta_tiny as ET. pose proof uro_val as UV. pose proof uro_pos as UP. pose proof eta_pos as EP. pose proof big_large as BL. pose proof sW_1 as S1. pose proof sW_W as S2. set (r := B2R x) in *.
  assert (Q : 0 <= sqrt (B2R w) <= sW) by (split; [apply sqrt_pos|apply sqrt_le_1; lra]). set (q := sqrt (B2R w)) in *.
  assert (Eq' : Rabs (B2R (fsqrt w) - q) <= uro * sW + eta) by nra. set (m := B2R (fsqrt w)) in *.
  pose proof (Rabs_near _ _ _ Eq') as Bm. rewrite (Rabs_pos_eq q) in Bm by lra.
  assert (Bmx : Rabs (m * r) <= sW + uro * sW + eta). { rewrite Rabs_mult. pose proof (Rabs_pos m). pose proof (Rabs_pos r). nra. }
  assert (N : uro * sW <= 1 * sW) by (apply Rmult_le_compat_r; lra).
  destruct (fmul_err (fsqrt w) x Fq Fx) as [Ft Et]; [fold m r; lra|]. fold m r in Et. split; [exact Ft|].
  set (t := B2R (fmul (fsqrt w) x)) in *.
  replace (t - q * r) with ((t - m * r) + (m - q) * r) by ring. apply Rle_trans with (1 := Rabs_triang _ _). rewrite (Rabs_mult (m - q)).
  assert (Rabs (m - q) * Rabs r <= (uro * sW + eta) * 1) by (apply Rmult_le_compat; try apply Rabs_pos; lra).
  assert (uro * Rabs (m * r) <= uro * (sW + uro * sW + eta)) by (apply Rmult_le_compat_l; lra).
  assert (uro * (sW + uro * sW + eta) <= uro * (1.0001 * sW)). { apply Rmult_le_compat_l; [lra|]. rewrite UV in *. lra. }
  assert (uro <= uro * sW) by nra. lra.
Qed.
Lemma pr_term w x y : unit_val x -> unit_val y -> par_val W w ->
  Rabs (B2R (fmul (fsqrt w) x) * B2R (fmul (fsqrt w) y) - B2R w * B2R x * B2R y) <= 4.001 * uro * W.
Proof.
  intros Ux Uy P. destruct (wt_term w x Ux P) as [_ Ex]. destruct (wt_term w y Uy P) as [_ Ey].
  pose proof uro_val as UV. pose proof uro_pos as UP. pose proof sW_1 as S1. pose proof sW_sq as SS.
  destruct P as [Fw [w0 w1]]. assert (Q : 0 <= sqrt (B2R w) <= sW) by (split; [apply sqrt_pos|apply sqrt_le_1; lra]).
  pose proof (sqrt_sqrt (B2R w) ltac:(lra)) as SQ. set (q := sqrt (B2R w)) in *. destruct Ux as [_ X]. destruct Uy as [_ Y].
  assert (B : forall r, Rabs r <= 1 -> Rabs (q * r) <= sW) by (intros r Hr; rewrite Rabs_mult, (Rabs_pos_eq q) by lra; pose proof (Rabs_pos r); nra).
  pose proof (prod_near _ _ _ _ sW _ Ex Ey (B _ X) (B _ Y)) as N.
  replace (q * B2R x * (q * B2R y)) with (B2R w * B2R x * B2R y) in N by (rewrite <- SQ; ring).
  apply Rle_trans with (1 := N). rewrite <- SS.
  assert (2.0002 * uro * sW <= 0.0001 * sW) by (apply Rmult_le_compat_r; lra).
  apply Rle_trans with (2.0002 * uro * sW * (2.0001 * sW)); [apply Rmult_le_compat_l; [|lra]; apply Rmult_le_pos; lra|].
  assert (0 <= uro * (sW * sW)) by (apply Rmult_le_pos; nra). lra.
Qed.
End Bound.

(** ** sums over the coordinates *)
Lemma close_sum (l m : list R) e : Forall2 (fun a b => Rabs (a - b) <= e) l m -> Rabs (rsum l - rsum m) <= INR (length l) * e.
Proof.
  induction 1 as [|a b l m H F IH]; [cbn; rewrite Rminus_0_r, Rabs_R0; lra|].
  cbn [length]. rewrite S_INR, !rsum_cons. replace (a + rsum l - (b + rsum m)) with ((a - b) + (rsum l - rsum m)) by ring.
  apply Rle_trans with (1 := Rabs_triang _ _). lra.
Qed.
Lemma asum_bound (l : list R) c : Forall (fun a => Rabs a <= c) l -> asum l <= INR (length l) * c.
Proof. induction 1 as [|a l H F IH]; [unfold asum; cbn; lra|]. cbn [length]. rewrite S_INR, asum_cons. lra. Qed.

Lemma f2_length {A B} (P : A -> B -> Prop) l m : Forall2 P l m -> length l = length m.
Proof. induction 1; cbn; congruence. Qed.
Definition sq_reals (w x : row) : list R := map2 (fun xk wk => B2R xk * B2R xk * B2R wk) x w.
Fixpoint xy_reals (w x y : row) : list R :=
  match w, x, y with wk :: w', xk :: x', yk :: y' => B2R wk * B2R xk * B2R yk :: xy_reals w' x' y' | _, _, _ => [] end.
Lemma wdist64_split w x y : length x = length w -> length y = length w ->
  wdist64 w x y = rsum (sq_reals w x) + rsum (sq_reals w y) - 2 * rsum (xy_reals w x y).
Proof.
  revert x y. induction w as [|wk w IH]; intros [|xk x] [|yk y] Lx Ly; try discriminate; [cbn; lra|].
  injection Lx as Lx. injection Ly as Ly. cbn [wdist64 sq_reals map2 xy_reals]. rewrite !rsum_cons. unfold val. rewrite (IH x y Lx Ly). unfold sq_reals. ring.
Qed.
Lemma wdist64_ge0 W w x y : Forall (par_val W) w -> 0 <= wdist64 w x y.
Proof.
  intros F. revert x y. induction F as [|wk w [_ H] F IH]; intros [|xk x] [|yk y]; cbn [wdist64]; try lra.
  pose proof (IH x y). pose proof (pow2_ge_0 (val xk - val yk)). unfold val in *. nra.
Qed.

Section Rows.
Variables (d : nat) (W : R).
Hypotheses (d1 : (1 <= d)%nat) (W1 : 1 <= W) (small : INR d * W * (4 * INR d + 21) * uro <= / 1000000000).
Local Notation D := (INR d).
Lemma D_ge1 : 1 <= D. Proof. apply (le_INR 1 d d1). Qed.
Lemma DW_small : D * W <= 360288 /\ D * D * W <= 2251801.
Proof.
  pose proof D_ge1 as G. pose proof small as H. rewrite uro_val in H.
  assert (A : D * W * (4 * D + 21) <= 9007200) by lra. split; [|nra].
  assert (D * W * 25 <= D * W * (4 * D + 21)) by (apply Rmult_le_compat_l; nra). lra.
Qed.
Lemma W_small : W <= 1000000. Proof. pose proof D_ge1 as G. destruct DW_small as [H _]. nra. Qed.
Lemma D_small : D <= 1048576. Proof. pose proof D_ge1 as G. destruct DW_small as [H _]. nra. Qed.

Lemma sq_rows w x : length w = d -> length x = d -> Forall (par_val W) w -> Forall unit_val x ->
  let l := map2 (fun xk wk => fmul (fmul xk xk) wk) x w in
  length l = d /\ fin_all l /\ Forall2 (fun a b => Rabs (a - b) <= 2.001 * uro * W) (vals l) (sq_reals w x).
Proof.
  pose proof W_small as WS. clear small d1. intros Lw Lx Fw Fx. cbv zeta. revert d x Lw Lx Fx.
  induction Fw as [|wk w Hw Fw IH]; intros n [|xk x] Lw Lx Fx; cbn in Lw, Lx; try (exfalso; lia); [repeat split; [exact Lw|constructor|constructor]|].
  destruct n as [|n]; [discriminate|]. injection Lw as Lw. injection Lx as Lx. inversion Fx as [|? ? Hx Fx']; subst.
  destruct (IH _ x eq_refl Lx Fx') as (A & B & C). destruct (sq_term W W1 WS xk wk Hx Hw) as [F E]. cbn [map2 length]. split; [now rewrite A|]. split; [constructor; assumption|].
  unfold sq_reals. cbn [map2 vals map]. constructor; [exact E|exact C].
Qed.
Lemma xy_rows w x y : length w = d -> length x = d -> length y = d -> Forall (par_val W) w -> Forall unit_val x -> Forall unit_val y ->
  let l := combine (weighted w x) (weighted w y) in
  length l = d /\ fin_pairs l /\ Forall2 (fun a b => Rabs (a - b) <= 4.001 * uro * W) (prods l) (xy_reals w x y).
Proof.
  pose proof W_small as WS. clear small d1. intros Lw Lx Ly Fw Fx Fy. cbv zeta. revert d x y Lw Lx Ly Fx Fy.
  induction Fw as [|wk w Hw Fw IH]; intros n [|xk x] [|yk y] Lw Lx Ly Fx Fy; cbn in Lw, Lx, Ly; try (exfalso; lia); [repeat split; [exact Lw|constructor|constructor]|].
  destruct n as [|n]; [discriminate|]. injection Lw as Lw. injection Lx as Lx. injection Ly as Ly. inversion Fx as [|? ? Hx Fx']; inversion Fy as [|? ? Hy Fy']; subst.
  destruct (IH _ x y eq_refl Lx Ly Fx' Fy') as (A & B & C). pose proof (pr_term W W1 WS wk xk yk Hx Hy Hw) as E.
  unfold weighted in *. cbn [map2 combine length]. split; [now rewrite A|]. split; [constructor; [|exact B]|constructor; [exact E|exact C]].
  cbn [fst snd]. split; [apply (wt_term W W1 WS wk xk Hx Hw)|apply (wt_term W W1 WS wk yk Hy Hw)].
Qed.
Lemma sq_reals_bound w x : Forall (par_val W) w -> Forall unit_val x -> Forall (fun a => Rabs a <= W) (sq_reals w x).
Proof.
  intros Fw. revert x. induction Fw as [|wk w [_ Hw] Fw IH]; intros [|xk x] Fx; try constructor; inversion Fx as [|? ? [_ Hx] Fx']; subst.
  - rewrite !Rabs_mult, (Rabs_pos_eq (B2R wk)) by lra. pose proof (Rabs_pos (B2R xk)). assert (Rabs (B2R xk) * Rabs (B2R xk) <= 1) by nra. nra.
  - exact (IH x Fx').
Qed.
Lemma xy_reals_bound w x y : Forall (par_val W) w -> Forall unit_val x -> Forall unit_val y -> Forall (fun a => Rabs a <= W) (xy_reals w x y).
Proof.
  intros Fw. revert x y. induction Fw as [|wk w [_ Hw] Fw IH]; intros [|xk x] [|yk y] Fx Fy; try constructor; inversion Fx as [|? ? [_ Hx] Fx']; inversion Fy as [|? ? [_ Hy] Fy']; subst.
  - rewrite !Rabs_mult, (Rabs_pos_eq (B2R wk)) by lra. pose proof (Rabs_pos (B2R xk)). pose proof (Rabs_pos (B2R yk)).
    apply Rle_trans with (W * 1 * 1); [|lra]. apply Rmult_le_compat; try lra; [apply Rmult_le_pos; lra|]. apply Rmult_le_compat; lra.
  - exact (IH x y Fx' Fy').
Qed.
Lemma bound_near (l m : list R) c e : Forall2 (fun a b => Rabs (a - b) <= e) l m -> Forall (fun a => Rabs a <= c) m -> Forall (fun a => Rabs a <= c + e) l.
Proof.
  induction 1 as [|a b l m H F IH]; intros G; constructor; inversion G as [|? ? G1 G2]; subst; [|now apply IH].
  pose proof (Rabs_near _ _ _ H). lra.
Qed.

Variables (np_sum : list b64 -> b64) (np_dot : list (b64 * b64) -> b64).
Hypotheses (sum_ok : forall l, sum_of l (np_sum l)) (dot_ok : forall l, dot_of l (np_dot l)).
Variable w : row.
Hypotheses (Lw : length w = d) (Fw : Forall (par_val W) w).
Lemma uDW : 0 <= uro * (D * W) /\ uro * (D * W) <= / 1000000.
Proof. destruct DW_small as [H _]. pose proof D_ge1. rewrite uro_val. nra. Qed.
Lemma square_sum_err x : length x = d -> Forall unit_val x ->
  isfin (square_sum np_sum w x) = true /\ Rabs (B2R (square_sum np_sum w x) - rsum (sq_reals w x)) <= (D + 2.01) * (D * W) * uro /\
  Rabs (rsum (sq_reals w x)) <= D * W.
Proof.
  intros Lx Fx. unfold square_sum. destruct (sq_rows w x Lw Lx Fw Fx) as (A & B & C). set (l := map2 _ x w) in *.
  pose proof (bound_near _ _ _ _ C (sq_reals_bound w x Fw Fx)) as BN. pose proof (asum_bound _ _ BN) as AB.
  pose proof (asum_bound _ _ (sq_reals_bound w x Fw Fx)) as AR. pose proof (rsum_abs (sq_reals w x)) as RA.
  assert (LV : length (vals l) = d) by (unfold vals; now rewrite map_length).
  assert (LR : length (sq_reals w x) = d). { pose proof (f2_length _ _ _ C) as E. now rewrite <- E. }
  pose proof (close_sum _ _ _ C) as CS. rewrite LV in *. rewrite LR in *.
  pose proof D_ge1 as D1. pose proof D_small as DS. destruct DW_small as [S1 S2]. destruct uDW as [U1 U2]. pose proof big_large as BL. pose proof uro_pos as UP. pose proof uro_val as UV.
  destruct (sum_of_err l (np_sum l) (sum_ok l) B) as [F E]; [rewrite A; exact DS|lra|].
  split; [exact F|]. split; [|lra]. rewrite A in E.
  pose proof (pow_uro_lin (d - 1)) as PL. rewrite minus_INR in PL by exact d1. cbn [INR] in PL. specialize (PL ltac:(lra)).
  pose proof (pow_uro_two (d - 1)) as PT. rewrite minus_INR in PT by exact d1. cbn [INR] in PT. specialize (PT ltac:(lra)).
  replace (B2R (np_sum l) - rsum (sq_reals w x)) with ((B2R (np_sum l) - rsum (vals l)) + (rsum (vals l) - rsum (sq_reals w x))) by ring.
  apply Rle_trans with (1 := Rabs_triang _ _).
  assert (((1 + uro) ^ (d - 1) - 1) * asum (vals l) <= (D * uro) * (D * (W + 2.001 * uro * W))).
  { apply Rmult_le_compat; [lra|apply asum_ge0|lra|lra]. }
  assert (D * uro * (D * (W + 2.001 * uro * W)) <= (D * (D * W) + 0.001 * (D * W)) * uro).
  { replace (D * uro * (D * (W + 2.001 * uro * W))) with ((D * (D * W) + 2.001 * uro * D * (D * W)) * uro) by ring.
    apply Rmult_le_compat_r; [lra|]. apply Rplus_le_compat_l. apply Rmult_le_compat_r; [nra|]. rewrite UV. lra. }
  lra.
Qed.
Lemma cross_err x y : length x = d -> Forall unit_val x -> length y = d -> Forall unit_val y ->
  isfin (cross np_dot w x y) = true /\ Rabs (B2R (cross np_dot w x y) - rsum (xy_reals w x y)) <= (D + 5.01) * (D * W) * uro /\
  Rabs (rsum (xy_reals w x y)) <= D * W.
Proof.
  intros Lx Fx Ly Fy. unfold cross. destruct (xy_rows w x y Lw Lx Ly Fw Fx Fy) as (A & B & C). set (l := combine _ _) in *.
  pose proof (bound_near _ _ _ _ C (xy_reals_bound w x y Fw Fx Fy)) as BN. pose proof (asum_bound _ _ BN) as AB.
  pose proof (asum_bound _ _ (xy_reals_bound w x y Fw Fx Fy)) as AR. pose proof (rsum_abs (xy_reals w x y)) as RA.
  assert (LV : length (prods l) = d) by (unfold prods; now rewrite map_length).
  assert (LR : length (xy_reals w x y) = d). { pose proof (f2_length _ _ _ C) as E. now rewrite <- E. }
  pose proof (close_sum _ _ _ C) as CS. rewrite LV in *. rewrite LR in *.
  pose proof D_ge1 as D1. pose proof D_small as DS. destruct DW_small as [S1 S2]. destruct uDW as [U1 U2]. pose proof big_large as BL. pose proof uro_pos as UP. pose proof uro_val as UV.
  destruct (dot_of_err l (np_dot l) (dot_ok l) B) as [F E]; [rewrite A; exact DS|lra|].
  split; [exact F|]. split; [|lra]. rewrite A in E.
  pose proof (pow_uro_lin d DS) as PL. pose proof (pow_uro_two d DS) as PT.
  replace (B2R (np_dot l) - rsum (xy_reals w x y)) with ((B2R (np_dot l) - rsum (prods l)) + (rsum (prods l) - rsum (xy_reals w x y))) by ring.
  apply Rle_trans with (1 := Rabs_triang _ _).
  assert (((1 + uro) ^ d - 1) * asum (prods l) <= ((D + 1) * uro) * (D * (W + 4.001 * uro * W))).
  { apply Rmult_le_compat; [lra|apply asum_ge0|lra|lra]. }
  assert ((D + 1) * uro * (D * (W + 4.001 * uro * W)) <= ((D + 1) * (D * W) + 0.001 * (D * W)) * uro).
  { replace ((D + 1) * uro * (D * (W + 4.001 * uro * W))) with (((D + 1) * (D * W) + 4.001 * uro * (D + 1) * (D * W)) * uro) by ring.
    apply Rmult_le_compat_r; [lra|]. apply Rplus_le_compat_l. apply Rmult_le_compat_r; [nra|]. rewrite UV. lra. }
  pose proof eta_tiny as ET. pose proof eta_pos as EP.
  assert (D * eta * (1 + uro) ^ d <= 0.001 * (D * W) * uro).
  { apply Rle_trans with (D * (uro * / 1000000) * 2).
    - apply Rmult_le_compat; [apply Rmult_le_pos; lra|lra|apply Rmult_le_compat_l; lra|lra].
    - assert (D <= D * W) by nra. assert (0 <= D * uro) by (apply Rmult_le_pos; lra). assert (D * uro <= D * W * uro) by (apply Rmult_le_compat_r; lra). lra. }
  lra.
Qed.

Lemma twice_err c : isfin c = true -> Rabs (B2R c) <= big -> isfin (fmul (fz 2) c) = true /\ B2R (fmul (fz 2) c) = 2 * B2R c.
Proof.
  intros F B. destruct fz2 as [V2 F2]. destruct (fmul_spec (fz 2) c F2 F) as [V Fm].
  - rewrite V2. apply rnd_room. rewrite Rabs_mult, (Rabs_pos_eq 2) by lra. pose proof big_pos. lra.
  - split; [exact Fm|]. rewrite V, V2. unfold rnd. apply round_generic; [auto with typeclass_instances|].
    rewrite Rmult_comm. change 2 with (bpow radix2 1). apply (mult_bpow_pos_exact_FLT radix2 (-1074) 53); [apply format_B2R|lia].
Qed.
Lemma fsub_err x y : isfin x = true -> isfin y = true -> Rabs (B2R x - B2R y) <= big * 3 ->
  isfin (fsub x y) = true /\ Rabs (B2R (fsub x y) - (B2R x - B2R y)) <= uro * Rabs (B2R x - B2R y).
Proof.
  intros Fx Fy B. destruct (fsub_spec x y Fx Fy (rnd_room _ B)) as [V F]. split; [exact F|]. rewrite V.
  apply (rnd_plus (B2R x) (- B2R y)); [apply format_B2R|]. apply generic_format_opp. apply format_B2R.
Qed.

Theorem dist64_err x y : length x = d -> Forall unit_val x -> length y = d -> Forall unit_val y ->
  isfin (dist64 np_sum np_dot w x y) = true /\
  Rabs (B2R (dist64 np_sum np_dot w x y) - wdist64 w x y) <= D * W * (4 * D + 20.5) * uro.
Proof.
  intros Lx Fx Ly Fy. unfold dist64. destruct (square_sum_err x Lx Fx) as (F1 & E1 & B1). destruct (square_sum_err y Ly Fy) as (F2 & E2 & B2).
  destruct (cross_err x y Lx Fx Ly Fy) as (F3 & E3 & B3). rewrite wdist64_split by congruence.
  set (sx := square_sum np_sum w x) in *. set (sy := square_sum np_sum w y) in *. set (c := cross np_dot w x y) in *.
  set (rx := rsum (sq_reals w x)) in *. set (ry := rsum (sq_reals w y)) in *. set (rc := rsum (xy_reals w x y)) in *.
  pose proof D_ge1 as D1. pose proof D_small as DS. destruct DW_small as [S1 S2]. destruct uDW as [U1 U2]. pose proof big_large as BL. pose proof uro_pos as UP. pose proof uro_val as UV.
  assert (UD : (D + 5.01) * uro <= 0.001) by (rewrite UV; lra).
  assert (T0 : 0 <= D * W) by nra. assert (UU : D * W * uro = uro * (D * W)) by ring.
  assert (Z : (D + 5.01) * (D * W) * uro <= 0.001 * (D * W)).
  { replace ((D + 5.01) * (D * W) * uro) with ((D + 5.01) * uro * (D * W)) by ring. apply Rmult_le_compat_r; lra. }
  assert (Z' : (D + 2.01) * (D * W) * uro <= (D + 5.01) * (D * W) * uro) by (apply Rmult_le_compat_r; [lra|]; apply Rmult_le_compat_r; lra).
  pose proof (Rabs_near _ _ _ E1) as N1. pose proof (Rabs_near _ _ _ E2) as N2. pose proof (Rabs_near _ _ _ E3) as N3.
  destruct (twice_err c F3 ltac:(lra)) as [F4 V4].
  pose proof (Rabs_triang (B2R sx) (B2R sy)) as T1.
  destruct (fadd_err sx sy F1 F2 ltac:(lra)) as [F5 E5].
  set (a := fadd sx sy) in *. pose proof (Rabs_near _ _ _ E5) as N5. set (m := fmul (fz 2) c) in *.
  assert (E5' : uro * Rabs (B2R sx + B2R sy) <= uro * (2.002 * (D * W))) by (apply Rmult_le_compat_l; lra).
  assert (T2 : Rabs (B2R a - B2R m) <= 4.005 * (D * W)).
  { unfold Rminus. apply Rle_trans with (1 := Rabs_triang _ _). rewrite Rabs_Ropp, V4, Rabs_mult, (Rabs_pos_eq 2) by lra. lra. }
  destruct (fsub_err a m F5 F4 ltac:(lra)) as [F6 E6]. split; [exact F6|].
  assert (E6' : uro * Rabs (B2R a - B2R m) <= uro * (4.005 * (D * W))) by (apply Rmult_le_compat_l; lra).
  replace (B2R (fsub a m) - (rx + ry - 2 * rc)) with
    ((B2R (fsub a m) - (B2R a - B2R m)) + ((B2R a - (B2R sx + B2R sy)) + ((B2R sx - rx) + ((B2R sy - ry) + (- (2)) * (B2R c - rc))))) by (rewrite V4; ring).
  eapply Rle_trans; [apply Rabs_triang|]. eapply Rle_trans; [apply Rplus_le_compat_l, Rabs_triang|]. eapply Rle_trans; [apply Rplus_le_compat_l, Rplus_le_compat_l, Rabs_triang|].
  eapply Rle_trans; [apply Rplus_le_compat_l, Rplus_le_compat_l, Rplus_le_compat_l, Rabs_triang|]. rewrite (Rabs_mult (- (2))), (Rabs_Ropp 2), (Rabs_pos_eq 2) by lra. lra.
Qed.
End Rows.

(** ** the exponential *)
Lemma exp_upper t : 0 <= t <= / 2 -> exp t <= 1 + t + 2 * t * t.
Proof.
  intros H. pose proof (exp_ineq1_le (- t)) as E. rewrite exp_Ropp in E. pose proof (exp_pos t) as P.
  assert (exp t * (1 - t) <= 1). { apply (Rmult_le_reg_l (/ exp t)); [now apply Rinv_0_lt_compat|]. rewrite <- Rmult_assoc, Rinv_l by lra. lra. }
  apply (Rmult_le_reg_r (1 - t)); [lra|]. apply Rle_trans with 1; [exact H0|]. nra.
Qed.
Lemma exp_close a b e : 0 <= b -> Rabs (a - b) <= e -> e <= / 1000000000 ->
  Rabs (exp (- a) - exp (- b)) <= 1.00000001 * e /\ exp (- a) <= 1.00000001.
Proof.
  intros B H S. apply Rabs_le_inv in H. assert (E0 : 0 <= e) by lra.
  assert (X : exp (- b) <= 1). { rewrite <- exp_0. destruct (Req_dec b 0) as [->|N]; [rewrite Ropp_0; lra|left; apply exp_increasing; lra]. }
  pose proof (exp_pos (- b)) as XP. pose proof (exp_upper e ltac:(lra)) as U. pose proof (exp_ineq1_le (b - a)) as L.
  assert (EQ : exp (- a) = exp (- b) * exp (b - a)) by (rewrite <- exp_plus; f_equal; ring).
  assert (M : exp (b - a) <= exp e). { destruct (Req_dec (b - a) e) as [->|N]; [lra|left; apply exp_increasing; lra]. }
  assert (T : exp (b - a) - 1 <= 1.00000001 * e) by nra. rewrite EQ.
  replace (exp (- b) * exp (b - a) - exp (- b)) with (exp (- b) * (exp (b - a) - 1)) by ring.
  assert (A : Rabs (exp (b - a) - 1) <= 1.00000001 * e) by (apply Rabs_le; lra).
  split; [|nra]. rewrite Rabs_mult, (Rabs_pos_eq (exp (- b))) by lra. pose proof (Rabs_pos (exp (b - a) - 1)). nra.
Qed.

(** ** the entries of the kernel matrix *)
Lemma fz_ten : B2R (fz (10 ^ 10)) = 10000000000 /\ isfin (fz (10 ^ 10)) = true.
Proof. change (10 ^ 10)%Z with 10000000000%Z. destruct (fz_small 10000000000 eq_refl) as [F V]. split; [exact V|exact F]. Qed.
Lemma jitter64_err : isfin jitter64 = true /\ Rabs (B2R jitter64 - / 10000000000) <= uro * / 1000.
Proof.
  destruct fz_ten as [V F]. pose proof big_large as BL. pose proof uro_val as UV. pose proof eta_tiny as ET.
  assert (Q : B2R f1 / B2R (fz (10 ^ 10)) = / 10000000000) by (rewrite V, B2R_f1; field).
  destruct (fdiv_err f1 (fz (10 ^ 10))) as [Fj E]; [reflexivity|rewrite V; lra|rewrite Q, Rabs_pos_eq; lra|].
  rewrite Q, (Rabs_pos_eq (/ 10000000000)) in E by lra. split; [exact Fj|]. fold jitter64 in E. lra.
Qed.
Lemma fmul_pick (b : bool) v : isfin v = true -> isfin (fmul (if b then f1 else f0) v) = true /\ B2R (fmul (if b then f1 else f0) v) = if b then B2R v else 0.
Proof.
  intros F. destruct b.
  - destruct (fmul_spec f1 v) as [V Fm]; [reflexivity|exact F| |].
    + rewrite B2R_f1, Rmult_1_l, rnd_B2R. apply B2R_lt_fmax.
    + split; [exact Fm|]. now rewrite V, B2R_f1, Rmult_1_l, rnd_B2R.
  - destruct (fmul_spec f0 v) as [V Fm]; [reflexivity|exact F| |].
    + rewrite B2R_f0, Rmult_0_l, rnd_0, Rabs_R0. apply bpow_gt_0.
    + split; [exact Fm|]. now rewrite V, B2R_f0, Rmult_0_l, rnd_0.
Qed.
Section Entries.
Variables (d : nat) (W : R).
Hypotheses (d1 : (1 <= d)%nat) (W1 : 1 <= W) (small : entry_units d W * uro <= / 1000000000).
Variables (np_sum : list b64 -> b64) (np_dot : list (b64 * b64) -> b64) (np_exp : b64 -> b64).
Hypotheses (sum_ok : forall l, sum_of l (np_sum l)) (dot_ok : forall l, dot_of l (np_dot l)) (E_ok : exp_ok np_exp).
Variable w : row.
Hypothesis Pw : param_row d W w.
Local Notation D := (INR d).
Lemma small' : D * W * (4 * D + 21) * uro <= / 1000000000.
Proof. pose proof small as H. unfold entry_units in H. pose proof uro_pos. lra. Qed.
Lemma two52 : / 2 ^ 52 = 2 * uro.
Proof. rewrite uro_val. replace (2 ^ 52) with 4503599627370496 by ring. lra. Qed.
Lemma two1000 : / 2 ^ 1000 <= uro * / 1000.
Proof.
  replace (uro * / 1000) with (/ (9007199254740992 * 1000)) by (rewrite uro_val; field).
  apply Rinv_le; [lra|]. apply Rle_trans with (2 ^ 64); [lra|]. apply Rle_pow; [lra|lia].
Qed.
Theorem kernel64_err (X Y : mat) i j : scaled_row d (nth i X []) -> scaled_row d (nth j Y []) ->
  let k := kernel64 np_sum np_dot np_exp w X Y i j in
  isfin k = true /\ Rabs (B2R k - (exp (- wdist64 w (nth i X []) (nth j Y [])) + if Nat.eqb i j then / 10000000000 else 0)) <= entry_units d W * uro.
Proof.
  intros [Lx Fx] [Ly Fy]. cbv zeta. destruct Pw as [Lw Fw]. unfold kernel64. set (x := nth i X []) in *. set (y := nth j Y []) in *. 
  destruct (dist64_err d W d1 W1 small' np_sum np_dot sum_ok dot_ok w Lw Fw x y Lx Fx Ly Fy) as [Fd Ed].
  pose proof (wdist64_ge0 W w x y Fw) as G. set (q := dist64 _ _ w x y) in *. set (t := wdist64 w x y) in *.
  pose proof (D_ge1 d d1) as D1. pose proof (DW_small d W d1 W1 small') as [S1 S2]. pose proof uro_pos as UP. pose proof uro_val as UV. pose proof (D_small d W d1 W1 small') as DS.
  assert (T0 : 0 <= D * W) by nra. assert (T1 : 0 <= D * W * uro) by (apply Rmult_le_pos; lra).
  assert (SM : D * W * (4 * D + 20.5) * uro <= / 1000000000). { apply Rle_trans with (2 := small'). apply Rmult_le_compat_r; [lra|]. apply Rmult_le_compat_l; lra. }
  destruct (exp_close _ _ _ G Ed SM) as [Ee Eu]. set (del := D * W * (4 * D + 20.5) * uro) in *.
  assert (Fo : isfin (fopp q) = true) by (unfold isfin, fopp; rewrite is_finite_Bopp; exact Fd).
  assert (Vo : B2R (fopp q) = - B2R q) by apply B2R_Bopp.
  apply Rabs_le_inv in Ed. destruct (E_ok (fopp q) Fo) as [Fe Er]; [unfold val; rewrite Vo; lra|]. unfold val in Er. rewrite Vo in Er.
  rewrite two52 in Er. pose proof two1000 as T1000. set (tn := / 2 ^ 1000) in *. clearbody tn. set (ex := np_exp (fopp q)) in *.
  destruct jitter64_err as [Fj Ej]. destruct (fmul_pick (Nat.eqb i j) jitter64 Fj) as [Fp Vp]. set (p := fmul _ jitter64) in *.
  pose proof (exp_pos (- B2R q)) as XP. pose proof big_large as BL.
  assert (Er' : Rabs (B2R ex - exp (- B2R q)) <= 2.002 * uro) by nra.
  assert (Bp : Rabs (B2R p - (if Nat.eqb i j then / 10000000000 else 0)) <= uro * / 1000) by (rewrite Vp; destruct (Nat.eqb i j); [exact Ej|rewrite Rminus_0_r, Rabs_R0; lra]).
  set (jit := if Nat.eqb i j then / 10000000000 else 0) in *. assert (J : 0 <= jit <= / 10000000000) by (unfold jit; destruct (Nat.eqb i j); lra).
  pose proof (Rabs_near _ _ _ Er') as N1. rewrite (Rabs_pos_eq (exp _)) in N1 by lra. pose proof (Rabs_near _ _ _ Bp) as N2. rewrite (Rabs_pos_eq jit) in N2 by lra.
  pose proof (Rabs_triang (B2R ex) (B2R p)) as T. destruct (fadd_err ex p Fe Fp) as [Fa Ea]; [lra|]. split; [exact Fa|].
  assert (Ea' : uro * Rabs (B2R ex + B2R p) <= uro * 1.001) by (apply Rmult_le_compat_l; lra).
  replace (B2R (fadd ex p) - (exp (- t) + jit)) with ((B2R (fadd ex p) - (B2R ex + B2R p)) + ((B2R ex - exp (- B2R q)) + ((exp (- B2R q) - exp (- t)) + (B2R p - jit)))) by ring.
  eapply Rle_trans; [apply Rabs_triang|]. eapply Rle_trans; [apply Rplus_le_compat_l, Rabs_triang|]. eapply Rle_trans; [apply Rplus_le_compat_l, Rplus_le_compat_l, Rabs_triang|].
  unfold entry_units. assert (M : 1.00000001 * del <= D * W * (4 * D + 21) * uro).
  { unfold del. replace (1.00000001 * (D * W * (4 * D + 20.5) * uro)) with (D * W * (1.00000001 * (4 * D + 20.5)) * uro) by ring.
    apply Rmult_le_compat_r; [lra|]. apply Rmult_le_compat_l; [lra|]. pose proof S1. assert (D <= 360288) by nra. lra. }
  lra.
Qed.
Lemma below_big : 2 ^ 900 + 2 <= big.
Proof.
  replace (2 ^ 900) with (bpow radix2 900) by (rewrite bpow_powerRZ; change 900%Z with (Z.of_nat 900); rewrite <- pow_powerRZ; reflexivity).
  unfold big. assert (A : bpow radix2 1 <= bpow radix2 900) by (apply bpow_le; lia). assert (B : bpow radix2 (900 + 1) <= bpow radix2 1000) by (apply bpow_le; lia).
  rewrite bpow_plus in B. assert (T : bpow radix2 1 = 2) by reflexivity. rewrite T in A, B. set (x := bpow radix2 900) in *. set (y := bpow radix2 1000) in *. clearbody x y. lra.
Qed.
Lemma covariance64_bound (c : R) (BB : c + 2 <= big) (X : mat) i j sigma : scaled_row d (nth i X []) -> scaled_row d (nth j X []) ->
  let noise2 := fmul sigma sigma in isfin noise2 = true -> 0 <= B2R noise2 <= c ->
  let k := covariance64 np_sum np_dot np_exp w sigma X i j in
  isfin k = true /\
  Rabs (B2R k - (exp (- wdist64 w (nth i X []) (nth j X [])) + if Nat.eqb i j then / 10000000000 + B2R noise2 else 0)) <=
    (entry_units d W + 2) * uro + (if Nat.eqb i j then B2R noise2 * uro else 0).
Proof.
  intros Hx Hy. cbv zeta. set (noise2 := fmul sigma sigma). intros Fn [N0 N1]. unfold covariance64. fold noise2. destruct (kernel64_err X X i j Hx Hy) as [Fk Ek]. set (k := kernel64 _ _ _ w X X i j) in *.
  destruct Pw as [Lw Fw]. pose proof (wdist64_ge0 W w (nth i X []) (nth j X []) Fw) as G.
  destruct (fmul_pick (Nat.eqb i j) noise2 Fn) as [Fp Vp]. set (p := fmul _ noise2) in *.
  assert (X1 : 0 < exp (- wdist64 w (nth i X []) (nth j X [])) <= 1).
  { split; [apply exp_pos|]. rewrite <- exp_0. destruct (Req_dec (wdist64 w (nth i X []) (nth j X [])) 0) as [->|N]; [rewrite Ropp_0; lra|left; apply exp_increasing; lra]. }
  set (e := exp _) in *. set (jit := if Nat.eqb i j then / 10000000000 else 0) in *. assert (J : 0 <= jit <= / 10000000000) by (unfold jit; destruct (Nat.eqb i j); lra).
  pose proof (Rabs_near _ _ _ Ek) as Nk. rewrite (Rabs_pos_eq (e + jit)) in Nk by lra. pose proof small as SM.
  assert (P0 : 0 <= B2R p <= c) by (rewrite Vp; destruct (Nat.eqb i j); lra).
  pose proof (Rabs_triang (B2R k) (B2R p)) as T. rewrite (Rabs_pos_eq (B2R p)) in T by lra.
  destruct (fadd_err k p Fk Fp) as [Fa Ea]; [pose proof big_pos; lra|]. split; [exact Fa|]. pose proof uro_pos as UP.
  assert (Ea' : uro * Rabs (B2R k + B2R p) <= uro * (1.5 + B2R p)) by (apply Rmult_le_compat_l; lra).
  assert (Q : e + (if Nat.eqb i j then / 10000000000 + B2R noise2 else 0) = e + jit + B2R p) by (rewrite Vp; unfold jit; destruct (Nat.eqb i j); lra).
  rewrite Q. replace (if Nat.eqb i j then B2R noise2 * uro else 0) with (B2R p * uro) by (rewrite Vp; destruct (Nat.eqb i j); lra).
  replace (B2R (fadd k p) - (e + jit + B2R p)) with ((B2R (fadd k p) - (B2R k + B2R p)) + (B2R k - (e + jit))) by ring.
  eapply Rle_trans; [apply Rabs_triang|]. lra.
Qed.
Theorem covariance64_err (X : mat) i j sigma : scaled_row d (nth i X []) -> scaled_row d (nth j X []) ->
  let noise2 := fmul sigma sigma in isfin noise2 = true -> 0 <= B2R noise2 <= 2 ^ 900 ->
  let k := covariance64 np_sum np_dot np_exp w sigma X i j in
  isfin k = true /\
  Rabs (B2R k - (exp (- wdist64 w (nth i X []) (nth j X [])) + if Nat.eqb i j then / 10000000000 + B2R noise2 else 0)) <=
    (entry_units d W + 2) * uro + (if Nat.eqb i j then B2R noise2 * uro else 0).
Proof. exact (covariance64_bound (2 ^ 900) below_big X i j sigma). Qed.
End Entries.
