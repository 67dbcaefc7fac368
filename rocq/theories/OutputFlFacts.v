(** Rounding errors of the mean, the standard deviation and the scaled responses. *)
From Coq Require Import ZArith Bool List Reals Lra Lia Psatz Permutation.
From Flocq Require Import Core IEEE754.BinarySingleNaN.
From Verif Require Import Fl Spec NpList FlFacts FlMag KernelFl KernelFlSpec FlErr KernelFlFacts CholFl RSum CholFlFacts KernelFlMain KernelFlRef KernelFlWit KernelFlThms OutputFl OutputFlSpec.
Import ListNotations.
Local Open Scope R_scope.

Definition lim : R := bpow radix2 400.
Definition low : R := bpow radix2 (-950).
Lemma lim_pos : 0 < lim. Proof. apply bpow_gt_0. Qed.
Lemma low_pos : 0 < low. Proof. apply bpow_gt_0. Qed.
Lemma lim_big : 1073741824 * (lim * lim) <= big.
Proof. unfold lim, big. rewrite <- bpow_plus. change 1073741824 with (bpow radix2 30). rewrite <- bpow_plus. apply bpow_le. lia. Qed.
Lemma lim_1 : 1073741824 <= lim.
Proof. change 1073741824 with (bpow radix2 30). apply bpow_le. lia. Qed.
Lemma eta_low : eta <= uro * uro * low.
Proof. unfold eta, uro, low. rewrite <- !bpow_plus. apply bpow_le. lia. Qed.
Lemma low_1 : low <= 1. Proof. change 1 with (bpow radix2 0). apply bpow_le. lia. Qed.
Lemma eta_1 : eta <= 1. Proof. change 1 with (bpow radix2 0). apply bpow_le. lia. Qed.

(** ** sums *)
Lemma rsum_near {A} (f g : A -> R) al be (l : list A) : 0 <= al -> 0 <= be -> (forall a, In a l -> 0 <= g a /\ Rabs (f a - g a) <= al * g a + be) ->
  Rabs (rsum (map f l) - rsum (map g l)) <= al * rsum (map g l) + INR (length l) * be /\ asum (map f l) <= (1 + al) * rsum (map g l) + INR (length l) * be /\ 0 <= rsum (map g l).
Proof.
  intros A0 B0. induction l as [|a l IH]; intros H.
  - cbn. rewrite Rminus_0_r, Rabs_R0. unfold asum. cbn. lra.
  - destruct IH as (I1 & I2 & I3); [intros b I; apply H; now right|]. destruct (H a (or_introl eq_refl)) as [G E].
    cbn [map length]. rewrite S_INR, asum_cons, !rsum_cons. pose proof (Rabs_near _ _ _ E) as N. rewrite (Rabs_pos_eq (g a)) in N by easy.
    split; [|split]; [|lra|lra].
    replace (f a + rsum (map f l) - (g a + rsum (map g l))) with ((f a - g a) + (rsum (map f l) - rsum (map g l))) by ring.
    eapply Rle_trans; [apply Rabs_triang|]. lra.
Qed.
Lemma rsum_member {A} (g : A -> R) (l : list A) a : (forall b, In b l -> 0 <= g b) -> In a l -> g a <= rsum (map g l).
Proof.
  intros P. induction l as [|b l IH]; intros I; [easy|]. cbn [map]. rewrite rsum_cons.
  assert (0 <= rsum (map g l)). { clear IH I. assert (P' : forall c, In c l -> 0 <= g c) by (intros c I; apply P; now right). clear P. induction l as [|c l IH]; [cbn; lra|]. cbn [map]. rewrite rsum_cons. pose proof (P' c (or_introl eq_refl)). assert (0 <= rsum (map g l)) by (apply IH; intros e I; apply P'; now right). lra. }
  destruct I as [->|I]; [lra|]. assert (g a <= rsum (map g l)) by (apply IH; [intros c J; apply P; now right|exact I]). pose proof (P b (or_introl eq_refl)). lra.
Qed.
Lemma asum_bound M (l : list R) : Forall (fun r => Rabs r <= M) l -> asum l <= INR (length l) * M.
Proof. induction 1 as [|r l H F IH]; [unfold asum; cbn; lra|]. rewrite asum_cons. cbn [length]. rewrite S_INR. lra. Qed.
Lemma fsub_err x y : isfin x = true -> isfin y = true -> Rabs (B2R x - B2R y) <= big ->
  isfin (fsub x y) = true /\ Rabs (B2R (fsub x y) - (B2R x - B2R y)) <= uro * Rabs (B2R x - B2R y).
Proof.
  intros Fx Fy B. pose proof big_pos. destruct (fsub_spec x y Fx Fy) as [V F]; [apply rnd_room; lra|]. split; [exact F|]. rewrite V.
  apply (rnd_plus (B2R x) (- B2R y)); [apply format_B2R|apply generic_format_opp, format_B2R].
Qed.
Lemma fsqrt_near w : isfin w = true -> 0 < B2R w -> isfin (fsqrt w) = true /\ Rabs (B2R (fsqrt w) - sqrt (B2R w)) <= uro * sqrt (B2R w) + eta.
Proof. intros F P. apply (fsqrt_err (B2R w)). split; [exact F|lra]. Qed.
Lemma mul_bound a b c d : 0 <= a <= c -> 0 <= b <= d -> a * b <= c * d.
Proof. intros. apply Rmult_le_compat; lra. Qed.

Section Data.
Variable np_sum : list b64 -> b64.
Hypothesis sum_ok : forall l, sum_of l (np_sum l).
Variables (M : R) (Y : list b64).
Hypotheses (HM : M <= lim) (HY : responses M Y).
Local Notation n := (INR (length Y)).
Local Notation m := (B2R (mean64 np_sum Y)).
Local Notation s := (B2R (std64 np_sum Y)).
Local Notation e y := (B2R y - m).
Local Notation E := (rsum (map (fun y : b64 => e y ^ 2) Y)).
Lemma n_1 : 1 <= n. Proof. destruct HY as (H & _). apply (le_INR 1). lia. Qed.
Lemma n_2 : n <= 1048576. Proof. destruct HY as (_ & H & _). replace (2 ^ 20) with 1048576 in H by ring. exact H. Qed.
Lemma fin_Y y : In y Y -> isfin y = true. Proof. destruct HY as (_ & _ & H). rewrite Forall_forall in H. intros I. apply (H y I). Qed.
Lemma abs_Y y : In y Y -> Rabs (B2R y) <= M. Proof. destruct HY as (_ & _ & H). rewrite Forall_forall in H. intros I. apply (H y I). Qed.
Lemma M_0 : 0 <= M.
Proof. destruct HY as (H & _ & _). assert (X : exists y, In y Y) by (clear - H; destruct Y as [|y r]; [cbn in H; lia|exists y; now left]). destruct X as [y I]. pose proof (abs_Y y I). pose proof (Rabs_pos (B2R y)). lra. Qed.
Lemma count_val : isfin (count64 Y) = true /\ B2R (count64 Y) = n.
Proof.
  pose proof n_2 as N. unfold count64. destruct (fz_small (Z.of_nat (length Y))) as [F V].
  - rewrite INR_IZR_INZ in N. apply (le_IZR _ 1048576) in N. lia.
  - split; [exact F|]. unfold val in V. rewrite V. now rewrite <- INR_IZR_INZ.
Qed.
Lemma nu : 0 < n * uro <= / 8589934592.
Proof. pose proof n_1. pose proof n_2. pose proof uro_pos. rewrite uro_val in *. split; nra. Qed.
(** a sum of as many terms as there are responses *)
Lemma sum_near (l : list b64) : length l = length Y -> fin_all l -> asum (vals l) <= big ->
  isfin (np_sum l) = true /\ Rabs (B2R (np_sum l) - rsum (vals l)) <= n * uro * asum (vals l).
Proof.
  intros L F B. pose proof n_1 as N1. pose proof n_2 as N2. destruct (sum_of_err l (np_sum l) (sum_ok l) F) as [Fs Es]; [now rewrite L|exact B|].
  split; [exact Fs|]. eapply Rle_trans; [exact Es|]. apply Rmult_le_compat_r; [apply asum_ge0|]. rewrite L.
  assert (P : (1 <= length Y)%nat) by (apply INR_le; exact N1).
  pose proof (pow_uro_lin (length Y - 1)) as H. rewrite minus_INR in H by exact P. cbn [INR] in H. specialize (H ltac:(lra)). lra.
Qed.
Lemma div_near (x : b64) : isfin x = true -> Rabs (B2R x) <= big ->
  isfin (fdiv x (count64 Y)) = true /\ Rabs (B2R (fdiv x (count64 Y)) - B2R x / n) <= uro * (Rabs (B2R x) / n) + eta.
Proof.
  intros F B. pose proof n_1 as N1. destruct count_val as [Fc Vc]. pose proof big_pos.
  assert (A : Rabs (B2R x / n) = Rabs (B2R x) / n). { unfold Rdiv. rewrite Rabs_mult. f_equal. apply Rabs_pos_eq. left. apply Rinv_0_lt_compat. lra. }
  destruct (fdiv_err x (count64 Y) F) as [Fd Ed]; [rewrite Vc; lra| |].
  - rewrite Vc, A. apply Rle_trans with big; [|lra]. apply (Rmult_le_reg_r n); [lra|]. unfold Rdiv. rewrite Rmult_assoc, Rinv_l by lra. nra.
  - rewrite Vc, A in Ed. now split.
Qed.
Lemma mean_near : isfin (mean64 np_sum Y) = true /\ Rabs (m - rsum (vals Y) / n) <= (n + 2) * uro * M + eta.
Proof.
  pose proof n_1 as N1. pose proof n_2 as N2. pose proof nu as NU. pose proof M_0 as M0. pose proof uro_pos as U. pose proof lim_pos as LP. pose proof lim_1 as L1. pose proof lim_big as LB.
  assert (A : asum (vals Y) <= n * M).
  { replace n with (INR (length (vals Y))) by (unfold vals; now rewrite map_length). apply asum_bound. apply Forall_forall. intros r I. apply in_map_iff in I. destruct I as (y & <- & I). now apply abs_Y. }
  assert (B1 : n * M <= 1048576 * lim) by (apply mul_bound; lra).
  assert (B2 : 1073741824 * lim <= big) by nra.
  destruct (sum_near Y eq_refl) as [Fs Es]; [apply Forall_forall; apply fin_Y|lra|].
  pose proof (asum_ge0 (vals Y)) as A0. pose proof (rsum_abs (vals Y)) as RA.
  assert (Es' : Rabs (B2R (np_sum Y) - rsum (vals Y)) <= n * uro * (n * M)) by (eapply Rle_trans; [exact Es|apply Rmult_le_compat_l; lra]).
  pose proof (Rabs_near _ _ _ Es') as Bs. set (S0 := B2R (np_sum Y)) in *. set (T := rsum (vals Y)) in *.
  assert (nn : 0 <= n * M) by nra.
  assert (Bs' : Rabs S0 <= (1 + n * uro) * (n * M)) by lra.
  assert (Bs2 : Rabs S0 <= 2 * (n * M)) by nra.
  destruct (div_near (np_sum Y) Fs) as [Fd Ed]; [fold S0; lra|]. fold S0 in Ed. unfold mean64 at 1. split; [exact Fd|]. unfold mean64.
  set (q := B2R (fdiv (np_sum Y) (count64 Y))) in *.
  assert (D1 : Rabs S0 / n <= (1 + n * uro) * M). { apply (Rmult_le_reg_r n); [lra|]. unfold Rdiv. rewrite Rmult_assoc, Rinv_l by lra. lra. }
  assert (D2 : Rabs (S0 / n - T / n) <= n * uro * M).
  { replace (S0 / n - T / n) with ((S0 - T) * / n) by (field; lra). rewrite Rabs_mult, (Rabs_pos_eq (/ n)) by (left; apply Rinv_0_lt_compat; lra).
    apply (Rmult_le_reg_r n); [lra|]. rewrite Rmult_assoc, Rinv_l by lra. lra. }
  replace (q - T / n) with ((q - S0 / n) + (S0 / n - T / n)) by ring. eapply Rle_trans; [apply Rabs_triang|].
  assert (uro * (Rabs S0 / n) <= uro * (2 * M)). { apply Rmult_le_compat_l; [lra|]. nra. } lra.
Qed.
Lemma exact_mean_abs : Rabs (rsum (vals Y) / n) <= M.
Proof.
  pose proof n_1 as N1.
  assert (A : asum (vals Y) <= n * M).
  { replace n with (INR (length (vals Y))) by (unfold vals; now rewrite map_length). apply asum_bound. apply Forall_forall. intros r I. apply in_map_iff in I. destruct I as (y & <- & I). now apply abs_Y. }
  pose proof (rsum_abs (vals Y)) as RA. unfold Rdiv. rewrite Rabs_mult, (Rabs_pos_eq (/ n)) by (left; apply Rinv_0_lt_compat; lra).
  apply (Rmult_le_reg_r n); [lra|]. rewrite Rmult_assoc, Rinv_l by lra. lra.
Qed.
Lemma mean_abs : Rabs m <= 1.000001 * M + eta.
Proof.
  destruct mean_near as [_ H]. pose proof (Rabs_near _ _ _ H) as N. pose proof exact_mean_abs as X. pose proof nu as NU. pose proof M_0 as M0. pose proof uro_val as UV. rewrite UV in *. nra.
Qed.
Lemma dev_abs y : In y Y -> Rabs (e y) <= 2.000001 * M + eta.
Proof. intros I. pose proof (abs_Y y I). pose proof mean_abs. unfold Rminus. pose proof (Rabs_triang (B2R y) (- m)) as T. rewrite Rabs_Ropp in T. lra. Qed.
Lemma dev_lim y : In y Y -> Rabs (e y) <= 3 * lim.
Proof. intros I. pose proof (dev_abs y I). pose proof lim_1. pose proof eta_1. pose proof M_0. lra. Qed.
Lemma dev_near y : In y Y -> isfin (fsub y (mean64 np_sum Y)) = true /\ Rabs (B2R (fsub y (mean64 np_sum Y)) - e y) <= uro * Rabs (e y).
Proof.
  intros I. apply fsub_err; [now apply fin_Y|apply mean_near|]. pose proof (dev_lim y I). pose proof lim_big. pose proof lim_1. nra.
Qed.
Lemma square_near y : In y Y -> let x := fsub y (mean64 np_sum Y) in isfin (fmul x x) = true /\ Rabs (B2R (fmul x x) - e y ^ 2) <= 4 * uro * e y ^ 2 + eta.
Proof.
  intros I x. destruct (dev_near y I) as [Fx Ex]. fold x in Fx, Ex. pose proof (dev_lim y I) as DL. set (d := B2R x) in *. set (r := e y) in *.
  pose proof uro_pos as U. pose proof uro_val as UV. pose proof eta_pos as EP. pose proof lim_pos as LP. pose proof lim_big as LB.
  assert (R2 : r ^ 2 = Rabs r * Rabs r). { rewrite <- (pow2_abs r). ring. }
  assert (Dd : Rabs d <= (1 + uro) * Rabs r) by (pose proof (Rabs_near _ _ _ Ex); lra).
  pose proof (Rabs_pos r) as P. pose proof (Rabs_pos d) as Pd.
  assert (D2 : Rabs (d * d) <= (1 + uro) * (1 + uro) * r ^ 2). { rewrite Rabs_mult, R2. replace ((1 + uro) * (1 + uro) * (Rabs r * Rabs r)) with (((1 + uro) * Rabs r) * ((1 + uro) * Rabs r)) by ring. apply mul_bound; lra. }
  assert (R9 : r ^ 2 <= 9 * (lim * lim)) by (rewrite R2; replace (9 * (lim * lim)) with ((3 * lim) * (3 * lim)) by ring; apply mul_bound; lra).
  assert (r2p : 0 <= r ^ 2) by (rewrite R2; nra).
  assert (C : (1 + uro) * (1 + uro) <= 1.5) by (rewrite UV; lra).
  assert (D3 : Rabs (d * d) <= 1.5 * r ^ 2) by (eapply Rle_trans; [exact D2|]; apply Rmult_le_compat_r; lra).
  destruct (fmul_err x x Fx Fx) as [Fm Em]; [fold d; nra|]. fold d in Em. split; [exact Fm|].
  replace (B2R (fmul x x) - r ^ 2) with ((B2R (fmul x x) - d * d) + (d - r) * (d + r)) by ring. eapply Rle_trans; [apply Rabs_triang|]. rewrite (Rabs_mult (d - r)).
  assert (Rabs (d + r) <= (2 + uro) * Rabs r) by (pose proof (Rabs_triang d r); lra).
  assert (Rabs (d - r) * Rabs (d + r) <= (uro * Rabs r) * ((2 + uro) * Rabs r)) by (apply mul_bound; split; try apply Rabs_pos; lra).
  replace ((uro * Rabs r) * ((2 + uro) * Rabs r)) with (uro * (2 + uro) * r ^ 2) in * by (rewrite R2; ring).
  assert (uro * Rabs (d * d) <= uro * (1.5 * r ^ 2)) by (apply Rmult_le_compat_l; lra).
  assert (uro * (2 + uro) * r ^ 2 <= uro * 2.5 * r ^ 2). { apply Rmult_le_compat_r; [exact r2p|]. apply Rmult_le_compat_l; [lra|]. rewrite UV. lra. } lra.
Qed.
Lemma E_pos : 0 <= E.
Proof. destruct (rsum_near (fun y : b64 => e y ^ 2) (fun y : b64 => e y ^ 2) 0 0 Y) as (_ & _ & H); [lra|lra| |exact H]. intros y I. split; [apply pow2_ge_0|]. rewrite Rminus_diag_eq, Rabs_R0 by reflexivity. lra. Qed.
Lemma E_lim : E <= n * (9 * (lim * lim)).
Proof.
  assert (A : asum (map (fun y : b64 => e y ^ 2) Y) <= INR (length (map (fun y : b64 => e y ^ 2) Y)) * (9 * (lim * lim))).
  { apply asum_bound. apply Forall_forall. intros r I. apply in_map_iff in I. destruct I as (y & <- & I). rewrite <- RPow_abs, <- pow2_abs, Rabs_Rabsolu. pose proof (dev_lim y I) as D. pose proof (Rabs_pos (e y)).
    replace (Rabs (e y) ^ 2) with (Rabs (e y) * Rabs (e y)) by ring. replace (9 * (lim * lim)) with ((3 * lim) * (3 * lim)) by ring. apply mul_bound; lra. }
  rewrite map_length in A. pose proof (rsum_abs (map (fun y : b64 => e y ^ 2) Y)) as R. pose proof (Rle_abs E). lra.
Qed.
(** the argument of the square root *)
Definition var64 : b64 := fdiv (np_sum (map (fun y => let x := fsub y (mean64 np_sum Y) in fmul x x) Y)) (count64 Y).
Lemma var_near : low <= E / n -> isfin var64 = true /\ Rabs (B2R var64 - E / n) <= / 4294967296 * (E / n).
Proof.
  intros LOW. pose proof n_1 as N1. pose proof n_2 as N2. pose proof nu as NU. pose proof uro_pos as U. pose proof uro_val as UV. pose proof eta_pos as EP. pose proof lim_pos as LP. pose proof lim_big as LB. pose proof E_pos as E0. pose proof E_lim as EL. pose proof eta_low as TL. pose proof low_pos as LWP.
  unfold var64. set (sq := fun y => let x := fsub y (mean64 np_sum Y) in fmul x x).
  destruct (rsum_near (fun y : b64 => B2R (sq y)) (fun y : b64 => e y ^ 2) (4 * uro) eta Y) as (Q1 & Q2 & _); [lra|lra| |].
  { intros y I. split; [apply pow2_ge_0|]. apply (square_near y I). }
  assert (MM : map (fun y : b64 => B2R (sq y)) Y = vals (map sq Y)) by (unfold vals; now rewrite map_map). rewrite MM in Q1, Q2.
  set (D := E / n) in *. assert (ED : E = n * D) by (unfold D; field; lra). rewrite ED in *. 
  assert (D0 : 0 <= D) by (unfold D in *; lra).
  assert (nD : n * D <= 10000000 * (lim * lim)). { eapply Rle_trans; [exact EL|]. assert (0 <= lim * lim) by nra. nra. }
  assert (TD : eta <= uro * uro * D). { eapply Rle_trans; [exact TL|]. apply Rmult_le_compat_l; [nra|lra]. }
  assert (TU : uro * uro * D <= / 1000 * (uro * D)). { replace (uro * uro * D) with (uro * (uro * D)) by ring. apply Rmult_le_compat_r; [nra|rewrite UV; lra]. }
  assert (TN : n * eta <= / 1000 * (n * (uro * D))) by nra.
  assert (uD : 0 <= uro * D) by nra. assert (nuD : uro * D <= n * (uro * D)) by nra.
  assert (Q1' : Rabs (rsum (vals (map sq Y)) - n * D) <= 4.001 * (n * (uro * D))) by lra.
  assert (Q2' : asum (vals (map sq Y)) <= 1.0001 * (n * D)).
  { eapply Rle_trans; [exact Q2|]. assert (uro * (n * D) <= / 1000000 * (n * D)) by (apply Rmult_le_compat_r; [nra|rewrite UV; lra]). lra. }
  destruct (sum_near (map sq Y)) as [Fs Es]; [apply map_length| | |].
  { apply Forall_forall. intros x I. apply in_map_iff in I. destruct I as (y & <- & I). apply (square_near y I). }
  { lra. }
  set (S0 := B2R (np_sum (map sq Y))) in *. set (T := rsum (vals (map sq Y))) in *.
  assert (Es' : Rabs (S0 - T) <= n * uro * (1.0001 * (n * D))) by (eapply Rle_trans; [exact Es|apply Rmult_le_compat_l; lra]).
  assert (B : Rabs (S0 - n * D) <= (1.0001 * n + 4.001) * (n * (uro * D))).
  { replace (S0 - n * D) with ((S0 - T) + (T - n * D)) by ring. eapply Rle_trans; [apply Rabs_triang|]. lra. }
  assert (C1 : (1.0001 * n + 4.001) * uro <= / 1000000) by (rewrite UV in *; lra).
  assert (B2 : Rabs (S0 - n * D) <= / 1000000 * (n * D)). { eapply Rle_trans; [exact B|]. replace ((1.0001 * n + 4.001) * (n * (uro * D))) with ((1.0001 * n + 4.001) * uro * (n * D)) by ring. apply Rmult_le_compat_r; [nra|lra]. }
  pose proof (Rabs_near _ _ _ B2) as BS. rewrite (Rabs_pos_eq (n * D)) in BS by nra.
  destruct (div_near (np_sum (map sq Y)) Fs) as [Fd Ed]; [fold S0; lra|]. fold S0 in Ed. split; [exact Fd|].
  set (q := B2R (fdiv (np_sum (map sq Y)) (count64 Y))) in *.
  assert (A1 : Rabs S0 / n <= 1.001 * D). { apply (Rmult_le_reg_r n); [lra|]. unfold Rdiv. rewrite Rmult_assoc, Rinv_l by lra. lra. }
  assert (A2 : Rabs (S0 / n - D) <= (1.0001 * n + 4.001) * (uro * D)).
  { replace (S0 / n - D) with ((S0 - n * D) * / n) by (field; lra). rewrite Rabs_mult, (Rabs_pos_eq (/ n)) by (left; apply Rinv_0_lt_compat; lra).
    apply (Rmult_le_reg_r n); [lra|]. rewrite Rmult_assoc, Rinv_l by lra. lra. }
  replace (q - D) with ((q - S0 / n) + (S0 / n - D)) by ring. eapply Rle_trans; [apply Rabs_triang|].
  assert (uro * (Rabs S0 / n) <= uro * (1.001 * D)) by (apply Rmult_le_compat_l; lra).
  assert (F1 : (1.0001 * n + 6) * uro <= / 4294967296) by (rewrite UV in *; lra).
  assert ((1.0001 * n + 6) * uro * D <= / 4294967296 * D) by (apply Rmult_le_compat_r; lra). lra.
Qed.
Lemma sqrt_between (t D v : R) : 0 <= t <= 1 -> 0 <= D -> Rabs (v - D) <= t * D -> (1 - t) * sqrt D <= sqrt v <= (1 + t) * sqrt D.
Proof.
  intros T D0 H. apply Rabs_le_inv in H. pose proof (sqrt_pos D) as Q. pose proof (sqrt_sqrt D D0) as Q2. split.
  - rewrite <- (sqrt_square ((1 - t) * sqrt D)) by nra. apply sqrt_le_1_alt. replace ((1 - t) * sqrt D * ((1 - t) * sqrt D)) with ((1 - t) * ((1 - t) * D)) by (rewrite <- Q2 at 1; ring). nra.
  - rewrite <- (sqrt_square ((1 + t) * sqrt D)) by nra. apply sqrt_le_1_alt. replace ((1 + t) * sqrt D * ((1 + t) * sqrt D)) with ((1 + t) * ((1 + t) * D)) by (rewrite <- Q2 at 1; ring). nra.
Qed.
Lemma sqrt_low : low <= sqrt low.
Proof. rewrite <- (sqrt_square low) at 1 by (left; apply low_pos). apply sqrt_le_1_alt. pose proof low_1. pose proof low_pos. nra. Qed.
Lemma std_near : low <= E / n -> isfin (std64 np_sum Y) = true /\ Rabs (s - sqrt (E / n)) <= / 2147483648 * sqrt (E / n).
Proof.
  intros LOW. destruct (var_near LOW) as [Fv Ev]. change (std64 np_sum Y) with (fsqrt var64). set (D := E / n) in *. pose proof low_pos as LP.
  pose proof uro_pos as U. pose proof uro_val as UV. pose proof eta_low as TL.
  destruct (fsqrt_near var64 Fv) as [Fs Es]; [apply Rabs_le_inv in Ev; lra|]. split; [exact Fs|].
  destruct (sqrt_between (/ 4294967296) D (B2R var64)) as [S1 S2]; [lra|lra|exact Ev|]. set (q := sqrt (B2R var64)) in *.
  assert (LD : low <= sqrt D) by (apply Rle_trans with (1 := sqrt_low), sqrt_le_1_alt, LOW). set (r := sqrt D) in *.
  assert (eta <= uro * r). { eapply Rle_trans; [exact TL|]. rewrite Rmult_assoc. apply Rmult_le_compat_l; [lra|]. rewrite UV. lra. }
  assert (uro * q <= uro * (2 * r)) by (apply Rmult_le_compat_l; lra).
  assert (uro * r <= / 1000000000000000 * r) by (apply Rmult_le_compat_r; [lra|rewrite UV; lra]).
  apply Rabs_le_inv in Es. apply Rabs_le. lra.
Qed.
End Data.
