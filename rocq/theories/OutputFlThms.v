(** The statements about scaled responses. *)
From Coq Require Import ZArith Bool List Reals Lra Lia Psatz Permutation.
From Flocq Require Import Core IEEE754.BinarySingleNaN.
From Verif Require Import Fl Spec NpList FlFacts FlMag KernelFl KernelFlSpec FlErr KernelFlFacts CholFl RSum CholFlFacts KernelFlMain KernelFlRef KernelFlWit KernelFlThms OutputFl OutputFlSpec OutputFlFacts OutputFlMain.
Import ListNotations.
Local Open Scope R_scope.

Lemma map_rep {A B} (f : A -> B) x k : map f (repeat x k) = repeat (f x) k.
Proof. induction k as [|k IH]; [easy|]. cbn. now rewrite IH. Qed.
Section Sum.
Variable np_sum : list b64 -> b64.
Hypothesis sum_ok : forall l, sum_of l (np_sum l).
Lemma normalize_map Y : normalize_output64 np_sum Y = map (scaled np_sum Y) Y. Proof. reflexivity. Qed.

(** ** spread responses *)
Lemma out_scaled M Y : M <= 2 ^ 400 -> responses M Y -> spread Y ->
  isfin (mean64 np_sum Y) = true /\ isfin (std64 np_sum Y) = true /\ 0 < val (std64 np_sum Y) /\
  Forall (fun v => isfin v = true /\ Rabs (val v) <= sqrt (INR (length Y)) * (1 + / 2 ^ 30)) (normalize_output64 np_sum Y).
Proof.
  rewrite lim_pow. intros HM HY HS. pose proof (spread_low np_sum M Y HY HS) as LOW.
  split; [apply (mean_near np_sum sum_ok M Y HM HY)|]. split; [apply (s_fin np_sum sum_ok M Y HM HY LOW)|]. split; [apply (s_pos np_sum sum_ok M Y HM HY LOW)|].
  rewrite normalize_map. apply Forall_forall. intros v I. apply in_map_iff in I. destruct I as (y & <- & I). apply (scaled_abs np_sum sum_ok M Y HM HY LOW y I).
Qed.
Lemma out_moment M Y : M <= 2 ^ 400 -> responses M Y -> spread Y ->
  Rabs (mean_real (map (fun v => val v ^ 2) (normalize_output64 np_sum Y)) - 1) <= / 2 ^ 29.
Proof.
  rewrite lim_pow. intros HM HY HS. pose proof (spread_low np_sum M Y HY HS) as LOW. unfold mean_real. rewrite normalize_map, map_map, map_length.
  apply (second_moment np_sum sum_ok M Y HM HY LOW).
Qed.
Lemma out_monotone M Y : M <= 2 ^ 400 -> responses M Y -> spread Y -> forall i j, (i < length Y)%nat -> (j < length Y)%nat ->
  val (nth i Y f0) <= val (nth j Y f0) -> val (nth i (normalize_output64 np_sum Y) f0) <= val (nth j (normalize_output64 np_sum Y) f0).
Proof.
  rewrite lim_pow. intros HM HY HS i j Hi Hj H. pose proof (spread_low np_sum M Y HY HS) as LOW. rewrite normalize_map.
  rewrite !(nth_indep _ f0 (scaled np_sum Y f0)) by (rewrite map_length; assumption). rewrite !map_nth.
  apply (scaled_mono np_sum sum_ok M Y HM HY LOW); [now apply nth_In|now apply nth_In|exact H].
Qed.
Lemma out_restored M Y : M <= 2 ^ 400 -> responses M Y -> spread Y -> forall i, (i < length Y)%nat ->
  let z := restored64 np_sum Y (nth i (normalize_output64 np_sum Y) f0) in isfin z = true /\ Rabs (val z - val (nth i Y f0)) <= / 2 ^ 50 * M.
Proof.
  rewrite lim_pow. intros HM HY HS i Hi. pose proof (spread_low np_sum M Y HY HS) as LOW. cbv zeta. rewrite normalize_map.
  rewrite (nth_indep _ f0 (scaled np_sum Y f0)) by (rewrite map_length; assumption). rewrite map_nth.
  destruct (spread_dev np_sum M Y HY HS) as (_ & _ & _ & ML). apply (restored_near np_sum sum_ok M Y HM HY LOW); [exact ML|now apply nth_In].
Qed.
Lemma mean_real_vals Y : mean_real (map val Y) = rsum (vals Y) / INR (length Y).
Proof. unfold mean_real. rewrite map_length. reflexivity. Qed.
Lemma out_mean M Y : M <= 2 ^ 400 -> responses M Y ->
  isfin (mean64 np_sum Y) = true /\ Rabs (val (mean64 np_sum Y) - mean_real (map val Y)) <= (INR (length Y) + 2) * / 2 ^ 53 * M + / 2 ^ 1075.
Proof.
  rewrite lim_pow. intros HM HY. destruct (mean_near np_sum sum_ok M Y HM HY) as [F H]. split; [exact F|]. rewrite mean_real_vals, !inv_pow. exact H.
Qed.
Lemma shift_sum (c d : R) (l : list b64) : rsum (map (fun y : b64 => (B2R y - c) ^ 2) l) =
  rsum (map (fun y : b64 => (B2R y - d) ^ 2) l) + 2 * (d - c) * (rsum (vals l) - INR (length l) * d) + INR (length l) * (d - c) ^ 2.
Proof. induction l as [|y l IH]; [cbn; ring|]. cbn [map vals length]. fold (vals l). rewrite !rsum_cons, IH, S_INR. ring. Qed.
Lemma out_std M Y : M <= 2 ^ 400 -> responses M Y -> spread Y ->
  Rabs (val (std64 np_sum Y) - std_real (map val Y)) <= / 2 ^ 31 * std_real (map val Y) + (INR (length Y) + 3) * / 2 ^ 53 * M.
Proof.
  rewrite lim_pow. intros HM HY HS. pose proof (spread_low np_sum M Y HY HS) as LOW. destruct (spread_dev np_sum M Y HY HS) as (_ & _ & _ & ML).
  destruct (std_near np_sum sum_ok M Y HM HY LOW) as [_ H]. destruct (mean_near np_sum sum_ok M Y HM HY) as [_ HMN].
  pose proof (n_1 M Y HY) as N1. pose proof (n_2 M Y HY) as N2. unfold std_real. rewrite mean_real_vals. unfold mean_real. rewrite map_map, !map_length.
  set (n := INR (length Y)) in *. set (ybar := rsum (vals Y) / n) in *. change (sum_real (map (fun x => (val x - ybar) ^ 2) Y)) with (rsum (map (fun y : b64 => (B2R y - ybar) ^ 2) Y)).
  pose proof (shift_sum (B2R (mean64 np_sum Y)) ybar Y) as SH. fold n in SH. set (c := B2R (mean64 np_sum Y)) in *. set (E := rsum (map (fun y : b64 => (B2R y - c) ^ 2) Y)) in *. set (V := rsum (map (fun y : b64 => (B2R y - ybar) ^ 2) Y)) in *.
  replace (rsum (vals Y) - n * ybar) with 0 in SH by (unfold ybar; field; lra). set (del := Rabs (c - ybar)) in *.
  assert (V0 : 0 <= V). { unfold V. destruct (rsum_near (fun y : b64 => (B2R y - ybar) ^ 2) (fun y : b64 => (B2R y - ybar) ^ 2) 0 0 Y) as (_ & _ & G); [lra|lra| |exact G]. intros y I. split; [apply pow2_ge_0|]. rewrite Rminus_diag_eq, Rabs_R0 by reflexivity. lra. }
  assert (EQ : E / n = V / n + del * del). { rewrite SH. replace (del * del) with ((ybar - c) ^ 2) by (unfold del; rewrite <- Rabs_mult, Rabs_pos_eq; [ring|apply Rle_0_sqr]). field. lra. }
  pose proof (Rabs_pos (c - ybar)) as DP. fold del in DP.
  assert (VN : 0 <= V / n) by (apply Rmult_le_pos; [exact V0|left; apply Rinv_0_lt_compat; lra]).
  assert (S1 : sqrt (V / n) <= sqrt (E / n)) by (apply sqrt_le_1_alt; nra).
  assert (S2 : sqrt (E / n) <= sqrt (V / n) + del).
  { pose proof (sqrt_pos (V / n)) as Q. rewrite <- (sqrt_square (sqrt (V / n) + del)) by lra. apply sqrt_le_1_alt. rewrite EQ. pose proof (sqrt_sqrt (V / n) VN). nra. }
  set (rE := sqrt (E / n)) in *. set (rV := sqrt (V / n)) in *. unfold val. set (s := B2R (std64 np_sum Y)) in *.
  rewrite !inv_pow. change (bpow radix2 (- Z.of_nat 53)) with uro. change (bpow radix2 (- Z.of_nat 31)) with (/ 2147483648).
  assert (eM : eta <= / 1000 * (uro * M)).
  { apply Rle_trans with (bpow radix2 (-10 + (-53 + -401))); [apply bpow_le; lia|]. rewrite bpow_plus, (bpow_plus _ (-53)). fold uro. change (bpow radix2 (-10)) with (/ 1024). pose proof (bpow_gt_0 radix2 (-401)). pose proof uro_pos.
      assert (uro * bpow radix2 (-401) <= uro * M) by (apply Rmult_le_compat_l; lra). nra. }
  assert (uM : 0 < uro * M) by (apply Rmult_lt_0_compat; [apply uro_pos|pose proof (bpow_gt_0 radix2 (-401)); lra]).
  assert (n * (uro * M) <= 1048576 * (uro * M)) by (apply Rmult_le_compat_r; lra).
  apply Rabs_le_inv in H. apply Rabs_le. lra.
Qed.

(** ** constant responses *)
Lemma zero_of x : isfin x = true -> B2R x = 0 -> exists b, x = B754_zero b.
Proof.
  destruct x as [b|b| |b p q H]; intros F V; try discriminate F; [now exists b|]. exfalso. cbn [B2R] in V. apply eq_0_F2R in V. cbn in V. destruct b; discriminate V.
Qed.
Lemma zero_div b (c : b64) : isfin c = true -> 0 < B2R c -> exists b', fdiv (B754_zero b) c = B754_zero b'.
Proof. destruct c as [d|d| |d p q H]; intros F V; try discriminate F; [cbn in V; lra|]. cbn. eauto. Qed.
Lemma sum_zeros (l : list b64) : INR (length l) <= 1048576 -> (forall x, In x l -> isfin x = true /\ B2R x = 0) -> isfin (np_sum l) = true /\ B2R (np_sum l) = 0.
Proof.
  intros L H. assert (A : asum (vals l) = 0 /\ rsum (vals l) = 0).
  { assert (G : forall x, In x l -> B2R x = 0) by (intros x I; apply (H x I)). clear - G. induction l as [|x l IH]; [split; reflexivity|]. destruct IH as [I1 I2]; [intros y J; apply G; now right|]. unfold vals in *. cbn [map]. rewrite asum_cons, rsum_cons, I1, I2, (G x (or_introl eq_refl)), Rabs_R0. lra. }
  destruct A as [A1 A2]. destruct (sum_of_err l (np_sum l) (sum_ok l)) as [F E]; [apply Forall_forall; intros x I; apply (H x I)|exact L|rewrite A1; left; apply big_pos|].
  split; [exact F|]. rewrite A1, A2, Rmult_0_r, Rminus_0_r in E. apply Rabs_le_inv in E. lra.
Qed.
(** if the computed mean is every response, the quotients are 0/0 *)
Lemma flat Y : INR (length Y) <= 1048576 -> (0 < length Y)%nat -> isfin (mean64 np_sum Y) = true -> (forall y, In y Y -> isfin y = true /\ B2R y = B2R (mean64 np_sum Y)) ->
  normalize_output64 np_sum Y = map (fun _ => fnan) Y.
Proof.
  intros L P Fm H. unfold normalize_output64. cbv zeta. apply map_ext_in. intros y I. set (m := mean64 np_sum Y) in *.
  assert (D : forall z, In z Y -> exists b, fsub z m = B754_zero b).
  { intros z J. destruct (H z J) as [Fz Vz]. destruct (fsub_spec z m Fz Fm) as [V F]; [rewrite Vz, Rminus_diag_eq, rnd_0, Rabs_R0 by reflexivity; apply (Rle_lt_trans _ _ _ (Rabs_pos (B2R z)) (B2R_lt_fmax z))|].
    apply zero_of; [exact F|]. rewrite V, Vz, Rminus_diag_eq, rnd_0 by reflexivity. reflexivity. }
  destruct (D y I) as [b Eb]. rewrite Eb.
  assert (S0 : exists b', std64 np_sum Y = B754_zero b').
  { unfold std64. cbv zeta. fold m. set (l := map (fun y => let x := fsub y m in fmul x x) Y).
    destruct (sum_zeros l) as [Fs Vs]; [unfold l; now rewrite map_length| |].
    - intros x J. unfold l in J. apply in_map_iff in J. destruct J as (z & <- & J). destruct (D z J) as [bz Ez]. cbv zeta. rewrite Ez. now destruct bz.
    - destruct (zero_of _ Fs Vs) as [b1 E1]. rewrite E1.
      assert (C : isfin (count64 Y) = true /\ 0 < B2R (count64 Y)).
      { unfold count64. destruct (fz_small (Z.of_nat (length Y))) as [F V]. - rewrite INR_IZR_INZ in L. apply (le_IZR _ 1048576) in L. lia. - split; [exact F|]. unfold val in V. rewrite V. apply (IZR_lt 0). lia. }
      destruct (zero_div b1 (count64 Y) (proj1 C) (proj2 C)) as [b2 E2]. rewrite E2. exists b2. now destruct b2. }
  destruct S0 as [b' Es]. rewrite Es. reflexivity.
Qed.
Lemma fdiv_one (y : b64) : isfin y = true -> isfin (fdiv y f1) = true /\ B2R (fdiv y f1) = B2R y.
Proof.
  intros F. assert (Q : rnd (B2R y / B2R f1) = B2R y) by (rewrite B2R_f1; unfold Rdiv; rewrite Rinv_1, Rmult_1_r; apply rnd_B2R).
  destruct (fdiv_spec y f1 F) as [V G]; [rewrite B2R_f1; lra|rewrite Q; apply B2R_lt_fmax|]. split; [exact G|now rewrite V].
Qed.
Lemma out_single y : isfin y = true -> normalize_output64 np_sum [y] = [fnan].
Proof.
  intros F. assert (E : mean64 np_sum [y] = fdiv y f1) by (unfold mean64; rewrite (sum_single y _ (sum_ok [y])); reflexivity).
  destruct (fdiv_one y F) as [G V]. apply (flat [y]); [cbn; lra|cbn; lia|now rewrite E|]. intros z [<-|[]]. rewrite E. now rewrite V.
Qed.
Lemma sum_pair x y s : sum_of [x; y] s -> s = fadd x y \/ s = fadd y x.
Proof.
  inversion 1 as [|z Hz|l l1 l2 s1 s2 N1 N2 P S1 S2]; subst. pose proof (Permutation_length P) as L. rewrite app_length in L. cbn in L.
  destruct l1 as [|a [|]]; [easy| |destruct l2; [easy|cbn in L; lia]]. destruct l2 as [|b [|]]; [easy| |cbn in L; lia].
  apply sum_single in S1. apply sum_single in S2. subst. cbn [app] in P. apply Permutation_length_2 in P. destruct P as [[-> ->]|[-> ->]]; auto.
Qed.
Lemma B2R_fz2 : B2R (fz 2) = 2. Proof. apply fz2. Qed.
Lemma out_pair y : isfin y = true -> normalize_output64 np_sum [y; y] = [fnan; fnan].
Proof.
  intros F. assert (E : mean64 np_sum [y; y] = fdiv (fadd y y) (fz 2)) by (unfold mean64; destruct (sum_pair y y _ (sum_ok [y; y])) as [-> | ->]; reflexivity).
  destruct (isfin (fadd y y)) eqn:FA.
  - assert (VA : B2R (fadd y y) = B2R y + B2R y).
    { rewrite (fadd_fin y y F F FA). replace (B2R y + B2R y) with (B2R y * bpow radix2 1) by (change (bpow radix2 1) with 2; ring). apply rnd_scaled; [apply format_B2R|lia]. }
    assert (Q : B2R (fadd y y) / B2R (fz 2) = B2R y) by (rewrite VA, B2R_fz2; field).
    destruct (fdiv_spec (fadd y y) (fz 2) FA) as [V G]; [rewrite B2R_fz2; lra|rewrite Q, rnd_B2R; apply B2R_lt_fmax|]. rewrite Q, rnd_B2R in V.
    apply (flat [y; y]); [cbn; lra|cbn; lia|now rewrite E|]. intros z [<-|[<-|[]]]; rewrite E; now rewrite V.
  - assert (NN : isnan (fadd y y) = false) by (apply fadd_nnan; [exact F|now apply isfin_not_nan]).
    destruct (fin_or _ NN) as [G|I]; [congruence|].
    assert (IN : exists b, mean64 np_sum [y; y] = B754_infinity b) by (rewrite E; destruct I as [-> | ->]; eexists; reflexivity). destruct IN as [b Em].
    assert (Ed : fsub y (mean64 np_sum [y; y]) = B754_infinity (negb b)) by (rewrite Em; destruct y as [sg|sg| |sg p q H]; try discriminate F; destruct b; try (destruct sg; reflexivity); reflexivity).
    unfold normalize_output64, std64. cbv zeta. cbn [map]. rewrite Ed. destruct (sum_pair _ _ _ (sum_ok [fmul (B754_infinity (negb b)) (B754_infinity (negb b)); fmul (B754_infinity (negb b)) (B754_infinity (negb b))])) as [-> | ->]; destruct b; reflexivity.
Qed.

(** both neighbours are multiples of 2^-454 *)
Lemma gap_low (x y : b64) : bpow radix2 (-401) <= Rabs (B2R x) -> bpow radix2 (-401) <= Rabs (B2R y) -> B2R x <> B2R y -> bpow radix2 (-454) <= Rabs (B2R x - B2R y).
Proof.
  assert (G : forall z : b64, bpow radix2 (-401) <= Rabs (B2R z) -> exists k, B2R z = IZR k * bpow radix2 (-454)).
  { intros z B. assert (F : generic_format radix2 (FIX_exp (-454)) (B2R z)).
    { apply (generic_inclusion_ge radix2 fexp64 (FIX_exp (-454)) (-401)); [|exact B|apply format_B2R]. intros k K. unfold FIX_exp, SpecFloat.fexp, SpecFloat.emin. lia. }
    apply FIX_format_generic in F. destruct F as [f V Ex]. destruct f as [fm fe]. cbn in Ex. exists fm. rewrite V, Ex. reflexivity. }
  intros X Y N. destruct (G x X) as [k E1]. destruct (G y Y) as [j E2]. rewrite E1, E2 in *. pose proof (bpow_gt_0 radix2 (-454)) as P.
  replace (IZR k * bpow radix2 (-454) - IZR j * bpow radix2 (-454)) with (IZR (k - j) * bpow radix2 (-454)) by (rewrite minus_IZR; ring).
  rewrite Rabs_mult, (Rabs_pos_eq (bpow _ _)) by lra. rewrite <- abs_IZR. assert (1 <= IZR (Z.abs (k - j))); [|nra]. apply (IZR_le 1).
  assert (k <> j) by (intros ->; now apply N). lia.
Qed.
Lemma vals_repeat (c : b64) k : rsum (vals (repeat c k)) = INR k * B2R c.
Proof. induction k as [|k IH]; [cbn; ring|]. cbn [repeat]. unfold vals in *. cbn [map]. rewrite rsum_cons, IH, S_INR. ring. Qed.
Lemma out_constant (c : b64) (k : nat) : isfin c = true -> / 2 ^ 400 <= Rabs (val c) <= 2 ^ 400 -> (0 < k)%nat -> INR k <= 2 ^ 20 ->
  exists v, normalize_output64 np_sum (repeat c k) = repeat v k /\ (v = fnan \/ isfin v = true /\ Rabs (Rabs (val v) - 1) <= / 2 ^ 30).
Proof.
  intros F [C1 C2] K1 K2. rewrite lim_pow in C2. rewrite inv_pow in C1. set (Y := repeat c k).
  assert (LY : length Y = k) by apply repeat_length.
  assert (AY : forall y, In y Y -> y = c) by (intros y I; now apply repeat_spec in I).
  assert (IC : In c Y) by (unfold Y; destruct k; [lia|now left]).
  assert (HY : responses (Rabs (val c)) Y). { unfold responses. rewrite LY. split; [exact K1|]. split; [exact K2|]. apply Forall_forall. intros y I. rewrite (AY y I). split; [exact F|lra]. }
  destruct (mean_near np_sum sum_ok _ Y C2 HY) as [Fm Em]. unfold Y in Em at 2. rewrite vals_repeat in Em. rewrite LY in Em. unfold val in *. set (m := B2R (mean64 np_sum Y)) in *.
  pose proof (n_1 _ Y HY) as N1. pose proof (n_2 _ Y HY) as N2. pose proof (nu _ Y HY) as NU. rewrite LY in N1, N2, NU.
  replace (INR k * B2R c / INR k) with (B2R c) in Em by (field; lra).
  assert (NM : normalize_output64 np_sum Y = repeat (scaled np_sum Y c) k). { rewrite normalize_map. unfold Y at 2. rewrite map_rep. reflexivity. }
  destruct (Req_dec m (B2R c)) as [EQ|NE].
  - exists fnan. split; [|now left]. rewrite (flat Y); [unfold Y at 1; now rewrite map_rep|now rewrite LY|now rewrite LY|exact Fm|].
    intros y I. rewrite (AY y I). split; [exact F|symmetry; exact EQ].
  - exists (scaled np_sum Y c). split; [exact NM|]. right.
    assert (CC : bpow radix2 (-401) + bpow radix2 (-401) <= Rabs (B2R c)) by (rewrite <- bpow_double; exact C1).
    assert (ES : eta <= / 1000 * bpow radix2 (-401)). { apply Rle_trans with (bpow radix2 (-10 + -401)); [apply bpow_le; lia|]. rewrite bpow_plus. change (bpow radix2 (-10)) with (/ 1024). pose proof (bpow_gt_0 radix2 (-401)). lra. }
    assert (MB : bpow radix2 (-401) <= Rabs m).
    { pose proof (bpow_gt_0 radix2 (-401)) as HP. set (h := bpow radix2 (-401)) in *. clearbody h. pose proof (Rabs_triang_inv (B2R c) (B2R c - m)) as T. replace (B2R c - (B2R c - m)) with m in T by ring. rewrite Rabs_minus_sym in Em. assert ((INR k + 2) * uro * Rabs (B2R c) <= / 4 * Rabs (B2R c)); [|lra]. apply Rmult_le_compat_r; [apply Rabs_pos|]. rewrite uro_val in *. lra. }
    assert (GL : bpow radix2 (-454) <= Rabs (B2R c - m)) by (apply gap_low; [pose proof (bpow_gt_0 radix2 (-401)); lra|exact MB|intros Q; apply NE; unfold m; now rewrite Q]).
    assert (LOW : low <= rsum (map (fun y : b64 => (B2R y - m) ^ 2) Y) / INR (length Y)) by (apply (dev_low np_sum _ Y HY c (-454)); [lia|exact IC|exact GL]).
    destruct (scaled_near np_sum sum_ok _ Y C2 HY LOW c IC) as [Fv Ev]. fold m in Ev. split; [exact Fv|].
    assert (ER : sqrt (rsum (map (fun y : b64 => (B2R y - m) ^ 2) Y) / INR (length Y)) = Rabs (B2R c - m)).
    { rewrite <- sqrt_Rsqr_abs. f_equal. rewrite LY. replace (rsum (map (fun y : b64 => (B2R y - m) ^ 2) Y)) with (INR k * (B2R c - m) ^ 2); [unfold Rsqr; field; lra|].
      unfold Y. clear. generalize m. intros q. induction k as [|k IH]; [cbn; ring|]. cbn [repeat map]. rewrite rsum_cons, <- IH, S_INR. ring. }
    rewrite ER in Ev. set (x := B2R c - m) in *. pose proof (bpow_gt_0 radix2 (-454)) as P0.
    assert (AX : Rabs (x / Rabs x) = 1). { unfold Rdiv. rewrite Rabs_mult, Rabs_pos_eq with (x := / Rabs x) by (left; apply Rinv_0_lt_compat; lra). apply Rinv_r. lra. }
    rewrite AX in Ev. set (v := B2R (scaled np_sum Y c)) in *. set (g := x / Rabs x) in *.
    pose proof (Rabs_triang_inv2 v g) as T. rewrite AX in T. replace (/ 2 ^ 30) with (/ 1073741824) by (f_equal; ring). pose proof eta_tiny as ET. rewrite uro_val in ET. lra.
Qed.

(** ** non-finite responses *)
Lemma fadd_nan_l y : fadd fnan y = fnan. Proof. reflexivity. Qed.
Lemma fadd_nan_r x : fadd x fnan = fnan. Proof. now destruct x. Qed.
Lemma sum_nan l s : sum_of l s -> In fnan l -> s = fnan.
Proof.
  induction 1 as [|x|l l1 l2 s1 s2 N1 N2 P S1 IH1 S2 IH2]; intros I; [easy|destruct I as [->|[]]; reflexivity|].
  apply (Permutation_in _ P) in I. apply in_app_or in I. destruct I as [I|I]; [rewrite (IH1 I); reflexivity|rewrite (IH2 I); apply fadd_nan_r].
Qed.
Lemma fadd_inf_l b y : fadd (B754_infinity b) y = B754_infinity b \/ fadd (B754_infinity b) y = fnan.
Proof. destruct y as [|c| |]; destruct b; auto; destruct c; auto. Qed.
Lemma fadd_inf_r b y : fadd y (B754_infinity b) = B754_infinity b \/ fadd y (B754_infinity b) = fnan.
Proof. destruct y as [c|c| |c]; destruct b; auto; destruct c; auto. Qed.
Lemma sum_inf l s b : sum_of l s -> In (B754_infinity b) l -> s = B754_infinity b \/ s = fnan.
Proof.
  induction 1 as [|x|l l1 l2 s1 s2 N1 N2 P S1 IH1 S2 IH2]; intros I; [easy|destruct I as [->|[]]; auto|].
  apply (Permutation_in _ P) in I. apply in_app_or in I. destruct I as [I|I].
  - destruct (IH1 I) as [-> | ->]; [apply fadd_inf_l|now right].
  - destruct (IH2 I) as [-> | ->]; [apply fadd_inf_r|right; apply fadd_nan_r].
Qed.
Lemma fdiv_nan_r x : fdiv x fnan = fnan. Proof. now destruct x. Qed.
Lemma fsub_nan_r x : fsub x fnan = fnan. Proof. now destruct x. Qed.
Lemma std_nan Y y : In y Y -> fsub y (mean64 np_sum Y) = fnan -> std64 np_sum Y = fnan.
Proof.
  intros I H. unfold std64. cbv zeta. rewrite (sum_nan (map (fun y => fmul (fsub y (mean64 np_sum Y)) (fsub y (mean64 np_sum Y))) Y) _ (sum_ok _)); [reflexivity|].
  apply in_map_iff. exists y. split; [cbv zeta; now rewrite H|exact I].
Qed.
Lemma out_poison Y : INR (length Y) <= 2 ^ 20 -> (exists y, In y Y /\ isfin y = false) -> normalize_output64 np_sum Y = map (fun _ => fnan) Y.
Proof.
  intros L (y & I & F). replace (2 ^ 20) with 1048576 in L by ring.
  assert (N : std64 np_sum Y = fnan).
  { assert (C : isfin (count64 Y) = true /\ 0 < B2R (count64 Y)).
    { unfold count64. destruct (fz_small (Z.of_nat (length Y))) as [G V]. - rewrite INR_IZR_INZ in L. apply (le_IZR _ 1048576) in L. lia. - split; [exact G|]. unfold val in V. rewrite V. apply (IZR_lt 0). destruct Y; [easy|cbn; lia]. }
    apply (std_nan Y y I). destruct y as [b|b| |b p q H]; try discriminate F.
    - assert (M : mean64 np_sum Y = B754_infinity b \/ mean64 np_sum Y = fnan).
      { unfold mean64. destruct (sum_inf Y _ b (sum_ok Y) I) as [-> | ->]; [left|now right].
        destruct (count64 Y) as [d|d| |d p q H]; destruct C as [C1 C2]; try discriminate C1; [cbn in C2; lra|]. destruct d; [|now destruct b].
        exfalso. pose proof (F2R_lt_0 radix2 (Float radix2 (Zneg p) q) eq_refl) as N. cbn [B2R] in C2. change (cond_Zopp true (Z.pos p)) with (Z.neg p) in C2. lra. }
      destruct M as [-> | ->]; [now destruct b|reflexivity].
    - reflexivity. }
  unfold normalize_output64. cbv zeta. rewrite N. apply map_ext. intros z. apply fdiv_nan_r.
Qed.
End Sum.

(** ** counterexamples *)
Definition tenth : b64 := fbin 3602879701896397 (-55).
Lemma sum_three x s : sum_of [x; x; x] s -> s = fadd x (fadd x x) \/ s = fadd (fadd x x) x.
Proof.
  inversion 1 as [|z Hz|l l1 l2 s1 s2 N1 N2 P S1 S2]; subst. pose proof (Permutation_length P) as L. rewrite app_length in L. cbn in L.
  assert (A : forall a, In a (l1 ++ l2) -> a = x). { intros a I. apply (Permutation_in _ (Permutation_sym P)) in I. destruct I as [<-|[<-|[<-|[]]]]; reflexivity. }
  destruct l1 as [|a [|b [|]]]; [easy| | |destruct l2; [easy|cbn in L; lia]].
  - destruct l2 as [|c [|d [|]]]; try (cbn in L; lia). rewrite (A a), (A c), (A d) in * by (cbn; auto). apply sum_single in S1. subst s1.
    left. destruct (sum_pair _ _ _ S2) as [-> | ->]; reflexivity.
  - destruct l2 as [|c [|]]; try (cbn in L; lia). rewrite (A a), (A b), (A c) in * by (cbn; auto). apply sum_single in S2. subst s2.
    right. destruct (sum_pair _ _ _ S1) as [-> | ->]; reflexivity.
Qed.
Lemma SF_eq (x y : b64) : B2SF x = B2SF y -> x = y. Proof. apply B2SF_inj. Qed.
Lemma constant_refuted np_sum : (forall l, sum_of l (np_sum l)) ->
  exists y : b64, isfin y = true /\ normalize_output64 np_sum [y; y; y] = [fz (-1); fz (-1); fz (-1)] /\ val y < val (mean64 np_sum [y; y; y]).
Proof.
  intros H. exists tenth. split; [vm_compute; reflexivity|].
  assert (M : mean64 np_sum [tenth; tenth; tenth] = fbin 7205759403792795 (-56)).
  { unfold mean64. destruct (sum_three _ _ (H [tenth; tenth; tenth])) as [-> | ->]; apply SF_eq; vm_compute; reflexivity. }
  assert (Q : std64 np_sum [tenth; tenth; tenth] = fbin 1 (-56)).
  { unfold std64. cbv zeta. rewrite M. cbn [map]. destruct (sum_three _ _ (H [fmul (fsub tenth (fbin 7205759403792795 (-56))) (fsub tenth (fbin 7205759403792795 (-56))); fmul (fsub tenth (fbin 7205759403792795 (-56))) (fsub tenth (fbin 7205759403792795 (-56))); fmul (fsub tenth (fbin 7205759403792795 (-56))) (fsub tenth (fbin 7205759403792795 (-56)))])) as [-> | ->]; apply SF_eq; vm_compute; reflexivity. }
  split.
  - unfold normalize_output64. cbv zeta. rewrite M, Q. cbn [map]. enough (X : fdiv (fsub tenth (fbin 7205759403792795 (-56))) (fbin 1 (-56)) = fz (-1)) by (now rewrite X). apply SF_eq. vm_compute. reflexivity.
  - rewrite M. unfold val. apply flt_finite; [vm_compute; reflexivity|vm_compute; reflexivity|vm_compute; reflexivity].
Qed.
Lemma tiny_refuted np_sum : (forall l, sum_of l (np_sum l)) ->
  exists y z : b64, isfin y = true /\ isfin z = true /\ val y < val z /\ normalize_output64 np_sum [y; z] = [fninf; finf].
Proof.
  intros H. set (t := fbin 1 (-600)). exists f0, t. split; [reflexivity|]. split; [vm_compute; reflexivity|]. split; [apply flt_finite; vm_compute; reflexivity|].
  assert (M : mean64 np_sum [f0; t] = fbin 1 (-601)) by (unfold mean64; destruct (sum_pair _ _ _ (H [f0; t])) as [-> | ->]; apply SF_eq; vm_compute; reflexivity).
  assert (Q : std64 np_sum [f0; t] = f0).
  { unfold std64. cbv zeta. rewrite M. cbn [map]. destruct (sum_pair _ _ _ (H [fmul (fsub f0 (fbin 1 (-601))) (fsub f0 (fbin 1 (-601))); fmul (fsub t (fbin 1 (-601))) (fsub t (fbin 1 (-601)))])) as [-> | ->]; apply SF_eq; vm_compute; reflexivity. }
  unfold normalize_output64. cbv zeta. rewrite M, Q. cbn [map].
  replace (fdiv (fsub f0 (fbin 1 (-601))) f0) with fninf by (apply SF_eq; vm_compute; reflexivity). replace (fdiv (fsub t (fbin 1 (-601))) f0) with finf by (apply SF_eq; vm_compute; reflexivity). reflexivity.
Qed.
Lemma responses_example : responses 10 [fz 3; fz (-7); fz 10] /\ spread [fz 3; fz (-7); fz 10] /\ 10 <= 2 ^ 400.
Proof.
  split; [|split].
  - split; [cbn; lia|]. split; [cbn [length]; rewrite INR_IZR_INZ; replace (2 ^ 20) with 1048576 by ring; cbn; lra|].
    repeat (apply Forall_cons; [fzv; split; [easy|apply Rabs_le; lra]|]). apply Forall_nil.
  - exists (fz 3), (fz (-7)). split; [now left|]. split; [right; now left|]. do 2 fzv. apply Rle_trans with (/ 1); [|lra]. apply Rinv_le; [lra|]. apply pow_R1_Rle. lra.
  - apply Rle_trans with (2 ^ 4); [lra|]. apply Rle_pow; [lra|lia].
Qed.
