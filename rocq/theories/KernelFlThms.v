(** The statements of Properties_KernelFl that need some assembly. *)
From Coq Require Import ZArith Bool List Reals Lra Lia Psatz.
From Flocq Require Import Core IEEE754.BinarySingleNaN.
From Verif Require Import Fl Spec NpList FlFacts FlMag KernelFl KernelFlSpec FlErr KernelFlFacts CholFl RSum CholFlFacts KernelFlMain KernelFlRef KernelFlWit.
Import ListNotations.
Local Open Scope R_scope.

Lemma two53 : / 2 ^ 53 = uro.
Proof. rewrite uro_val. f_equal. ring. Qed.
Lemma ten10 : / 10 ^ 10 = / 10000000000.
Proof. f_equal. ring. Qed.
Lemma entry_c99 np_sum np_dot np_exp :
  (forall l, sum_of l (np_sum l)) -> (forall l, dot_of l (np_dot l)) -> exp_ok np_exp ->
  forall (d : nat) (W : R) (w : row) (X Y : mat) (i j : nat), (1 <= d)%nat -> 1 <= W -> entry_units d W * / 2 ^ 53 <= / 10 ^ 9 ->
  param_row d W w -> scaled_row d (nth i X []) -> scaled_row d (nth j Y []) ->
  isfin (kernel64 np_sum np_dot np_exp w X Y i j) = true /\
  Rabs (val (kernel64 np_sum np_dot np_exp w X Y i j) -
        (exp (- wdist64 w (nth i X []) (nth j Y [])) + if Nat.eqb i j then / 10 ^ 10 else 0)) <= entry_units d W * / 2 ^ 53.
Proof.
  intros S D E d W w X Y i j d1 W1 H Pw Hx Hy. rewrite two53 in *. rewrite ten10.
  apply (kernel64_err d W d1 W1 ltac:(lra) np_sum np_dot np_exp S D E w Pw X Y i j Hx Hy).
Qed.
Ltac fzv := match goal with |- context [fz ?z] => let F := fresh in let V := fresh in destruct (fz_small z ltac:(lia)) as [F V]; rewrite ?F, ?V; clear F V end.
Lemma val_f1 : val f1 = 1. Proof. apply B2R_f1. Qed.
Lemma val_f0 : val f0 = 0. Proof. apply B2R_f0. Qed.
Lemma entry_example : entry_units 10 10000 * / 2 ^ 53 <= / 10 ^ 9 /\ param_row 2 1000 [fz 1000; f1] /\ scaled_row 2 [f1; f0].
Proof.
  split; [|split].
  - unfold entry_units. replace (INR 10) with 10 by (cbn; lra). replace (2 ^ 53) with 9007199254740992 by ring. replace (10 ^ 9) with 1000000000 by ring. lra.
  - split; [reflexivity|]. constructor; [fzv; split; [easy|lra]|]. constructor; [rewrite val_f1; split; [easy|lra]|constructor].
  - split; [reflexivity|]. constructor; [rewrite val_f1, Rabs_pos_eq by lra; split; [easy|lra]|]. constructor; [rewrite val_f0, Rabs_R0; split; [easy|lra]|constructor].
Qed.
Lemma sizes_example : safe_size 34 1 1000 /\ safe_size 15 2 1000 /\ safe_size 600 2 1.
Proof. unfold safe_size, entry_units. rewrite !INR_IZR_INZ. cbn [Z.of_nat Pos.of_succ_nat Pos.succ]. lra. Qed.
Lemma data_example : Forall (scaled_row 2) [[f1; f0]; [f1; f0]; [f0; f0]] /\ isfin f0 = true /\ Rabs (val f0) <= 2 ^ 400.
Proof.
  assert (A : isfin f1 = true /\ Rabs (val f1) <= 1) by (rewrite val_f1, Rabs_pos_eq by lra; split; [easy|lra]).
  assert (B : isfin f0 = true /\ Rabs (val f0) <= 1) by (rewrite val_f0, Rabs_R0; split; [easy|lra]).
  assert (Z : forall u v : b64, isfin u = true /\ Rabs (val u) <= 1 -> isfin v = true /\ Rabs (val v) <= 1 -> scaled_row 2 [u; v]).
  { intros u v Hu Hv. split; [reflexivity|]. constructor; [exact Hu|]. constructor; [exact Hv|constructor]. }
  split; [constructor; [now apply Z|]; constructor; [now apply Z|]; constructor; [now apply Z|constructor]|]. split; [easy|]. apply Rle_trans with (1 := proj2 B). apply pow_R1_Rle. lra.
Qed.
Lemma bad_ok : param_row 1 (2 ^ 24) bad_param /\ Forall (scaled_row 1) bad_pair.
Proof.
  split.
  - split; [reflexivity|]. constructor; [|constructor]. fzv. replace (2 ^ 24) with 16777216 by ring. change (2 ^ 24)%Z with 16777216%Z. split; [easy|lra].
  - assert (H : forall x : b64, isfin x = true -> flt f0 x = true -> flt x f1 = true -> isfin x = true /\ Rabs (val x) <= 1).
    { intros x F A B. split; [exact F|]. apply flt_finite in A; [|easy|exact F]. apply flt_finite in B; [|exact F|easy]. rewrite B2R_f0 in A. rewrite B2R_f1 in B. unfold val. rewrite Rabs_pos_eq; lra. }
    unfold bad_pair, bad_x, bad_y. constructor; [|constructor; [|constructor]]; (split; [reflexivity|]); (constructor; [|constructor]); apply H; vm_compute; reflexivity.
Qed.
Lemma posdef_refuted np_sum np_dot np_exp :
  (forall l, sum_of l (np_sum l)) -> (forall l, dot_of l (np_dot l)) -> exp_ok np_exp ->
  exists (w : row) (X : mat), param_row 1 (2 ^ 24) w /\ Forall (scaled_row 1) X /\ length X = 2%nat /\
    (exists x : nat -> R, x 0%nat <> 0 /\ lower_form 2 (covariance64 np_sum np_dot np_exp w f0 X) x < 0) /\
    val (covariance64 np_sum np_dot np_exp w f0 X 0 0) + / 10 ^ 9 < val (covariance64 np_sum np_dot np_exp w f0 X 1 0) /\
    val (covariance64 np_sum np_dot np_exp w f0 X 1 1) + / 10 ^ 9 < val (covariance64 np_sum np_dot np_exp w f0 X 1 0).
Proof.
  intros S D E. destruct bad_ok as [P F]. exists bad_param, bad_pair. split; [exact P|]. split; [exact F|]. split; [reflexivity|].
  destruct (bad_entries np_sum np_dot np_exp S D E) as ((_ & B0) & (_ & B1) & (_ & B2)). unfold val. replace (/ 10 ^ 9) with (/ 1000000000) by (f_equal; ring).
  split; [|lra]. exists (fun i => if Nat.eqb i 0 then 1 else -1). split; [cbn; lra|].
  unfold lower_form, total. cbn [seq map fold_right Nat.eqb Nat.max Nat.min]. unfold val. lra.
Qed.
Lemma factored_refuted np_sum np_dot np_exp :
  (forall l, sum_of l (np_sum l)) -> (forall l, dot_of l (np_dot l)) -> exp_ok np_exp ->
  exists (w : row) (X : mat), param_row 1 (2 ^ 24) w /\ Forall (scaled_row 1) X /\ length X = 2%nat /\
    (exists r, cholesky64 2 (covariance64 np_sum np_dot np_exp w f0 X) r) /\
    forall r, cholesky64 2 (covariance64 np_sum np_dot np_exp w f0 X) r -> r = Raise LinAlgError.
Proof.
  intros S D E. destruct bad_ok as [P F]. exists bad_param, bad_pair. split; [exact P|]. split; [exact F|]. split; [reflexivity|].
  split; [exact (bad_runs np_sum np_dot np_exp S D E)|exact (bad_fails np_sum np_dot np_exp S D E)].
Qed.

Local Notation fine lh := (isfin (fst lh) = true /\ isfin (snd lh) = true /\ val (fst lh) < val (snd lh) /\ isfin (fsub (snd lh) (fst lh)) = true).
Lemma width_pos (lo hi : b64) : isfin lo = true -> isfin hi = true -> val lo < val hi -> isfin (fsub hi lo) = true ->
  B2R (fsub hi lo) = rnd (B2R hi - B2R lo) /\ 0 < B2R (fsub hi lo).
Proof.
  unfold val. intros Fl Fh LH Fw. pose proof (fsub_fin hi lo Fh Fl Fw) as Vw. split; [exact Vw|]. rewrite Vw.
  pose proof (rnd_plus (B2R hi) (- B2R lo) (format_B2R hi) (generic_format_opp _ _ _ (format_B2R lo))) as E. change (B2R hi + - B2R lo) with (B2R hi - B2R lo) in E.
  rewrite (Rabs_pos_eq (B2R hi - B2R lo)) in E by lra. apply Rabs_le_inv in E. rewrite uro_val in E. lra.
Qed.
Lemma normalize_value (lo hi x : b64) : isfin lo = true -> isfin hi = true -> isfin x = true -> val lo < val hi -> isfin (fsub hi lo) = true -> val lo <= val x <= val hi ->
  val (fdiv (fsub x lo) (fsub hi lo)) = rnd (rnd (val x - val lo) / rnd (val hi - val lo)).
Proof.
  unfold val. intros Fl Fh Fx LH Fw [H1 H2]. destruct (width_pos lo hi Fl Fh LH Fw) as [Vw W0].
  assert (R0 : 0 <= rnd (B2R x - B2R lo) <= rnd (B2R hi - B2R lo)) by (split; [rewrite <- rnd_0|]; apply rnd_le; lra).
  destruct (fsub_spec x lo Fx Fl) as [Vn Fn].
  { rewrite Rabs_pos_eq by lra. apply Rle_lt_trans with (rnd (B2R hi - B2R lo)); [lra|]. rewrite <- Vw. apply Rle_lt_trans with (2 := B2R_lt_fmax (fsub hi lo)). apply Rle_abs. }
  destruct (fdiv_spec (fsub x lo) (fsub hi lo) Fn ltac:(lra)) as [V F]; [|now rewrite V, Vn, Vw].
  assert (Q : 0 <= B2R (fsub x lo) / B2R (fsub hi lo) <= 1).
  { rewrite Vn. split; [apply Rmult_le_pos; [lra|left; now apply Rinv_0_lt_compat]|]. apply (Rmult_le_reg_r (B2R (fsub hi lo))); [exact W0|]. unfold Rdiv. rewrite Rmult_assoc, Rinv_l by lra. lra. }
  rewrite Rabs_pos_eq by (rewrite <- rnd_0; apply rnd_le; lra). apply Rle_lt_trans with (rnd (B2R f1)); [apply rnd_le; rewrite B2R_f1; lra|]. rewrite rnd_B2R, B2R_f1.
  change 1 with (bpow radix2 0). apply bpow_lt_fmax. lia.
Qed.
Lemma normalize_bounds (b : box) : Forall (fun lh => fine lh) b ->
  map val (normalize64 b (map fst b)) = map (fun _ => 0) b /\ map val (normalize64 b (map snd b)) = map (fun _ => 1) b.
Proof.
  induction 1 as [|[lo hi] b (Fl & Fh & LH & Fw) B [IH1 IH2]]; [easy|]. cbn [fst snd] in *. unfold normalize64 in *. cbn [map map2 fst snd]. rewrite IH1, IH2.
  rewrite !normalize_value by (easy || lra). destruct (width_pos lo hi Fl Fh LH Fw) as [Vw W0]. unfold val in *.
  split; f_equal.
  - rewrite Rminus_diag_eq by easy. rewrite rnd_0. unfold Rdiv. now rewrite Rmult_0_l, rnd_0.
  - unfold Rdiv. rewrite Rinv_r by lra. rewrite <- B2R_f1. apply rnd_B2R.
Qed.
Lemma normalize_monotone (b : box) (x y : row) : Forall (fun lh => fine lh) b ->
  Forall2 (fun lh v => isfin v = true /\ val (fst lh) <= val v <= val (snd lh)) b x ->
  Forall2 (fun lh v => isfin v = true /\ val (fst lh) <= val v <= val (snd lh)) b y ->
  Forall2 (fun u v => val u <= val v) x y -> Forall2 (fun u v => val u <= val v) (normalize64 b x) (normalize64 b y).
Proof.
  intros B. revert x y. induction B as [|[lo hi] b (Fl & Fh & LH & Fw) B IH]; intros x y Hx Hy H; [constructor|].
  inversion Hx as [|? u ? x' [Fu Hu] Hx']; subst. inversion Hy as [|? v ? y' [Fv Hv] Hy']; subst. inversion H as [|? ? ? ? Huv H']; subst.
  cbn [fst snd] in *. unfold normalize64 in *. cbn [map2 fst snd]. constructor; [|now apply IH].
  rewrite !normalize_value by easy. destruct (width_pos lo hi Fl Fh LH Fw) as [Vw W0]. unfold val in *. apply rnd_le. unfold Rdiv. apply Rmult_le_compat_r; [left; apply Rinv_0_lt_compat; lra|]. apply rnd_le. lra.
Qed.
Lemma training_set np_sum np_dot np_exp :
  (forall l, sum_of l (np_sum l)) -> (forall l, dot_of l (np_dot l)) -> exp_ok np_exp ->
  forall (b : box) (W : R) (w : row) (sigma : b64) (X : mat), b <> [] -> 1 <= W -> param_row (length b) W w ->
  isfin sigma = true -> Rabs (val sigma) <= 2 ^ 400 -> X <> [] -> safe_size (length X) (length b) W ->
  Forall (fun lh => fine lh) b ->
  Forall (Forall2 (fun lh v => isfin v = true /\ val (fst lh) <= val v <= val (snd lh)) b) X ->
  forall r, cholesky64 (length X) (covariance64 np_sum np_dot np_exp w sigma (map (normalize64 b) X)) r -> exists L, r = Ok L.
Proof.
  intros S D E b W w sigma X B1 W1 Pw Fs Bs X1 SZ B FX r R.
  assert (LX : length (map (normalize64 b) X) = length X) by apply map_length. rewrite <- LX in SZ, R.
  destruct (covariance_factored np_sum np_dot np_exp S D E (length b) W w sigma (map (normalize64 b) X)) with (r := r) as (L & HL & _); try easy.
  - destruct b; [easy|cbn; lia].
  - destruct X; easy.
  - now apply normalized_set.
  - now exists L.
Qed.
Lemma box_example : let b := [(fz (-5), fz 10); (f0, fz 15)] : box in
  Forall (fun lh => fine lh) b /\
  Forall2 (fun lh v => isfin v = true /\ val (fst lh) <= val v <= val (snd lh)) b [fz 3; fz 7].
Proof.
  cbv zeta. split.
  - constructor; [|constructor; [|constructor]]; cbn [fst snd]; rewrite ?val_f0; repeat fzv; repeat split; try easy; lra.
  - constructor; [|constructor; [|constructor]]; cbn [fst snd]; rewrite ?val_f0; repeat fzv; split; try easy; lra.
Qed.
