(** Functions and surrogates that meet the assumptions of the statements about acquisition functions in binary64, and
    what the acquisitions do after training on constant or non-finite responses. *)
From Coq Require Import ZArith Reals Bool List Lia Lra Permutation.
From Flocq Require Import Core IEEE754.BinarySingleNaN.
From Verif Require Import Fl NpList KernelFl Spec FlFacts FlErr FlMag NpFacts OutputFlMain Normal NormalFacts CholFl OutputFl TrainFl TrainFlSpec TrainFlMain AcqFl AcqFlSpec AcqFlFacts AcqFlMain AcqFlMulti.
Import ListNotations.
Local Open Scope R_scope.

Definition half64 : b64 := fbin 1 (-1).
Definition plain_cdf (z : b64) : b64 := match z with B754_nan => fnan | B754_infinity true => f0 | B754_infinity false => f1 | _ => half64 end.
Definition plain_pdf (z : b64) : b64 := match z with B754_nan => fnan | B754_infinity _ => f0 | _ => half64 end.
Fixpoint plain_prod (l : list b64) : b64 := match l with [] => f1 | [x] => x | x :: r => fmul x (plain_prod r) end.
Lemma half_val : isfin half64 = true /\ B2R half64 = / 2.
Proof.
  unfold half64, fbin. pose proof (binary_normalize_correct 53 1024 eq_refl eq_refl mode_NE 1 (-1) false) as C. cbv zeta in C.
  assert (E : F2R (Float radix2 1 (-1)) = / 2) by (unfold F2R; cbn; lra). rewrite E in C.
  assert (R : round radix2 (SpecFloat.fexp 53 1024) (round_mode mode_NE) (/ 2) = / 2).
  { replace (/ 2) with (bpow radix2 (-1)) by (cbn; lra). apply round_generic; [apply valid_rnd_N|]. apply generic_format_bpow. unfold SpecFloat.fexp, SpecFloat.emin. lia. }
  rewrite R in C. rewrite Rlt_bool_true in C. - destruct C as (A & B & _). now split.
  - rewrite Rabs_pos_eq by lra. apply Rlt_le_trans with (bpow radix2 0); [cbn; lra|apply bpow_le; lia].
Qed.
Lemma unit_half : unit_closed half64. Proof. destruct half_val as [F V]. split; [exact F|]. unfold val. rewrite V. lra. Qed.
Lemma unit_f0 : unit_closed f0. Proof. split; [reflexivity|]. cbn. lra. Qed.
Lemma unit_f1 : unit_closed f1. Proof. split; [reflexivity|]. unfold val. rewrite B2R_f1. lra. Qed.
Lemma plain_kind : normal_kind plain_cdf plain_pdf.
Proof.
  pose proof unit_half. pose proof unit_f0. pose proof unit_f1. repeat split.
  - destruct z; try discriminate; reflexivity.
  - destruct z; try discriminate; reflexivity.
  - destruct z as [|[]| |]; try discriminate; cbn [plain_cdf]; (apply unit_half || apply unit_f0 || apply unit_f1).
  - destruct z as [|[]| |]; try discriminate; cbn [plain_cdf]; (apply unit_half || apply unit_f0 || apply unit_f1).
  - destruct z as [|[]| |]; try discriminate; cbn [plain_cdf]; (apply unit_half || apply unit_f0 || apply unit_f1).
  - destruct z as [|[]| |]; try discriminate; cbn [plain_pdf]; (apply unit_half || apply unit_f0 || apply unit_f1).
  - destruct z as [|[]| |]; try discriminate; cbn [plain_pdf]; (apply unit_half || apply unit_f0 || apply unit_f1).
  - destruct z as [|[]| |]; try discriminate; cbn [plain_pdf]; (apply unit_half || apply unit_f0 || apply unit_f1).
  - exact B2R_f1.
  - intros z F _. unfold val. destruct half_val as [_ V]. destruct z; try discriminate F; cbn [plain_pdf]; rewrite V; lra.
Qed.
Lemma plain_near : normal_near (/ 2) plain_cdf plain_pdf.
Proof.
  intros z F. unfold val. destruct half_val as [_ V]. assert (E : B2R (plain_cdf z) = / 2 /\ B2R (plain_pdf z) = / 2) by (destruct z; try discriminate F; cbn [plain_cdf plain_pdf]; now rewrite V). destruct E as [-> ->].
  pose proof (cdf_lt_1 (B2R z)). pose proof (cdf_gt_0 (B2R z)). pose proof (pdf_pos (B2R z)). pose proof (pdf_max (B2R z)). pose proof pdf_0_bound. split; apply Rabs_le; lra.
Qed.
Lemma plain_ordered : cdf_ordered plain_cdf.
Proof.
  intros z w H. assert (A1 : fle f0 half64 = true) by reflexivity. assert (A2 : fle half64 f1 = true) by reflexivity. assert (A3 : fle half64 half64 = true) by reflexivity. assert (A4 : fle f0 f0 = true) by reflexivity. assert (A5 : fle f1 f1 = true) by reflexivity. assert (A6 : fle f0 f1 = true) by reflexivity.
  destruct z as [|[]| |]; destruct w as [|[]| |]; try (exfalso; revert H; cbn; congruence); cbn [plain_cdf]; assumption.
Qed.
Lemma plain_prod_ok l : prod_of l (plain_prod l).
Proof.
  induction l as [|x [|y r] IH]; [constructor|constructor|]. change (plain_prod (x :: y :: r)) with (fmul x (plain_prod (y :: r))). apply (prod_mul _ [x] (y :: r)); [discriminate|discriminate|reflexivity|constructor|exact IH].
Qed.

(** ** After training on constant or non-finite responses *)
Section Ruined.
Variables (cdf pdf : b64 -> b64).
Hypothesis K : normal_kind cdf pdf.
Variables (np_sum : list b64 -> b64) (np_dot : list (b64 * b64) -> b64) (np_exp np_log np_pow10 : b64 -> b64).
Variable np_cholesky : nat -> array -> result array.
Variable np_solve : nat -> nat -> array -> array -> result array.
Variables (basis : row -> row) (p : nat).
Variable bounds : box.
Theorem ruined o X Y s o' y k0 k1 x : (forall l, dot_of l (np_dot l)) -> solve_keeps np_solve -> (0 < p)%nat ->
  X <> [] -> length Y = length X -> useless (std64 np_sum Y) -> train64 np_sum np_dot np_exp np_log np_pow10 np_cholesky np_solve basis p bounds o X Y s = (o', Ok tt) ->
  let predict := predict_std64 np_sum np_dot np_exp np_solve basis p bounds o' in
  (forall V, ei_eval64 cdf pdf predict y x = Ok V -> Forall (eq fnan) V) /\
  (forall V, pi_eval64 cdf predict y x = Ok V -> Forall (eq fnan) V) /\
  (forall V, lcb_eval64 predict k0 k1 x = Ok V -> Forall (eq fnan) V).
Proof.
  intros D S P NX L U T. cbv zeta. destruct (trained_useless np_sum np_dot np_exp np_log np_pow10 np_cholesky np_solve basis p bounds D o X Y s o' S P NX L U T) as [_ H].
  set (predict := predict_std64 _ _ _ _ _ _ _ _). destruct (predict x) as [[mu sd]|err] eqn:E.
  - destruct (H x mu sd E) as [H1 H2]. apply (all_nan cdf pdf K predict y k0 k1 x mu sd E). now left.
  - split; [|split]; intros V.
    + unfold ei_eval64. destruct (np_min y); [|discriminate]. cbn [bind]. rewrite E. discriminate.
    + unfold pi_eval64. destruct (np_min y); [|discriminate]. cbn [bind]. rewrite E. discriminate.
    + unfold lcb_eval64. rewrite E. discriminate.
Qed.
End Ruined.

(** ** Concrete surrogates *)
Definition flat_model (m s : b64) : predictor64 := fun x => Ok (map (fun _ => m) x, map (fun _ => s) x).
Definition small_surrogate (m s ml sl : b64) : surrogate64 :=
  Surrogate64 (fun x => Ok (map (fun _ => m) x)) (flat_model m s) (flat_model ml sl) [[f0]] [[f1]]
              (fun x X _ => Some (map (fun _ => map (fun _ => half64) X) x)) true (Ok f1).
Lemma one_moderate : moderate_finite f1.
Proof. split; [reflexivity|]. unfold val. rewrite B2R_f1, Rabs_R1. apply pow_R1_Rle. lra. Qed.
Lemma zero_moderate : moderate_finite f0.
Proof. split; [reflexivity|]. cbn. rewrite Rabs_R0. pose proof (pow_lt 2 300 ltac:(lra)). lra. Qed.
Lemma half_moderate : moderate_finite half64.
Proof. destruct half_val as [F V]. split; [exact F|]. unfold val. rewrite V, Rabs_pos_eq by lra. apply Rle_trans with 1; [lra|]. apply pow_R1_Rle. lra. Qed.
Lemma mix_predicted : predicted [f1; fnan; finf; fninf; f1] [half64; f1; f1; f1; finf].
Proof.
  assert (N : forall x, isfin x = false -> moderate x) by (intros x E F; congruence). pose proof (fin_moderate _ one_moderate). pose proof (fin_moderate _ half_moderate).
  assert (D1 : deviation f1) by (right; reflexivity). assert (D2 : deviation half64) by (right; reflexivity). assert (D3 : deviation finf) by (right; reflexivity).
  split; repeat (apply Forall_cons || apply Forall_nil); try split; auto.
Qed.
Lemma flat_finite m s (x : mat) : moderate_finite m -> moderate_finite s -> 0 <= val s -> predicted_finite (map (fun _ => m) x) (map (fun _ => s) x).
Proof. intros A B C. split; apply Forall_map, Forall_forall; auto. Qed.
Lemma small_steady m s ml sl : moderate_finite m -> steady (small_surrogate m s ml sl).
Proof. intros H x ys [= <-]. split; [apply map_length|]. apply Forall_map, Forall_forall. auto. Qed.
Lemma small_crowds m s ml sl : crowds plain_prod (small_surrogate m s ml sl).
Proof.
  intros x X f c [= <-]. apply Forall_map, Forall_forall. intros _ _. assert (U : unit_closed (plain_prod (map (fun _ => half64) X))).
  { apply (prod_unit _ _ (plain_prod_ok _)). apply Forall_map, Forall_forall. intros _ _. apply unit_half. }
  destruct U as [F U]. split; [exact F|]. rewrite Rabs_pos_eq by lra. apply Rle_trans with 1; [lra|]. apply pow_R1_Rle. lra.
Qed.
