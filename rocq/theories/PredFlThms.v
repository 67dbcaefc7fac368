(** Predictions at the samples of a model without noise; the example. *)
From Coq Require Import ZArith Bool List Reals Lra Lia Psatz Permutation.
From Flocq Require Import Core IEEE754.BinarySingleNaN.
From Verif Require Import Fl Spec NpList FlFacts FlMag KernelFl KernelFlSpec FlErr KernelFlFacts CholFl RSum CholFlFacts KernelFlMain KernelFlRef KernelFlWit KernelFlThms OutputFl OutputFlSpec OutputFlFacts OutputFlMain OutputFlThms TrainFl TrainFlFacts TrainFlMain TrainFlWit PredFlSpec PredFlMean PredFlCore PredFlMain PredFlWit.
Import ListNotations.
Local Open Scope R_scope.

Lemma feq_zero_cases x : feq x f0 = true -> exists b, x = B754_zero b.
Proof. intros H. apply feq_iff in H. destruct H as [A B]. destruct x as [b|b| |b m e K]; [eexists; reflexivity|destruct b; discriminate|discriminate|destruct b; discriminate]. Qed.
Section Main.
Variables (np_sum : list b64 -> b64) (np_dot : list (b64 * b64) -> b64) (np_exp np_log np_pow10 : b64 -> b64).
Variable np_cholesky : nat -> array -> result array.
Variable np_solve : nat -> nat -> array -> array -> result array.
Variables (basis : row -> row) (p : nat).
Variable bounds : box.
Local Notation train := (train64 np_sum np_dot np_exp np_log np_pow10 np_cholesky np_solve basis p bounds).
Local Notation predict := (predict64 np_sum np_dot np_exp basis p bounds).
Local Notation d := (length bounds).
Hypotheses (sum_ok : forall l, sum_of l (np_sum l)) (dot_ok : forall l, dot_of l (np_dot l)) (E_ok : exp_ok np_exp).
Lemma kept_noise o X Y se o' noise : train o X Y se = (o', Ok tt) -> g_noise o = Some noise -> g_noise o' = Some noise.
Proof.
  intros E H. destruct (train_cases np_sum np_dot np_exp np_log np_pow10 np_cholesky np_solve basis p bounds o X Y se) as [(e & _ & F)|(h & _ & F)]; rewrite E in F; [discriminate F|].
  destruct (update_frame np_sum np_dot np_exp np_log np_pow10 np_cholesky np_solve basis p (put_opt64 (put_data64 o (dataset64 np_sum bounds X Y)) h) _ h eq_refl eq_refl) as (_ & _ & _ & _ & N).
  rewrite <- F in N. cbn [fst put_opt64 put_data64 g_noise] in N. rewrite H in N. exact N.
Qed.
Theorem noise_free (eps W M : R) o X Y se o' noise beta gamma :
  (forall n A, cholesky64 n A (np_cholesky n A)) -> lower_factor np_cholesky -> backward_stable eps np_solve -> 0 <= eps <= / 10 ->
  (1 <= d)%nat -> 1 <= W -> safe_size (length X) d W -> finite_box bounds -> Forall (inside bounds) X ->
  length X = length Y -> M <= 2 ^ 400 -> responses M Y -> spread Y -> INR p <= 2 ^ 20 -> basis_ok d p basis ->
  train o X Y se = (o', Ok tt) -> param_row d W (g_param o') -> g_noise o = Some noise -> feq noise f0 = true ->
  g_attr o' abeta = Some (Arr p beta) -> g_attr o' agamma = Some (Arr (length X) gamma) ->
  finite_weights p beta -> finite_weights (length X) gamma -> mass p beta + mass (length X) gamma <= 2 ^ 500 ->
  exists out, predict o' X = Ok out /\ forall i, (i < length X)%nat -> isfin (nth i out f0) = true /\
    Rabs (val (nth i out f0) - val (nth i Y f0)) <=
      val (std64 np_sum Y) * (INR (length X) + mass p beta + mass (length X) gamma) *
      ((2 * entry_units d W + 5 * INR (length X) + 2 * INR p + 24) * / 2 ^ 53 + 3 * INR (length X) * eps) + / 2 ^ 50 * M + / 2 ^ 350.
Proof.
  intros Ch Lo So e0 d1 W1 SZ Bx FX XY HM HY HS P20 Bo T Pw Hn Z Hb Hg FB FG AG.
  destruct (feq_zero_cases noise Z) as [z ->]. pose proof (kept_noise _ _ _ _ _ _ T Hn) as Hn'.
  assert (S : isfin (std64 np_sum Y) = true /\ 0 < B2R (std64 np_sum Y)) by (destruct (out_scaled np_sum sum_ok M Y HM HY HS) as (_ & F & P & _); split; [exact F|exact P]).
  destruct (zero_div z (std64 np_sum Y) (proj1 S) (proj2 S)) as [z2 E2].
  assert (V0 : val (fmul (fdiv (B754_zero z) (std64 np_sum Y)) (fdiv (B754_zero z) (std64 np_sum Y))) = 0) by (rewrite E2; destruct z2; reflexivity).
  assert (PR : exists out, predict o' X = Ok out).
  { destruct (trained np_sum np_dot np_exp np_log np_pow10 np_cholesky np_solve basis p bounds o X Y se o' T) as (_ & _ & _ & _ & D & _).
    unfold predict64. rewrite D. cbn [get64 bind dataset64 d_x]. cbv zeta. rewrite Hb, Hg. unfold get_rows. cbn [get64 bind arr_rows arr_at]. rewrite !Nat.eqb_refl. cbn [bind]. eexists. reflexivity. }
  destruct PR as [out PR]. exists out. split; [exact PR|]. intros i Hi.
  destruct (interpolates np_sum np_dot np_exp np_log np_pow10 np_cholesky np_solve basis p bounds sum_ok dot_ok E_ok eps W M o X Y se o' (B754_zero z) beta gamma Ch Lo So e0 d1 W1 SZ Bx FX XY HM HY HS P20 Bo T Pw Hn') with (Xq := X) (out := out) (i := i) (j := i) as [F Er]; try assumption; try reflexivity.
  - rewrite E2. reflexivity.
  - rewrite E2. unfold val. cbn [B2R]. rewrite Rabs_R0. apply pow_le. lra.
  - split; [exact F|]. rewrite V0, (proj2 (Nat.ltb_lt i (length X)) Hi) in Er. rewrite Rplus_0_r, (Rmult_1_l (mass (length X) gamma)) in Er.
    replace (val (nth i Y f0) + val (std64 np_sum Y) * (/ 10 ^ 10 * (val (gamma i 0%nat) - val (gamma i 0%nat)) - 0 * val (gamma i 0%nat))) with (val (nth i Y f0)) in Er by ring. exact Er.
Qed.
End Main.

(** ** the two samples meet the hypotheses *)
Lemma within_val lo hi v : isfin lo = true -> isfin hi = true -> within lo hi v = true -> isfin v = true /\ B2R lo <= B2R v <= B2R hi.
Proof.
  intros Fl Fh H. unfold within in H. apply andb_prop in H. destruct H as [A B].
  assert (F : isfin v = true).
  { destruct v as [b|b| |b m e K]; try reflexivity; [|destruct lo as [c|c| |c ? ? ?]; discriminate]. destruct b; [destruct lo as [c|c| |c ? ? ?]; discriminate|destruct hi as [c|c| |c ? ? ?]; discriminate]. }
  split; [exact F|]. split; [exact (proj1 (fle_finite _ _ Fl F) A)|exact (proj1 (fle_finite _ _ F Fh) B)].
Qed.
Lemma small_weights a n : small_attr a n = true -> exists c, g_attr (fst two_run) a = Some (Arr n c) /\ finite_weights n c /\ mass n c <= 4 * INR n.
Proof.
  unfold small_attr. destruct (g_attr (fst two_run) a) as [[k c]|]; [|discriminate]. cbn [arr_rows arr_at]. intros H. apply andb_prop in H. destruct H as [E B]. apply Nat.eqb_eq in E. subst k. exists c. split; [reflexivity|].
  rewrite forallb_forall in B. destruct (fz_small (-4)) as [F1 V1]; [lia|]. destruct (fz_small 4) as [F2 V2]; [lia|]. unfold val in V1, V2.
  assert (H : forall i, (i < n)%nat -> isfin (c i 0%nat) = true /\ Rabs (B2R (c i 0%nat)) <= 4).
  { intros i Hi. specialize (B i ltac:(apply in_seq; lia)). cbv beta in B. destruct (within_val _ _ _ F1 F2 B) as [F R]. split; [exact F|]. rewrite V1, V2 in R. apply Rabs_le. lra. }
  split; [intros i Hi; apply H, Hi|]. unfold mass. rewrite total_rs. apply Rle_trans with (rs n (fun _ => 4)); [apply rs_le; intros k Hk; apply H, Hk|rewrite rs_const; lra].
Qed.
Lemma two_box : finite_box unit1.
Proof. repeat constructor. cbn [fst snd]. unfold val. rewrite B2R_f1. cbn. lra. Qed.
Lemma two_inside : Forall (inside unit1) two_x.
Proof. repeat (apply Forall_cons || apply Forall_nil); (apply Forall2_cons; [|apply Forall2_nil]); cbn [fst snd]; unfold val; rewrite ?B2R_f1; change (B2R f0) with 0; (split; [reflexivity|lra]). Qed.
Lemma two_responses : responses 1 two_y /\ spread two_y.
Proof.
  assert (V : B2R (fopp f1) = - 1) by (unfold fopp; rewrite B2R_Bopp, B2R_f1; reflexivity). split.
  - split; [cbn; lia|]. split; [cbn; lra|]. repeat (apply Forall_cons || apply Forall_nil); (split; [reflexivity|]); unfold val; rewrite ?V, ?B2R_f1; apply Rabs_le; lra.
  - exists f1, (fopp f1). split; [now left|]. split; [right; now left|]. unfold val. rewrite V, B2R_f1. apply Rle_trans with 1; [|lra]. rewrite <- Rinv_1. apply Rinv_le; [lra|]. apply pow_R1_Rle. lra.
Qed.
Lemma two_safe : safe_size 2 1 1024.
Proof. unfold safe_size, entry_units. cbn. lra. Qed.
Lemma two_param : param_row 1 1024 (g_param (fst two_run)).
Proof. assert (E : g_param (fst two_run) = [fz 1024]) by reflexivity. rewrite E. split; [reflexivity|]. destruct (fz_small 1024) as [F V]; [lia|]. constructor; [|constructor]. rewrite V. split; [exact F|lra]. Qed.
Lemma two_basis : basis_ok 1 1 (fun _ => [f1]).
Proof. intros x _ k Hk. assert (k = 0%nat) by lia. subst k. cbn [nth]. split; [reflexivity|]. unfold val. rewrite B2R_f1, Rabs_pos_eq; lra. Qed.
Lemma two_train : train64 plain_sum plain_dot quick_exp (fun x => x) (fun _ => fz 1024) low_chol diag_solve (fun _ => [f1]) 1 unit1
    (new64 (fun _ => fz 1024) unit1 (Some f0) 0) two_x two_y (Evolution64 [] (Hyper64 [f0] f0)) = (fst two_run, Ok tt).
Proof. pose proof two_ok as H. change (train64 _ _ _ _ _ _ _ _ _ _ _ _ _ _) with two_run. destruct two_run as [o [[]|]]; [reflexivity|discriminate H]. Qed.
(** the theorem, applied *)
Lemma two_interpolates : exists out, two_predict two_x = Ok out /\ forall i, (i < 2)%nat -> isfin (nth i out f0) = true /\
  Rabs (val (nth i out f0) - val (nth i two_y f0)) <= val (std64 plain_sum two_y) * 14 * (52000 * / 2 ^ 53 + 6 * / 2 ^ 52) + / 2 ^ 50 + / 2 ^ 350.
Proof.
  destruct (small_weights abeta 1 two_beta) as (beta & Hb & FB & MB). destruct (small_weights agamma 2 two_gamma) as (gamma & Hg & FG & MG). destruct two_responses as [HY HS].
  change (INR 1) with 1 in MB. change (INR 2) with 2 in MG.
  assert (P5 : 100 <= 2 ^ 500) by (apply Rle_trans with (2 ^ 7); [cbn; lra|apply Rle_pow; [lra|lia]]).
  destruct (noise_free plain_sum plain_dot quick_exp (fun x => x) (fun _ => fz 1024) low_chol diag_solve (fun _ => [f1]) 1 unit1 plain_sum_ok plain_dot_ok quick_exp_ok
    (/ 2 ^ 52) 1024 1 (new64 (fun _ => fz 1024) unit1 (Some f0) 0) two_x two_y (Evolution64 [] (Hyper64 [f0] f0)) (fst two_run) f0 beta gamma low_chol_ok low_chol_lower diag_solve_stable) as (out & P & H).
  - split; [left; apply Rinv_0_lt_compat, pow_lt; lra|]. apply Rinv_le; [lra|]. apply Rle_trans with (2 ^ 4); [cbn; lra|apply Rle_pow; [lra|lia]].
  - cbn. lia. - lra. - exact two_safe. - exact two_box. - exact two_inside. - reflexivity. - apply pow_R1_Rle. lra. - exact HY. - exact HS.
  - cbn. lra. - exact two_basis. - exact two_train. - exact two_param. - reflexivity. - reflexivity. - exact Hb. - exact Hg. - exact FB. - exact FG.
  - change (length two_x) with 2%nat. set (q := 2 ^ 500) in *. clearbody q. lra.
  - exists out. split; [exact P|]. intros i Hi. destruct (H i Hi) as [F Er]. split; [exact F|]. eapply Rle_trans; [exact Er|]. change (length two_x) with 2%nat. change (INR 2) with 2. change (INR 1) with 1. rewrite (Rmult_1_r (/ 2 ^ 50)).
    destruct (out_scaled plain_sum plain_sum_ok 1 two_y ltac:(apply pow_R1_Rle; lra) HY HS) as (_ & _ & S & _). set (s := val (std64 plain_sum two_y)) in *.
    apply Rplus_le_compat_r, Rplus_le_compat_r. assert (A0 : 0 <= mass 1 beta) by apply mass_pos. assert (G0 : 0 <= mass 2 gamma) by apply mass_pos.
    assert (u0 : 0 < / 2 ^ 53) by (apply Rinv_0_lt_compat, pow_lt; lra). assert (v0 : 0 < / 2 ^ 52) by (apply Rinv_0_lt_compat, pow_lt; lra). set (u := / 2 ^ 53) in *. set (v := / 2 ^ 52) in *. clearbody u v.
    assert (EU : entry_units (length unit1) 1024 = 25604) by (unfold entry_units; cbn; lra). rewrite EU.
    apply Rmult_le_compat; try lra. + apply Rmult_le_pos; lra. + apply Rmult_le_compat_l; lra.
Qed.
