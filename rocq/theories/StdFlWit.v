(** The two samples of PredFlWit.v: their predicted standard deviations, in order and exchanged. *)
From Coq Require Import ZArith Bool List Reals Lra Lia.
From Flocq Require Import Core IEEE754.BinarySingleNaN.
From Verif Require Import Fl Spec NpList FlFacts KernelFl KernelFlSpec FlErr KernelFlWit CholFl OutputFl OutputFlSpec TrainFl KernelFlFacts PredFlSpec PredFlWit PredFlThms StdFlSpec StdFlMain.
Import ListNotations.
Local Open Scope R_scope.

Definition two_std : mat -> result (list b64 * list b64) := predict_std64 plain_sum plain_dot quick_exp diag_solve constant_basis 1 unit1 (fst two_run).
Lemma two_std_in_order : match two_std two_x with Ok (_, [u; v]) => isfin u && isfin v && feq u f0 && feq v f0 | _ => false end = true.
Proof. reflexivity. Qed.
Lemma two_std_exchanged : match two_std [[f1]; [f0]] with Ok (_, [u; v]) => flt (fbin 1 (-17)) u && flt (fbin 1 (-17)) v && isfin u && isfin v | _ => false end = true.
Proof. reflexivity. Qed.
Definition one_attr (a : name) : bool :=
  match g_attr (fst two_run) a with Some v => Nat.eqb (arr_rows v) 1 && isfin (arr_at v 0%nat 0%nat) && fle f0 (arr_at v 0%nat 0%nat) | None => false end.
Lemma two_ld : one_attr ald = true. Proof. reflexivity. Qed.
Lemma two_sigma2 : one_attr asigma2 = true. Proof. reflexivity. Qed.
Lemma attr_fin a : one_attr a = true ->
  exists c, g_attr (fst two_run) a = Some (Arr 1 c) /\ isfin (c 0%nat 0%nat) = true /\ 0 <= B2R (c 0%nat 0%nat).
Proof.
  unfold one_attr. destruct (g_attr (fst two_run) a) as [[k c]|]; [|discriminate]. cbn [arr_rows arr_at]. intros H. apply andb_prop in H. destruct H as [H L]. apply andb_prop in H. destruct H as [E F]. apply Nat.eqb_eq in E. subst k.
  exists c. split; [reflexivity|]. split; [exact F|]. apply (fle_finite f0 _ eq_refl F) in L. exact L.
Qed.
Lemma two_std_size : std_size 2 1 1024 (/ 2 ^ 52).
Proof. unfold std_size, entry_units. replace (2 ^ 53) with (2 * 2 ^ 52) by ring. assert (E : 2 ^ 52 = 4503599627370496) by ring. rewrite E. cbn [INR]. lra. Qed.
(** the theorem, applied *)
Lemma two_std_run run ld sg means stds i :
  train64 plain_sum plain_dot quick_exp (fun x => x) (fun _ => fz 1024) low_chol diag_solve constant_basis 1 unit1
    (new64 (fun _ => fz 1024) unit1 (Some f0) 0) two_x two_y (Evolution64 [] (Hyper64 [f0] f0)) = (run, Ok tt) ->
  param_row 1 1024 (g_param run) -> g_attr run ald = Some (Arr 1 ld) -> isfin (ld 0%nat 0%nat) = true ->
  g_attr run asigma2 = Some (Arr 1 sg) -> isfin (sg 0%nat 0%nat) = true -> 0 <= B2R (sg 0%nat 0%nat) ->
  predict_std64 plain_sum plain_dot quick_exp diag_solve constant_basis 1 unit1 run two_x = Ok (means, stds) ->
  (i < 2)%nat -> isfin (nth i stds f0) = true -> val (nth i stds f0) = 0.
Proof.
  intros TT PW Hl Fl Hs Fs S0 P Hi. destruct two_responses as [HY HS].
  eapply (std_zero plain_sum plain_dot quick_exp (fun x => x) (fun _ => fz 1024) low_chol diag_solve unit1 plain_sum_ok plain_dot_ok quick_exp_ok
    (/ 2 ^ 52) 1024 1 (new64 (fun _ => fz 1024) unit1 (Some f0) 0) two_x two_y (Evolution64 [] (Hyper64 [f0] f0)) run f0 low_chol_ok low_chol_lower diag_solve_stable).
  - left. apply Rinv_0_lt_compat, pow_lt. lra.
  - cbn. lia.
  - lra.
  - exact two_std_size.
  - exact two_box.
  - exact two_inside.
  - reflexivity.
  - apply pow_R1_Rle. lra.
  - exact HY.
  - exact HS.
  - exact TT.
  - exact PW.
  - reflexivity.
  - reflexivity.
  - exact Hs.
  - exact Fs.
  - exact S0.
  - exact Hl.
  - exact Fl.
  - exact P.
  - exact Hi.
  - exact Hi.
  - reflexivity.
Qed.
Lemma two_std_eq Z : two_std Z = predict_std64 plain_sum plain_dot quick_exp diag_solve constant_basis 1 unit1 (fst two_run) Z.
Proof. reflexivity. Qed.
Lemma two_train_const : train64 plain_sum plain_dot quick_exp (fun x => x) (fun _ => fz 1024) low_chol diag_solve constant_basis 1 unit1
    (new64 (fun _ => fz 1024) unit1 (Some f0) 0) two_x two_y (Evolution64 [] (Hyper64 [f0] f0)) = (fst two_run, Ok tt).
Proof. exact two_train. Qed.
Lemma two_std_zero means stds i : two_std two_x = Ok (means, stds) -> (i < 2)%nat -> isfin (nth i stds f0) = true -> val (nth i stds f0) = 0.
Proof.
  rewrite two_std_eq. destruct (attr_fin ald two_ld) as (ld & Hl & Fl & _). destruct (attr_fin asigma2 two_sigma2) as (sg & Hs & Fs & S0).
  exact (two_std_run (fst two_run) ld sg means stds i two_train_const two_param Hl Fl Hs Fs S0).
Qed.

(** the same solver, raising instead of returning a NaN or an infinity *)
Definition careful_solve (n m : nat) (A B : array) : result array :=
  match diag_solve n m A B with
  | Ok X => if forallb (fun i => forallb (fun j => isfin (X i j)) (seq 0 m)) (seq 0 n) then Ok X else Raise LinAlgError
  | Raise e => Raise e
  end.
Lemma careful_ok n m A B X : careful_solve n m A B = Ok X -> diag_solve n m A B = Ok X /\ forall i j, (i < n)%nat -> (j < m)%nat -> isfin (X i j) = true.
Proof.
  unfold careful_solve. destruct (diag_solve n m A B) as [X0|]; [|discriminate]. destruct (forallb _ _) eqn:F; [|discriminate]. intros E. injection E as <-. split; [reflexivity|].
  intros i j Hi Hj. rewrite forallb_forall in F. specialize (F i ltac:(apply in_seq; lia)). cbv beta in F. rewrite forallb_forall in F. apply F. apply in_seq. lia.
Qed.
Lemma careful_stable : backward_stable (/ 2 ^ 52) careful_solve.
Proof. intros n m A B X a j E. exact (diag_solve_stable n m A B X a j (proj1 (careful_ok _ _ _ _ _ E))). Qed.
Lemma careful_finite : finite_solutions careful_solve.
Proof. intros n m A B X E. exact (proj2 (careful_ok _ _ _ _ _ E)). Qed.
Definition careful_run : gp64 * result unit :=
  train64 plain_sum plain_dot quick_exp (fun x => x) (fun _ => fz 1024) low_chol careful_solve constant_basis 1 unit1
    (new64 (fun _ => fz 1024) unit1 (Some f0) 0) two_x two_y (Evolution64 [] (Hyper64 [f0] f0)).
Definition careful_std : mat -> result (list b64 * list b64) := predict_std64 plain_sum plain_dot quick_exp careful_solve constant_basis 1 unit1 (fst careful_run).
Lemma careful_trained : match snd careful_run with Ok _ => true | Raise _ => false end = true.
Proof. reflexivity. Qed.
Lemma careful_train : train64 plain_sum plain_dot quick_exp (fun x => x) (fun _ => fz 1024) low_chol careful_solve constant_basis 1 unit1
    (new64 (fun _ => fz 1024) unit1 (Some f0) 0) two_x two_y (Evolution64 [] (Hyper64 [f0] f0)) = (fst careful_run, Ok tt).
Proof. pose proof careful_trained as H. change (train64 _ _ _ _ _ _ _ _ _ _ _ _ _ _) with careful_run. destruct careful_run as [o [[]|]]; [reflexivity|discriminate H]. Qed.
Lemma careful_predicts : match careful_std two_x with Ok (_, [_; _]) => true | _ => false end = true.
Proof. reflexivity. Qed.
Lemma careful_param : param_row 1 1024 (g_param (fst careful_run)).
Proof. assert (E : g_param (fst careful_run) = [fz 1024]) by reflexivity. rewrite E. split; [reflexivity|]. destruct (fz_small 1024) as [F V]; [lia|]. constructor; [|constructor]. rewrite V. split; [exact F|lra]. Qed.
Definition small_sigma2 : bool :=
  match g_attr (fst careful_run) asigma2 with Some v => Nat.eqb (arr_rows v) 1 && within f0 (fz 1024) (arr_at v 0%nat 0%nat) && isfin (arr_at v 0%nat 0%nat) | None => false end.
Lemma careful_sigma2 : small_sigma2 = true. Proof. reflexivity. Qed.
Lemma careful_variance : exists c, g_attr (fst careful_run) asigma2 = Some (Arr 1 c) /\ isfin (c 0%nat 0%nat) = true /\ 0 <= B2R (c 0%nat 0%nat) <= 1024.
Proof.
  pose proof careful_sigma2 as H. unfold small_sigma2 in H. destruct (g_attr (fst careful_run) asigma2) as [[k c]|]; [|discriminate]. cbn [arr_rows arr_at] in H. apply andb_prop in H. destruct H as [H F]. apply andb_prop in H. destruct H as [E L]. apply Nat.eqb_eq in E. subst k.
  apply andb_prop in L. destruct L as [L1 L2]. exists c. split; [reflexivity|]. split; [exact F|]. apply (fle_finite f0 _ eq_refl F) in L1. destruct (fz_small 1024) as [F' V]; [lia|]. apply (fle_finite _ _ F F') in L2. unfold val in V. rewrite V in L2. split; [exact L1|exact L2].
Qed.
Lemma careful_std_run run sg means stds i :
  train64 plain_sum plain_dot quick_exp (fun x => x) (fun _ => fz 1024) low_chol careful_solve constant_basis 1 unit1
    (new64 (fun _ => fz 1024) unit1 (Some f0) 0) two_x two_y (Evolution64 [] (Hyper64 [f0] f0)) = (run, Ok tt) ->
  param_row 1 1024 (g_param run) ->
  g_attr run asigma2 = Some (Arr 1 sg) -> isfin (sg 0%nat 0%nat) = true -> 0 <= B2R (sg 0%nat 0%nat) <= 1024 ->
  predict_std64 plain_sum plain_dot quick_exp careful_solve constant_basis 1 unit1 run two_x = Ok (means, stds) ->
  (i < 2)%nat -> isfin (nth i stds f0) = true /\ val (nth i stds f0) = 0.
Proof.
  intros TT PW Hs Fs S0 P Hi. destruct two_responses as [HY HS].
  eapply (std_finite plain_sum plain_dot quick_exp (fun x => x) (fun _ => fz 1024) low_chol careful_solve unit1 plain_sum_ok plain_dot_ok quick_exp_ok
    (/ 2 ^ 52) 1024 1 (new64 (fun _ => fz 1024) unit1 (Some f0) 0) two_x two_y (Evolution64 [] (Hyper64 [f0] f0)) run f0 low_chol_ok low_chol_lower careful_stable).
  - left. apply Rinv_0_lt_compat, pow_lt. lra.
  - cbn. lia.
  - lra.
  - exact two_std_size.
  - exact two_box.
  - exact two_inside.
  - reflexivity.
  - apply pow_R1_Rle. lra.
  - exact HY.
  - exact HS.
  - exact TT.
  - exact PW.
  - reflexivity.
  - reflexivity.
  - exact Hs.
  - exact Fs.
  - exact (proj1 S0).
  - exact careful_finite.
  - apply Rle_trans with (1 := proj2 S0). apply Rle_trans with (2 ^ 10); [cbn; lra|apply Rle_pow; [lra|lia]].
  - exact P.
  - exact Hi.
  - exact Hi.
  - reflexivity.
Qed.
Lemma careful_std_eq Z : careful_std Z = predict_std64 plain_sum plain_dot quick_exp careful_solve constant_basis 1 unit1 (fst careful_run) Z.
Proof. reflexivity. Qed.
Lemma careful_zero : exists means stds, careful_std two_x = Ok (means, stds) /\ forall i, (i < 2)%nat -> isfin (nth i stds f0) = true /\ val (nth i stds f0) = 0.
Proof.
  pose proof careful_predicts as H. destruct (careful_std two_x) as [[means stds]|] eqn:P; [|discriminate H]. exists means, stds. split; [reflexivity|]. rewrite careful_std_eq in P. destruct careful_variance as (sg & Hs & Fs & S0).
  intros i. exact (careful_std_run (fst careful_run) sg means stds i careful_train careful_param Hs Fs S0 P).
Qed.
