(** Numerical facts about the test problems, by interval arithmetic. *)
From Coq Require Import Reals List ZArith Lra Lia Psatz.
From Interval Require Import Tactic.
From Verif Require Import Fl Problems ProblemsFacts ProblemsMore.
Import ListNotations.
Local Open Scope R_scope.

(** ** Forrester *)
Lemma forrester_lower x : 0 <= x <= 1 -> -6.0207401 <= forrester x.
Proof. intros H. unfold forrester. interval with (i_bisect x, i_taylor x, i_depth 20, i_prec 50). Qed.
Lemma forrester_declared : Rabs (forrester forrester_scheme - forrester_optimum) <= / 10 ^ 6.
Proof. unfold forrester, forrester_scheme, forrester_optimum. interval with (i_prec 60). Qed.

(** ** Branin *)
Lemma pi_bounds : 3.14 < PI < 3.15.
Proof. split; interval with (i_prec 40). Qed.
Lemma branin_declared : Rabs (5 / (4 * PI) - branin_optimum) <= / 10 ^ 6 /\
  Forall (fun p => Rabs (branin (fst p) (snd p) - branin_optimum) <= / 10 ^ 6) branin_scheme.
Proof.
  unfold branin_scheme, branin_optimum. split; [interval with (i_prec 60)|].
  repeat constructor; cbn [fst snd]; unfold branin; cbv zeta; interval with (i_prec 60).
Qed.

(** ** Sixhump *)
Lemma sixhump_reduce x y : let t := Rabs x in
  4 * t ^ 2 - 2.1 * t ^ 4 + t ^ 6 / 3 - 0.7072 * t - 0.03126 * t ^ 2 - 1 <= sixhump x y.
Proof.
  intros t. assert (T0 : 0 <= t) by apply Rabs_pos. assert (T2 : t ^ 2 = x ^ 2) by (unfold t; apply pow2_abs).
  set (k := 0.0884). set (c := 1 / 2 + k * t).
  assert (Q : 4 * y ^ 4 >= 8 * c * y ^ 2 - 4 * c ^ 2).
  { pose proof (pow2_ge_0 (y ^ 2 - c)). replace (y ^ 4) with ((y ^ 2) ^ 2) by ring. lra. }
  assert (X : x * y + 8 * k * t * y ^ 2 >= - (t / (32 * k))).
  { assert (A : - (t * Rabs y) <= x * y).
    { unfold t. rewrite <- Rabs_mult. pose proof (Rle_abs (- (x * y))). rewrite Rabs_Ropp in H. lra. }
    assert (B : y ^ 2 = Rabs y ^ 2) by (symmetry; apply pow2_abs). rewrite B.
    set (z := Rabs y) in *. pose proof (pow2_ge_0 (z - 1 / (16 * k))) as S.
    assert (K : 0 < k) by (unfold k; lra).
    assert (E : 8 * k * t * z ^ 2 - t * z + t / (32 * k) = 8 * k * t * (z - 1 / (16 * k)) ^ 2) by (field; lra).
    assert (0 <= 8 * k * t * (z - 1 / (16 * k)) ^ 2) by (apply Rmult_le_pos; [apply Rmult_le_pos; lra|easy]). lra. }
  assert (F : sixhump x y = 4 * t ^ 2 - 2.1 * t ^ 4 + t ^ 6 / 3 + x * y - 4 * y ^ 2 + 4 * y ^ 4).
  { unfold sixhump. replace (t ^ 4) with ((t ^ 2) ^ 2) by ring. replace (t ^ 6) with ((t ^ 2) ^ 3) by ring. rewrite T2. field. }
  rewrite F.
  assert (G : t / (32 * k) <= 0.35352 * t) by (unfold k; lra).
  assert (C : 4 * c ^ 2 = 1 + 4 * k * t + 4 * k ^ 2 * t ^ 2) by (unfold c; field).
  assert (Y : 8 * c * y ^ 2 = 4 * y ^ 2 + 8 * k * t * y ^ 2) by (unfold c; field).
  unfold k in *. nra.
Qed.
Lemma sixhump_lower x y : -3 <= x <= 3 -> -1.03164 <= sixhump x y.
Proof.
  intros D. eapply Rle_trans; [|apply sixhump_reduce]. cbv zeta.
  assert (T : 0 <= Rabs x <= 3) by (split; [apply Rabs_pos|apply Rabs_le; lra]).
  set (t := Rabs x) in *. interval with (i_bisect t, i_taylor t, i_depth 30, i_prec 40).
Qed.
Lemma sixhump_declared : Forall (fun p => Rabs (sixhump (fst p) (snd p) - sixhump_optimum) <= / 10 ^ 4 / 2) sixhump_scheme.
Proof. unfold sixhump_scheme, sixhump_optimum. repeat constructor; cbn [fst snd]; unfold sixhump; interval with (i_prec 60). Qed.

(** ** Sasena *)
Lemma sasena_lower x y : 0 <= x <= 5 -> 0 <= y <= 5 -> -1.46 <= sasena x y.
Proof. intros X Y. unfold sasena. interval with (i_bisect y, i_bisect x, i_autodiff x, i_depth 40, i_prec 20). Qed.
Lemma sasena_declared : Rabs (sasena (fst sasena_scheme) (snd sasena_scheme) - sasena_optimum) <= / 10 ^ 4 / 2.
Proof. unfold sasena_scheme, sasena_optimum, sasena. cbn [fst snd]. interval with (i_prec 60). Qed.

(** ** Hartman *)
Ltac hartman := unfold hartman_sum, dot, hartman_c, hartman3_a, hartman3_p, hartman6_a, hartman6_p, sum_list; cbn [combine map fold_right fst snd].
Lemma hartman3_reduce x y z : 0 <= y <= 1 -> 0 <= z <= 1 ->
  1 * exp (- (10 * (y - 0.117) ^ 2 + 30 * (z - 0.2673) ^ 2)) + 1.2 * exp (- (10 * (y - 0.4387) ^ 2 + 35 * (z - 0.747) ^ 2)) +
  3 * exp (- (10 * (y - 0.8732) ^ 2 + 30 * (z - 0.5547) ^ 2)) + 3.2 * exp (- (10 * (y - 0.5743) ^ 2 + 35 * (z - 0.8828) ^ 2)) <= 3.88 ->
  -3.88 <= hartman3 [x; y; z].
Proof.
  intros Y Z H. unfold hartman3. hartman.
  assert (M : forall a p s, 0 <= a -> exp (- (a * (x - p) ^ 2 + s)) <= exp (- s)).
  { intros a p s A. apply exp_le_compat. pose proof (pow2_ge_0 (x - p)). nra. }
  rewrite !Rplus_0_r.
  pose proof (M 3 0.3689 (10 * (y - 0.117) ^ 2 + 30 * (z - 0.2673) ^ 2) ltac:(lra)).
  pose proof (M 0.1 0.4699 (10 * (y - 0.4387) ^ 2 + 35 * (z - 0.747) ^ 2) ltac:(lra)).
  pose proof (M 3 0.1091 (10 * (y - 0.8732) ^ 2 + 30 * (z - 0.5547) ^ 2) ltac:(lra)).
  pose proof (M 0.1 0.03815 (10 * (y - 0.5743) ^ 2 + 35 * (z - 0.8828) ^ 2) ltac:(lra)).
  lra.
Qed.
Lemma hartman3_lower x y z : 0 <= y <= 1 -> 0 <= z <= 1 -> -3.88 <= hartman3 [x; y; z].
Proof. intros Y Z. apply hartman3_reduce; [easy|easy|]. interval with (i_bisect z, i_bisect y, i_depth 40, i_prec 20). Qed.
Lemma hartman3_declared : / 10 ^ 4 <= hartman3 hartman3_scheme - hartman3_optimum <= 1.5 / 10 ^ 4 /\
  Rabs (hartman3 [0.114614; 0.555649; 0.852547] - hartman3_optimum) <= / 10 ^ 6.
Proof. unfold hartman3, hartman3_scheme, hartman3_optimum. hartman. split; [split|]; interval with (i_prec 60). Qed.
Lemma hartman6_declared : exists v, hartman6 hartman6_scheme = Some v /\ Rabs (v - hartman6_optimum) <= / 10 ^ 6.
Proof.
  unfold hartman6, hartman6_scheme, hartman6_optimum. rewrite Ropp_involutive. hartman.
  rewrite oln_ok by interval with (i_prec 60). cbn [obind]. eexists; split; [reflexivity|]. interval with (i_prec 60).
Qed.

(** ** constrained Branin *)
Lemma branin1_declared :
  branin1_constraint (fst branin1_scheme) (snd branin1_scheme) <= 0 /\
  Rabs (branin_cons (fst branin1_scheme) (snd branin1_scheme) - branin1_optimum) <= / 10 ^ 4.
Proof.
  unfold branin1_scheme, branin1_constraint, branin1_optimum, branin_cons. cbn [fst snd]. cbv zeta.
  split; [lra|interval with (i_prec 60)].
Qed.
Lemma branin1_lower u v : 0 <= u <= 1 -> 0 <= v <= 1 -> branin1_constraint u v <= 0 -> 5.5756 <= branin_cons u v.
Proof.
  unfold branin1_constraint. intros U V C.
  assert (U' : 0.2 <= u <= 1) by nra. set (w := u * v). assert (W : 0.2 <= w <= 1) by (unfold w; nra).
  assert (E : v = w / u) by (unfold w; field; lra). rewrite E. clearbody w. clear E V C.
  unfold branin_cons. cbv zeta. interval with (i_bisect w, i_bisect u, i_autodiff u, i_depth 40, i_prec 40).
Qed.
Lemma branin2_declared :
  1 / 100 < branin2_constraint (fst branin2_scheme) (snd branin2_scheme) /\
  45 / 1000 < branin2_optimum - branin_cons (fst branin2_scheme) (snd branin2_scheme) < 46 / 1000.
Proof.
  unfold branin2_scheme, branin2_constraint, branin2_optimum, branin_cons. cbn [fst snd]. cbv zeta.
  split; [|split]; interval with (i_prec 60).
Qed.
Lemma branin2_feasible : branin2_constraint 0.94125 0.318 <= 0 /\ branin_cons 0.94125 0.318 <= 12.01.
Proof. unfold branin2_constraint, branin_cons. cbv zeta. split; interval with (i_prec 60). Qed.
Lemma branin2_penalty u v : 0 <= u <= 1 -> 0 <= v <= 1 ->
  0 < (branin_cons u v - 11.96) + 5 * branin2_constraint u v + Rabs ((branin_cons u v - 11.96) - 5 * branin2_constraint u v).
Proof.
  intros U V. unfold branin2_constraint, branin_cons. cbv zeta.
  interval with (i_bisect u, i_bisect v, i_depth 40, i_prec 25).
Qed.
Lemma branin2_lower u v : 0 <= u <= 1 -> 0 <= v <= 1 -> branin2_constraint u v <= 0 -> 11.96 <= branin_cons u v.
Proof.
  intros U V C. pose proof (branin2_penalty u v U V) as H. revert H. unfold Rabs. destruct (Rcase_abs _); lra.
Qed.
