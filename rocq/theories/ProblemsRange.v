(** Ranges of the multi-fidelity test problems, and further relations between their fidelities. *)
From Coq Require Import Reals List ZArith Lra Lia Psatz.
From Interval Require Import Tactic.
From Verif Require Import Fl Problems ProblemsSpec ProblemsFacts ProblemsMore ProblemsNum ProblemsMain.
Import ListNotations.
Local Open Scope R_scope.

(** ** Hartman3, low fidelity: a convex quadratic *)
Lemma hartman3_lf_range x1 x2 x3 : in_box hartman3_domain [x1; x2; x3] ->
  hartman3_lf 1 1 0 <= hartman3_lf x1 x2 x3 <= hartman3_lf 1 0 1.
Proof.
  intros D. unfold hartman3_domain in D. cbn [repeat] in D. unbox. unfold hartman3_lf. split.
  - set (a := 1 - x1). set (b := 1 - x2).
    assert (0 <= 0.225 * a ^ 2 - 0.208 * a * b + 0.263 * b ^ 2 - 0.326 * a * x3 - 0.193 * b * x3 + 0.274 * x3 ^ 2).
    { assert (0 <= (a - 104 / 225 * b - 163 / 225 * x3) ^ 2) by apply pow2_ge_0.
      assert (0 <= (b - 77329 / 96718 * x3) ^ 2) by apply pow2_ge_0. assert (0 <= x3 ^ 2) by apply pow2_ge_0. lra. }
    unfold a, b in *. nra.
  - assert (x1 ^ 2 <= x1 /\ x2 ^ 2 <= x2 /\ x3 ^ 2 <= x3) as [S1 [S2 S3]] by (repeat split; nra).
    assert (K : forall u v w, 0 <= u -> 0 <= v -> 0 <= w -> 0 <= u * v * w) by (intros u v w ? ? ?; apply Rmult_le_pos; [apply Rmult_le_pos|]; easy).
    pose proof (K (1 - x1) (1 - x2) (1 - x3) ltac:(lra) ltac:(lra) ltac:(lra)).
    pose proof (K x1 (1 - x2) (1 - x3) ltac:(lra) ltac:(lra) ltac:(lra)).
    pose proof (K (1 - x1) x2 (1 - x3) ltac:(lra) ltac:(lra) ltac:(lra)).
    pose proof (K (1 - x1) (1 - x2) x3 ltac:(lra) ltac:(lra) ltac:(lra)).
    pose proof (K x1 x2 (1 - x3) ltac:(lra) ltac:(lra) ltac:(lra)).
    pose proof (K x1 (1 - x2) x3 ltac:(lra) ltac:(lra) ltac:(lra)).
    pose proof (K (1 - x1) x2 x3 ltac:(lra) ltac:(lra) ltac:(lra)).
    pose proof (K x1 x2 x3 ltac:(lra) ltac:(lra) ltac:(lra)).
    lra.
Qed.

(** ** Hartman6, low fidelity: close to the high fidelity at scaled variables *)
Lemma dot4 a b c d w x y z : dot [a; b; c; d] [w; x; y; z] = a * w + b * x + c * y + d * z.
Proof. unfold dot, sum_list. cbn [combine map fold_right fst snd]. ring. Qed.
Lemma hartman6_fidelities x1 x2 x3 x4 x5 x6 : exists u v,
  hartman6_lf [x1; x2; x3; x4; x5; x6] = Some u /\ hartman6 [0.75 * x1; x2; 0.8 * x3; 1.3 * x4; 0.7 * x5; 1.1 * x6] = Some v /\
  v - ln 1.1 < u < v + ln 1.5.
Proof.
  unfold hartman6_lf, hartman6. cbn [combine map fst snd]. rewrite (Rmult_1_l x2). cbv zeta. rewrite !Ropp_involutive.
  unfold hartman_sum, hartman_c. set (f := fun ap : list R * list R => exp _).
  unfold hartman6_a, hartman6_p. cbn [combine map]. rewrite !dot4.
  match goal with |- context [f ?a] => set (e1 := f a) end. match goal with |- context [f ?a] => set (e2 := f a) end.
  match goal with |- context [f ?a] => set (e3 := f a) end. match goal with |- context [f ?a] => set (e4 := f a) end.
  assert (P : 0 < e1 /\ 0 < e2 /\ 0 < e3 /\ 0 < e4) by (repeat split; apply exp_pos). clearbody e1 e2 e3 e4. destruct P as [P1 [P2 [P3 P4]]].
  rewrite !oln_ok by lra. cbn [obind]. eexists; eexists. split; [reflexivity|]. split; [reflexivity|].
  set (u := 1.1 * e1 + 0.8 * e2 + 2.5 * e3 + 3 * e4). set (v := 1 * e1 + 1.2 * e2 + 3 * e3 + 3.2 * e4).
  assert (U : 0 < u) by (unfold u; lra). assert (V : 0 < v) by (unfold v; lra).
  assert (A : u < 1.1 * v) by (unfold u, v; lra). assert (B : v < 1.5 * u) by (unfold u, v; lra).
  apply ln_increasing in A; [|lra]. apply ln_increasing in B; [|lra]. rewrite ln_mult in A, B by lra. lra.
Qed.

(** ** CurrinExp is a product *)
Definition currin_r (x : R) : R := (2300 * x ^ 3 + 1900 * x ^ 2 + 2092 * x + 60) / (100 * x ^ 3 + 500 * x ^ 2 + 4 * x + 20).
Definition currin_g (y : R) : R := if Rle_dec y (/ 10 ^ 8) then 1 else 1 - exp (-1 / (2 * y)).
Lemma currin_product x y : -0.05 <= x <= 1.05 -> currin_hf x y = Some (currin_g y * currin_r x).
Proof.
  intros H. pose proof (currin_den _ H) as D. unfold currin_hf, currin_g, currin_r.
  destruct (Rle_dec y (/ 10 ^ 8)) as [L|L]; cbn [obind].
  - rewrite odiv_ok by lra. f_equal. field. lra.
  - assert (Y : 0 < y) by (assert (0 < / 10 ^ 8) by (apply Rinv_0_lt_compat, pow_lt; lra); lra).
    rewrite odiv_ok by lra. cbn [obind]. rewrite odiv_ok by lra. f_equal. field. lra.
Qed.
Lemma currin_g_range y : 0 < currin_g y <= 1.
Proof.
  unfold currin_g. destruct (Rle_dec y (/ 10 ^ 8)) as [L|L]; [lra|].
  assert (Y : 0 < y) by (assert (0 < / 10 ^ 8) by (apply Rinv_0_lt_compat, pow_lt; lra); lra).
  assert (N : -1 / (2 * y) < 0). { unfold Rdiv. assert (0 < / (2 * y)) by (apply Rinv_0_lt_compat; lra). lra. }
  apply exp_increasing in N. rewrite exp_0 in N. pose proof (exp_pos (-1 / (2 * y))). lra.
Qed.
Lemma currin_r_upper x : -0.05 <= x <= 1.05 -> currin_r x <= 13.7988.
Proof. intros H. unfold currin_r. interval with (i_bisect x, i_taylor x, i_depth 20, i_prec 40). Qed.
Lemma currin_r_lower x : 0 <= x <= 1 -> 3 <= currin_r x.
Proof.
  intros H. unfold currin_r. pose proof (currin_den x ltac:(lra)) as D. apply (Rmult_le_reg_r (100 * x ^ 3 + 500 * x ^ 2 + 4 * x + 20)); [easy|].
  unfold Rdiv. rewrite Rmult_assoc, Rinv_l by lra. assert (0 <= x ^ 3) by (apply pow_le; lra). nra.
Qed.
Lemma currin_r_mean x : 0 <= x <= 1 -> 0 < currin_r (x + 0.05) + currin_r (x - 0.05).
Proof. intros H. unfold currin_r. interval with (i_bisect x, i_depth 20, i_prec 40). Qed.
Lemma currin_c98 x y : in_box currin_domain [x; y] ->
  currin_hf x y = Some (currin_g y * currin_r x) /\
  currin_lf x y = Some ((currin_g (y + 0.05) + currin_g (y - 0.05)) / 2 * ((currin_r (x + 0.05) + currin_r (x - 0.05)) / 2)) /\
  (exists u v, currin_lf x y = Some u /\ currin_hf x y = Some v /\ 0 < u <= 13.7988 /\ 0 < v <= 13.7988).
Proof.
  intros D. unfold currin_domain in D. unbox.
  assert (E1 : currin_hf x y = Some (currin_g y * currin_r x)) by (apply currin_product; lra).
  assert (E2 : currin_lf x y = Some ((currin_g (y + 0.05) + currin_g (y - 0.05)) / 2 * ((currin_r (x + 0.05) + currin_r (x - 0.05)) / 2))).
  { unfold currin_lf. rewrite !currin_product by lra. cbn [obind]. f_equal. field. }
  split; [exact E1|]. split; [exact E2|]. eexists; eexists. split; [exact E2|]. split; [exact E1|].
  pose proof (currin_g_range y). pose proof (currin_g_range (y + 0.05)). pose proof (currin_g_range (y - 0.05)).
  pose proof (currin_r_upper x ltac:(lra)). pose proof (currin_r_upper (x + 0.05) ltac:(lra)). pose proof (currin_r_upper (x - 0.05) ltac:(lra)).
  pose proof (currin_r_lower x ltac:(lra)). pose proof (currin_r_mean x ltac:(lra)).
  set (g := (currin_g (y + 0.05) + currin_g (y - 0.05)) / 2) in *. assert (0 < g <= 1) by (unfold g; lra).
  set (r := (currin_r (x + 0.05) + currin_r (x - 0.05)) / 2) in *. assert (0 < r <= 13.7988) by (unfold r; lra).
  split; split; try (apply Rmult_lt_0_compat; lra); nra.
Qed.
Lemma currin_high : exists v, currin_hf 0.21667 0 = Some v /\ 13.7987 <= v.
Proof.
  rewrite currin_product by lra. eexists. split; [reflexivity|].
  unfold currin_g. destruct (Rle_dec 0 (/ 10 ^ 8)) as [L|L]; [|exfalso; apply L; left; apply Rinv_0_lt_compat, pow_lt; lra].
  unfold currin_r. interval with (i_prec 40).
Qed.
Lemma currin_g_decreasing y y' : 0 <= y <= y' -> currin_g y' <= currin_g y.
Proof.
  intros H. unfold currin_g at 2. destruct (Rle_dec y (/ 10 ^ 8)) as [L|L]; [apply currin_g_range|].
  unfold currin_g. destruct (Rle_dec y' (/ 10 ^ 8)) as [L'|L']; [lra|].
  assert (Y : 0 < y) by (assert (0 < / 10 ^ 8) by (apply Rinv_0_lt_compat, pow_lt; lra); lra).
  assert (I : / (2 * y') <= / (2 * y)) by (apply Rinv_le_contravar; lra).
  assert (J : -1 / (2 * y) <= -1 / (2 * y')) by (unfold Rdiv; lra).
  destruct J as [J|J]; [apply exp_increasing in J; lra|rewrite J; lra].
Qed.
Lemma currin_decreasing x y y' : in_box currin_domain [x; y] -> in_box currin_domain [x; y'] -> y <= y' ->
  exists v v', currin_hf x y = Some v /\ currin_hf x y' = Some v' /\ v' <= v.
Proof.
  intros D D' H. unfold currin_domain in D, D'. unbox. rewrite !currin_product by lra. eexists; eexists. split; [reflexivity|]. split; [reflexivity|].
  pose proof (currin_g_decreasing y y' ltac:(lra)). pose proof (currin_r_lower x ltac:(lra)). nra.
Qed.

(** ** Park91A increases in every variable *)
Lemma park_a_value x1 x2 x3 x4 : 0 < x1 -> 0 <= x2 -> 0 <= x4 ->
  park_a_hf x1 x2 x3 x4 = Some ((sqrt (x1 ^ 2 + (x2 + x3 ^ 2) * x4) - x1) / 2 + (x1 + 3 * x4) * exp (1 + sin x3)).
Proof.
  intros P1 P2 P4. unfold park_a_hf. pose proof (pow_lt x1 2 P1) as N. rewrite odiv_ok by lra. cbn [obind].
  assert (C : 0 <= (x2 + x3 ^ 2) * x4) by (apply Rmult_le_pos; [pose proof (pow2_ge_0 x3); lra|lra]).
  rewrite osqrt_ok.
  - cbn [obind]. f_equal. f_equal.
    replace (x1 ^ 2 + (x2 + x3 ^ 2) * x4) with (x1 ^ 2 * (1 + (x2 + x3 ^ 2) * x4 / x1 ^ 2)) by (field; lra).
    rewrite sqrt_mult_alt by lra. rewrite sqrt_pow2 by lra. field.
  - assert (0 <= (x2 + x3 ^ 2) * x4 / x1 ^ 2); [|lra]. apply Rmult_le_pos; [easy|]. left. apply Rinv_0_lt_compat. easy.
Qed.
Lemma park_a_increasing x1 x2 x3 x4 y1 y2 y3 y4 : in_box park_domain [x1; x2; x3; x4] -> in_box park_domain [y1; y2; y3; y4] ->
  0 < x1 <= y1 -> x2 <= y2 -> x3 <= y3 -> x4 <= y4 ->
  exists u v, park_a_hf x1 x2 x3 x4 = Some u /\ park_a_hf y1 y2 y3 y4 = Some v /\ u <= v.
Proof.
  intros D D' L1 L2 L3 L4. unfold park_domain in D, D'. cbn [repeat] in D, D'. unbox.
  rewrite !park_a_value by lra. eexists; eexists. split; [reflexivity|]. split; [reflexivity|].
  assert (Q : sqrt (x1 ^ 2 + (x2 + x3 ^ 2) * x4) <= sqrt (y1 ^ 2 + (y2 + y3 ^ 2) * y4)).
  { apply sqrt_le_1_alt. assert (x1 ^ 2 <= y1 ^ 2) by (apply pow_incr; lra). assert (x3 ^ 2 <= y3 ^ 2) by (apply pow_incr; lra).
    pose proof (pow2_ge_0 x3). assert ((x2 + x3 ^ 2) * x4 <= (y2 + y3 ^ 2) * y4) by (apply Rmult_le_compat; lra). lra. }
  assert (S : sin x3 <= sin y3).
  { pose proof pi_bounds. apply sin_incr_1; lra. }
  assert (Z : 0 <= sin x3) by (pose proof pi_bounds; apply sin_ge_0; lra).
  assert (E : exp (1 + sin x3) <= exp (1 + sin y3)).
  { destruct S as [S|S]; [left; apply exp_increasing; lra|rewrite S; lra]. }
  assert (F : 1 <= exp (1 + sin x3)) by (pose proof (exp_ineq1_le (1 + sin x3)); lra).
  assert ((x1 + 3 * x4) * exp (1 + sin x3) + (y1 - x1) <= (y1 + 3 * y4) * exp (1 + sin y3)).
  { apply Rle_trans with ((x1 + 3 * x4) * exp (1 + sin y3) + (y1 - x1) * exp (1 + sin y3)).
    - apply Rplus_le_compat; [apply Rmult_le_compat_l; lra|]. rewrite <- (Rmult_1_r (y1 - x1)) at 1. apply Rmult_le_compat_l; lra.
    - rewrite <- Rmult_plus_distr_r. apply Rmult_le_compat_r; lra. }
  lra.
Qed.
Lemma park_a_slice x1 x2 x3 : 0 < x1 -> 0 <= x2 -> park_a_hf x1 x2 x3 0 = Some (x1 * exp (1 + sin x3)).
Proof.
  intros P1 P2. rewrite park_a_value by lra. f_equal. replace (x1 ^ 2 + (x2 + x3 ^ 2) * 0) with (x1 ^ 2) by ring.
  rewrite sqrt_pow2 by lra. field.
Qed.
Lemma park_box x1 x2 x3 x4 : 0 <= x1 <= 1 -> 0 <= x2 <= 1 -> 0 <= x3 <= 1 -> 0 <= x4 <= 1 -> in_box park_domain [x1; x2; x3; x4].
Proof. intros. unfold park_domain, in_box. cbn [repeat]. repeat (apply Forall2_cons; [cbn [fst snd]; easy|]). apply Forall2_nil. Qed.
Lemma park_a_range x1 x2 x3 x4 : in_box park_domain [x1; x2; x3; x4] -> 0 < x1 ->
  exists u, park_a_hf x1 x2 x3 x4 = Some u /\ x1 * exp 1 <= u <= 25.5893.
Proof.
  intros D P.
  assert (B : x1 <= 1 /\ 0 <= x2 <= 1 /\ 0 <= x3 <= 1 /\ 0 <= x4 <= 1) by (unfold park_domain in D; cbn [repeat] in D; unbox; lra).
  destruct (park_a_increasing x1 x2 x3 x4 1 1 1 1) as [u [v [E [V L]]]]; try lra; [exact D|apply park_box; lra|].
  exists u. split; [exact E|]. split.
  - destruct (park_a_increasing x1 0 0 0 x1 x2 x3 x4) as [u' [v' [E' [V' L']]]]; try lra; [apply park_box; lra|exact D|].
    rewrite park_a_slice in E' by lra. rewrite sin_0, Rplus_0_r in E'. congruence || (injection E' as <-; rewrite E in V'; injection V' as <-; exact L').
  - rewrite park_a_value in V by lra. injection V as <-. apply Rle_trans with (1 := L). interval with (i_prec 50).
Qed.

(** ** Park91B *)
Lemma park_b_upper x1 x2 x3 x4 : in_box park_domain [x1; x2; x3; x4] -> park_b_hf x1 x2 x3 x4 <= park_b_hf 1 1 1 0.
Proof.
  intros D. unfold park_domain in D. cbn [repeat] in D. unbox. unfold park_b_hf.
  assert (Z : 0 <= sin x3) by (pose proof pi_bounds; apply sin_ge_0; lra).
  assert (exp (x1 + x2) <= exp (1 + 1)) by (destruct (Req_dec (x1 + x2) (1 + 1)) as [E|E]; [rewrite E; lra|left; apply exp_increasing; lra]).
  nra.
Qed.

(** ** Borehole *)
Lemma borehole_value a b rw r Tu Hu Tl Hl L Kw : 0 < a -> 0 < b -> in_box borehole_domain [rw; r; Tu; Hu; Tl; Hl; L; Kw] ->
  borehole_base a b rw r Tu Hu Tl Hl L Kw = Some (a * (Hu - Hl) / (ln (r / rw) * (b / Tu + / Tl) + 2 * L / (rw ^ 2 * Kw))).
Proof.
  intros A B D. unfold borehole_domain in D. unbox.
  assert (Q : 1 < r / rw). { apply (Rmult_lt_reg_r rw); [lra|]. unfold Rdiv. rewrite Rmult_assoc, Rinv_l by lra. lra. }
  assert (N : 0 < ln (r / rw)) by (rewrite <- ln_1; apply ln_increasing; lra).
  assert (W : 0 < rw ^ 2) by (apply pow_lt; lra).
  assert (W' : 0 < rw ^ 2 * Kw) by (apply Rmult_lt_0_compat; lra).
  unfold borehole_base. rewrite odiv_ok by lra. cbn [obind]. rewrite oln_ok by lra. cbn [obind].
  rewrite odiv_ok by (rewrite Rmult_assoc; apply Rmult_integral_contrapositive_currified; lra). cbn [obind]. rewrite odiv_ok by lra. cbn [obind].
  set (n := ln (r / rw)) in *.
  assert (G : 0 < n * (b / Tu + / Tl) + 2 * L / (rw ^ 2 * Kw)).
  { assert (0 < / Tu) by (apply Rinv_0_lt_compat; lra). assert (0 < / Tl) by (apply Rinv_0_lt_compat; lra). assert (0 < / (rw ^ 2 * Kw)) by (apply Rinv_0_lt_compat; lra).
    apply Rplus_lt_0_compat; [apply Rmult_lt_0_compat; [easy|]; apply Rplus_lt_0_compat; [apply Rmult_lt_0_compat|]|apply Rmult_lt_0_compat]; lra. }
  assert (K : n * (b + 2 * L * Tu / (n * rw ^ 2 * Kw) + Tu / Tl) = Tu * (n * (b / Tu + / Tl) + 2 * L / (rw ^ 2 * Kw))) by (field; repeat split; lra).
  rewrite K. rewrite odiv_ok.
  - f_equal. set (g := n * (b / Tu + / Tl) + 2 * L / (rw ^ 2 * Kw)) in *. field. repeat split; lra.
  - apply Rmult_integral_contrapositive_currified; lra.
Qed.
Lemma borehole_range rw r Tu Hu Tl Hl L Kw : in_box borehole_domain [rw; r; Tu; Hu; Tl; Hl; L; Kw] ->
  exists v, borehole_hf rw r Tu Hu Tl Hl L Kw = Some v /\ 7 <= v <= 310.
Proof.
  intros D. pose proof pi_bounds. unfold borehole_hf. rewrite borehole_value by (lra || exact D). eexists. split; [reflexivity|].
  unfold borehole_domain in D. unbox. interval with (i_prec 40).
Qed.
(** the fidelities are proportional up to 2e-5 *)
Lemma borehole_ratio rw r Tu Hu Tl Hl L Kw : in_box borehole_domain [rw; r; Tu; Hu; Tl; Hl; L; Kw] ->
  exists u v, borehole_lf rw r Tu Hu Tl Hl L Kw = Some u /\ borehole_hf rw r Tu Hu Tl Hl L Kw = Some v /\
    5 / (2 * PI) * v * (1 - 2 / 10 ^ 5) < u < 5 / (2 * PI) * v.
Proof.
  intros D. pose proof pi_bounds. unfold borehole_hf, borehole_lf. rewrite !borehole_value by (lra || exact D).
  eexists; eexists. split; [reflexivity|]. split; [reflexivity|].
  unfold borehole_domain in D. unbox.
  assert (Q : 1 < r / rw). { apply (Rmult_lt_reg_r rw); [lra|]. unfold Rdiv. rewrite Rmult_assoc, Rinv_l by lra. lra. }
  assert (N : 0 < ln (r / rw)) by (rewrite <- ln_1; apply ln_increasing; lra).
  assert (N' : ln (r / rw) <= 14) by interval with (i_prec 40).
  assert (K : 8 <= 2 * L / (rw ^ 2 * Kw)) by interval with (i_prec 40).
  assert (T : 0 < / Tu <= / 63070) by (split; [apply Rinv_0_lt_compat; lra|apply Rinv_le_contravar; lra]).
  assert (T' : 0 < / Tl) by (apply Rinv_0_lt_compat; lra).
  set (k := 2 * L / (rw ^ 2 * Kw)) in *. set (n := ln (r / rw)) in *. change (1.5 / Tu) with (1.5 * / Tu). change (1 / Tu) with (1 * / Tu).
  set (g := n * (1 * / Tu + / Tl) + k).
  assert (G : 8 <= g). { unfold g. assert (0 <= n * (1 * / Tu + / Tl)) by (apply Rmult_le_pos; lra). lra. }
  replace (n * (1.5 * / Tu + / Tl) + k) with (g + n * / Tu / 2) by (unfold g; lra).
  fold g. assert (E : 0 < n * / Tu / 2 <= g * (1.5 / 10 ^ 5)).
  { split; [apply Rmult_lt_0_compat; [apply Rmult_lt_0_compat|]; lra|].
    assert (n * / Tu <= 14 * / 63070) by (apply Rmult_le_compat; lra). lra. }
  set (e := n * / Tu / 2) in *. set (h := Hu - Hl). assert (0 < h) by (unfold h; lra). clearbody e g h.
  replace (5 / (2 * PI) * (2 * PI * h / g)) with (5 * h / g) by (field; lra).
  assert (P : 0 < 5 * h) by lra. set (w := 5 * h) in *. clearbody w.
  assert (I : 0 < / g) by (apply Rinv_0_lt_compat; lra).
  split.
  - apply (Rmult_lt_reg_r (g + e)); [lra|]. replace (w / (g + e) * (g + e)) with w by (field; lra).
    replace (w / g * (1 - 2 / 10 ^ 5) * (g + e)) with (w * ((1 - 2 / 10 ^ 5) * (1 + e / g))) by (field; lra).
    rewrite <- (Rmult_1_r w) at 2. apply Rmult_lt_compat_l; [lra|].
    assert (e / g <= 1.5 / 10 ^ 5). { apply (Rmult_le_reg_r g); [lra|]. unfold Rdiv at 1. rewrite Rmult_assoc, Rinv_l by lra. lra. }
    assert (0 < e / g) by (apply Rmult_lt_0_compat; lra). lra.
  - unfold Rdiv. apply Rmult_lt_compat_l; [lra|]. apply Rinv_lt_contravar; [apply Rmult_lt_0_compat; lra|lra].
Qed.

(** ** one-dimensional problems *)
Lemma nonlinear_range x : 0 <= x <= 1 -> - sqrt 2 <= nonlinear_hf x <= 0.
Proof.
  intros H. unfold nonlinear_hf. assert (S : 1 < sqrt 2) by interval with (i_prec 40).
  pose proof (SIN_bound (8 * PI * x)). set (s := sin (8 * PI * x)) in *. assert (0 <= s ^ 2 <= 1) by nra. split; nra.
Qed.
Lemma phase_range x : 0 <= x <= 1 -> x ^ 2 <= phase_hf x <= x ^ 2 + 1.
Proof.
  intros H. unfold phase_hf.
  pose proof (SIN_bound (8 * PI * x + PI / 10)). set (s := sin (8 * PI * x + PI / 10)) in *. nra.
Qed.
Lemma one_dim_c98 x : 0 <= x <= 1 -> - sqrt 2 <= nonlinear_hf x <= 0 /\ x ^ 2 <= phase_hf x <= x ^ 2 + 1.
Proof. intros H. split; [apply nonlinear_range, H|apply phase_range, H]. Qed.
Lemma hartman3_c98 x1 x2 x3 : in_box hartman3_domain [x1; x2; x3] ->
  hartman3_lf 1 1 0 <= hartman3_lf x1 x2 x3 <= hartman3_lf 1 0 1 /\
  hartman3_lf 1 1 0 = 0.162 /\ hartman3_lf 1 0 1 = 0.655 /\ hartman3 [x1; x2; x3] < 0.
Proof.
  intros D. split; [apply hartman3_lf_range, D|]. split; [unfold hartman3_lf; lra|]. split; [unfold hartman3_lf; lra|].
  apply hartman3_bounds.
Qed.
Lemma park_a_c98 x1 x2 x3 x4 : in_box park_domain [x1; x2; x3; x4] -> 0 < x1 ->
  (exists u, park_a_hf x1 x2 x3 x4 = Some u /\ x1 * exp 1 <= u <= 25.5893) /\
  park_a_hf x1 x2 x3 0 = Some (x1 * exp (1 + sin x3)).
Proof.
  intros D P. split; [apply park_a_range; easy|]. apply park_a_slice; [easy|]. unfold park_domain in D. cbn [repeat] in D. unbox. lra.
Qed.
Lemma park_a_corner : exists u, park_a_hf 1 1 1 1 = Some u /\ 25.5892 <= u.
Proof. rewrite park_a_value by lra. eexists. split; [reflexivity|]. interval with (i_prec 50). Qed.
Lemma park_b_c98 x1 x2 x3 x4 : in_box park_domain [x1; x2; x3; x4] ->
  park_b_hf 0 0 0 0 <= park_b_hf x1 x2 x3 x4 <= park_b_hf 1 1 1 0 /\ park_b_hf 0 0 0 0 = 2 / 3 /\ park_b_hf 1 1 1 0 = 2 / 3 * exp 2 + 1.
Proof.
  intros D. assert (E : park_b_hf 0 0 0 0 = 2 / 3) by (unfold park_b_hf; rewrite !Rplus_0_r, exp_0; lra).
  split; [split; [rewrite E; apply park_b_positive, D|apply park_b_upper, D]|]. split; [exact E|].
  unfold park_b_hf. replace (1 + 1) with 2 by lra. lra.
Qed.
