(** Proofs about the test problems that need algebra only. *)
From Coq Require Import Reals List ZArith Lra Lia Psatz.
From Flocq Require Import Core.
From Verif Require Import Fl Problems.
Import ListNotations.
Local Open Scope R_scope.

(** ** Goldstein-Price *)
Lemma goldprice_split x y : let s := x + y in let w := 2 * x - 3 * y in
  goldprice x y = (1 + (s + 1) ^ 2 * (3 * s ^ 2 - 14 * s + 19)) * (3 + (w - 3) ^ 2 * (3 * w ^ 2 + 2 * w + 3)).
Proof. unfold goldprice; simpl; ring. Qed.
Lemma goldprice_factors s w :
  0 < 3 * s ^ 2 - 14 * s + 19 /\ 0 < 3 * w ^ 2 + 2 * w + 3.
Proof. pose proof (pow2_ge_0 (s - 7 / 3)). pose proof (pow2_ge_0 (w + 1 / 3)). split; lra. Qed.
Lemma goldprice_min x y : 3 <= goldprice x y /\ (goldprice x y = 3 <-> x = 0 /\ y = -1).
Proof.
  rewrite goldprice_split; cbv zeta.
  set (s := x + y); set (w := 2 * x - 3 * y).
  destruct (goldprice_factors s w) as [P Q].
  set (p := 3 * s ^ 2 - 14 * s + 19) in *; set (q := 3 * w ^ 2 + 2 * w + 3) in *.
  assert (Hp : 0 <= (s + 1) ^ 2 * p) by (apply Rmult_le_pos; [apply pow2_ge_0 | lra]).
  assert (Hq : 0 <= (w - 3) ^ 2 * q) by (apply Rmult_le_pos; [apply pow2_ge_0 | lra]).
  split; [nra|]. split.
  - intros E.
    assert (A : (s + 1) ^ 2 * p = 0) by nra.
    assert (B : (w - 3) ^ 2 * q = 0) by nra.
    assert (A' : s + 1 = 0).
    { destruct (Rmult_integral _ _ A) as [A'|A']; [|lra]. destruct (Req_dec (s + 1) 0) as [Z|Z]; [lra|]. apply (pow_nonzero _ 2) in Z. lra. }
    assert (B' : w - 3 = 0).
    { destruct (Rmult_integral _ _ B) as [B'|B']; [|lra]. destruct (Req_dec (w - 3) 0) as [Z|Z]; [lra|]. apply (pow_nonzero _ 2) in Z. lra. }
    unfold s, w in *. split; lra.
  - intros [-> ->]. unfold s, w, p, q. unfold s, w. ring.
Qed.
Lemma goldprice_declared : goldprice (fst goldprice_scheme) (snd goldprice_scheme) = 28611.
Proof. unfold goldprice; simpl; ring. Qed.

(** ** lists *)
Lemma sum_nonneg l : Forall (fun x => 0 <= x) l -> 0 <= sum_list l.
Proof. induction 1; simpl; lra. Qed.
Lemma sum_zero l : Forall (fun x => 0 <= x) l -> sum_list l = 0 -> Forall (fun x => x = 0) l.
Proof.
  induction 1 as [|a l H F IH]; simpl; intros E; constructor; pose proof (sum_nonneg _ F); [lra|apply IH; lra].
Qed.
Lemma sum_le_const l c : Forall (fun x => x <= c) l -> sum_list l <= INR (length l) * c.
Proof.
  induction 1 as [|a l H F IH]; [simpl; lra|].
  change (length (a :: l)) with (S (length l)). rewrite S_INR. simpl sum_list. lra.
Qed.
Lemma sum_const l c : Forall (fun x => x = c) l -> sum_list l = INR (length l) * c.
Proof.
  induction 1 as [|a l H F IH]; [simpl; lra|].
  change (length (a :: l)) with (S (length l)). rewrite S_INR. simpl sum_list. lra.
Qed.
Lemma prod_unit l : Forall (fun x => 0 <= x <= 1) l -> 0 <= prod_list l <= 1.
Proof. induction 1; simpl; nra. Qed.
Lemma prod_ones l : Forall (fun x => x = 1) l -> prod_list l = 1.
Proof. induction 1 as [|a l H F IH]; simpl; [easy|]. rewrite H, IH. ring. Qed.
Lemma prod_zero l : In 0 l -> prod_list l = 0.
Proof. induction l as [|a l IH]; simpl; [easy|]. intros [->|H]; [ring|]. rewrite IH by easy. ring. Qed.
Lemma mean_le l c : l <> [] -> Forall (fun x => x <= c) l -> mean_list l <= c.
Proof.
  intros N F. unfold mean_list.
  assert (L : 0 < INR (length l)) by (apply lt_0_INR; destruct l; [easy|simpl; lia]).
  apply Rmult_le_reg_r with (INR (length l)); [easy|].
  unfold Rdiv; rewrite Rmult_assoc, Rinv_l, Rmult_1_r by lra.
  pose proof (sum_le_const _ _ F). lra.
Qed.
Lemma mean_const l c : l <> [] -> Forall (fun x => x = c) l -> mean_list l = c.
Proof.
  intros N F. unfold mean_list.
  assert (L : 0 < INR (length l)) by (apply lt_0_INR; destruct l; [easy|simpl; lia]).
  rewrite (sum_const _ _ F). field; lra.
Qed.
Lemma mean_nonneg l : l <> [] -> Forall (fun x => 0 <= x) l -> 0 <= mean_list l.
Proof.
  intros N F. unfold mean_list.
  assert (L : 0 < INR (length l)) by (apply lt_0_INR; destruct l; [easy|simpl; lia]).
  apply Rmult_le_pos; [now apply sum_nonneg|]. left. now apply Rinv_0_lt_compat.
Qed.
Lemma mean_zero l : l <> [] -> Forall (fun x => 0 <= x) l -> mean_list l = 0 -> Forall (fun x => x = 0) l.
Proof.
  intros N F E. apply sum_zero; [easy|]. unfold mean_list in E.
  assert (L : 0 < INR (length l)) by (apply lt_0_INR; destruct l; [easy|simpl; lia]).
  apply Rmult_integral in E. destruct E as [E|E]; [easy|]. pose proof (Rinv_0_lt_compat _ L). lra.
Qed.
Lemma map_nil A B (f : A -> B) l : l <> [] -> map f l <> [].
Proof. now destruct l. Qed.
Lemma Forall_map_all A B (P : B -> Prop) (f : A -> B) l : (forall x, P (f x)) -> Forall P (map f l).
Proof. intros H; induction l; simpl; constructor; auto. Qed.

(** ** Ackley *)
Lemma exp_le_compat a b : a <= b -> exp a <= exp b.
Proof. intros [H| ->]; [left; now apply exp_increasing|lra]. Qed.
Lemma ackley_parts b c x : x <> [] -> 0 <= b ->
  exp (- b * sqrt (mean_list (map (fun t => t ^ 2) x))) <= 1 /\ exp (mean_list (map (fun t => cos (c * t)) x)) <= exp 1.
Proof.
  intros N B. split.
  - apply Rle_trans with (exp 0); [|rewrite exp_0; lra]. apply exp_le_compat.
    pose proof (sqrt_pos (mean_list (map (fun t => t ^ 2) x))). nra.
  - apply exp_le_compat. apply mean_le; [now apply map_nil|]. apply Forall_map_all. intros t. apply COS_bound.
Qed.
Lemma ackley_min a b c x : x <> [] -> 0 <= a -> 0 <= b -> exists v, ackley a b c x = Some v /\ 0 <= v.
Proof.
  intros N A B. destruct x as [|t x]; [easy|]. simpl ackley. eexists; split; [reflexivity|].
  destruct (ackley_parts b c (t :: x) N B) as [P Q]. simpl map in P, Q. nra.
Qed.
Lemma ackley_zero a b c n : (0 < n)%nat -> ackley a b c (repeat 0 n) = Some 0.
Proof.
  intros N. assert (NE : repeat 0 n <> []) by (destruct n; [lia|easy]).
  assert (F1 : Forall (fun x => x = 0) (map (fun t => t ^ 2) (repeat 0 n))).
  { apply Forall_forall. intros y Hy. apply in_map_iff in Hy. destruct Hy as [t [<- Ht]]. apply repeat_spec in Ht. subst. ring. }
  assert (F2 : Forall (fun x => x = 1) (map (fun t => cos (c * t)) (repeat 0 n))).
  { apply Forall_forall. intros y Hy. apply in_map_iff in Hy. destruct Hy as [t [<- Ht]]. apply repeat_spec in Ht. subst. rewrite Rmult_0_r. apply cos_0. }
  unfold ackley. destruct (repeat 0 n) as [|t l] eqn:E; [easy|]. rewrite <- E in *.
  rewrite (mean_const _ 0), (mean_const _ 1), sqrt_0, Rmult_0_r, exp_0; try easy; try (now apply map_nil; rewrite E).
  f_equal. ring.
Qed.
Lemma ackley_unique a b c x : 0 < a -> 0 < b -> ackley a b c x = Some 0 -> Forall (fun t => t = 0) x.
Proof.
  intros A B E. destruct x as [|t x]; [easy|].
  assert (N : t :: x <> []) by easy.
  destruct (ackley_parts b c (t :: x) N ltac:(lra)) as [P Q].
  set (g := exp (mean_list (map (fun t => cos (c * t)) (t :: x)))) in *.
  set (m := mean_list (map (fun t => t ^ 2) (t :: x))) in *.
  assert (E' : - a * exp (- b * sqrt m) - g + a + exp 1 = 0).
  { change (Some (- a * exp (- b * sqrt m) - g + a + exp 1) = Some 0) in E. congruence. }
  assert (X : exp (- b * sqrt m) = 1) by nra.
  assert (S0 : sqrt m = 0).
  { rewrite <- exp_0 in X. apply exp_inv in X. pose proof (sqrt_pos m). nra. }
  assert (F : Forall (fun y => 0 <= y) (map (fun t => t ^ 2) (t :: x))) by (apply Forall_map_all; intros; apply pow2_ge_0).
  assert (M : m = 0).
  { apply sqrt_eq_0; [|easy]. apply mean_nonneg; [now apply map_nil|easy]. }
  apply mean_zero in M; [|now apply map_nil|easy].
  apply Forall_forall. intros y Hy. rewrite Forall_forall in M.
  specialize (M (y ^ 2) (in_map (fun t => t ^ 2) _ _ Hy)). simpl in M.
  destruct (Req_dec y 0) as [Z|Z]; [easy|]. apply (pow_nonzero _ 2) in Z. lra.
Qed.

(** ** AckleyN2 *)
Lemma ackley_n2_min x y : -200 <= ackley_n2 x y /\ (ackley_n2 x y = -200 <-> x = 0 /\ y = 0).
Proof.
  unfold ackley_n2. pose proof (sqrt_pos (x ^ 2 + y ^ 2)) as P.
  assert (E : exp (-0.2 * sqrt (x ^ 2 + y ^ 2)) <= 1) by (apply Rle_trans with (exp 0); [apply exp_le_compat; lra|rewrite exp_0; lra]).
  split; [lra|]. split.
  - intros H. assert (X : exp (-0.2 * sqrt (x ^ 2 + y ^ 2)) = exp 0) by (rewrite exp_0; lra).
    apply exp_inv in X. assert (S0 : sqrt (x ^ 2 + y ^ 2) = 0) by lra.
    apply sqrt_eq_0 in S0; [|nra]. split; nra.
  - intros [-> ->]. replace (0 ^ 2 + 0 ^ 2) with 0 by ring. rewrite sqrt_0, Rmult_0_r, exp_0. ring.
Qed.

(** ** Branin *)
Lemma branin_pos : 0 < 10 * (1 - 1 / (8 * PI)) /\ 5 / (4 * PI) = 10 - 10 * (1 - 1 / (8 * PI)).
Proof.
  pose proof PI_RGT_0. pose proof PI2_1. split; [|field; lra].
  assert (1 / (8 * PI) < 1); [|lra]. apply Rmult_lt_reg_r with (8 * PI); [lra|].
  unfold Rdiv; rewrite Rmult_assoc, Rinv_l; lra.
Qed.
Definition parabola (x : R) : R := 5.1 / (4 * PI ^ 2) * x ^ 2 - 5 / PI * x + 6.
Lemma branin_split x y : branin x y = (y - parabola x) ^ 2 + 10 * (1 - 1 / (8 * PI)) * (1 + cos x) + 5 / (4 * PI).
Proof. unfold branin, parabola. cbv zeta. rewrite (proj2 branin_pos). ring. Qed.
Lemma branin_min x y : 5 / (4 * PI) <= branin x y.
Proof.
  rewrite branin_split. pose proof (pow2_ge_0 (y - parabola x)). pose proof (COS_bound x). pose proof (proj1 branin_pos). nra.
Qed.
Lemma branin_eq x y : branin x y = 5 / (4 * PI) <-> cos x = -1 /\ y = parabola x.
Proof.
  rewrite branin_split. pose proof (pow2_ge_0 (y - parabola x)). pose proof (COS_bound x) as C. pose proof (proj1 branin_pos) as K.
  split.
  - intros E. assert (C' : 0 <= 10 * (1 - 1 / (8 * PI)) * (1 + cos x)) by nra.
    assert (Z : 10 * (1 - 1 / (8 * PI)) * (1 + cos x) = 0) by lra.
    apply Rmult_integral in Z. split; [lra|]. assert (Y : (y - parabola x) ^ 2 = 0) by lra.
    destruct (Req_dec (y - parabola x) 0) as [W|W]; [lra|]. apply (pow_nonzero _ 2) in W. lra.
  - intros [C1 ->]. rewrite C1. ring.
Qed.
Lemma parabola_at k : parabola (k * PI) = 1.275 * k ^ 2 - 5 * k + 6.
Proof.
  unfold parabola. pose proof PI_RGT_0. replace 5.1 with (51 / 10) by lra. replace 1.275 with (51 / 40) by lra. field. lra.
Qed.
(** cos x = -1 only at odd multiples of pi *)
Lemma cos_m1 x : cos x = -1 -> exists k : Z, x = (2 * IZR k + 1) * PI.
Proof.
  intros C. assert (H : cos (x / 2) = 0).
  { assert (E : cos x = 2 * cos (x / 2) * cos (x / 2) - 1) by (rewrite <- cos_2a_cos; f_equal; field). nra. }
  apply cos_eq_0_0 in H. destruct H as [k H]. exists k. lra.
Qed.
Lemma branin_minimisers x y : -5 <= x <= 10 ->
  branin x y = 5 / (4 * PI) <-> (x = - PI /\ y = 12.275) \/ (x = PI /\ y = 2.275) \/ (x = 3 * PI /\ y = 2.475).
Proof.
  intros D. rewrite branin_eq. split.
  - intros [C Y]. apply cos_m1 in C. destruct C as [k E]. rewrite E in Y. rewrite parabola_at in Y.
    pose proof PI2_1. pose proof PI_4.
    assert (K1 : -2 < IZR k) by nra.
    assert (K2 : IZR k < 2) by nra.
    apply lt_IZR in K1. apply lt_IZR in K2.
    assert (K : (k = -1 \/ k = 0 \/ k = 1)%Z) by lia.
    destruct K as [-> |[-> | ->]]; [left|right;left|right;right]; split; lra.
  - intros [[-> ->]|[[-> ->]|[-> ->]]].
    + rewrite cos_neg, cos_PI. split; [easy|]. replace (- PI) with (-1 * PI) by ring. rewrite parabola_at. lra.
    + rewrite cos_PI. split; [easy|]. replace PI with (1 * PI) by ring. rewrite parabola_at. lra.
    + replace (3 * PI) with (PI + 2 * INR 1 * PI) at 1 by (simpl; ring). rewrite cos_period, cos_PI. split; [easy|]. rewrite parabola_at. lra.
Qed.

(** ** Booth, Bohachevsky, Himmelblau *)
Lemma booth_min x y : 0 <= booth_hf x y /\ (booth_hf x y = 0 <-> x = 1 /\ y = 3).
Proof.
  unfold booth_hf. pose proof (pow2_ge_0 (x + 2 * y - 7)). pose proof (pow2_ge_0 (2 * x + y - 5)).
  split; [lra|]. split; [|intros [-> ->]; ring].
  intros E. assert (A : (x + 2 * y - 7) * (x + 2 * y - 7) = 0) by (simpl in *; lra).
  assert (B : (2 * x + y - 5) * (2 * x + y - 5) = 0) by (simpl in *; lra).
  apply Rmult_integral in A. apply Rmult_integral in B. split; lra.
Qed.
Lemma bohachevsky_min x y : 0 <= bohachevsky_hf x y /\ (bohachevsky_hf x y = 0 <-> x = 0 /\ y = 0).
Proof.
  unfold bohachevsky_hf. pose proof (COS_bound (3 * PI * x)). pose proof (COS_bound (4 * PI * y)).
  split; [nra|]. split; [intros E; split; nra|].
  intros [-> ->]. rewrite !Rmult_0_r, cos_0. lra.
Qed.
Lemma himmelblau_min x y : 0 <= himmelblau_hf x y /\
  (himmelblau_hf x y = 0 <-> x ^ 2 + y = 11 /\ x + y ^ 2 = 7).
Proof.
  unfold himmelblau_hf. pose proof (pow2_ge_0 (x ^ 2 + y - 11)). pose proof (pow2_ge_0 (x + y ^ 2 - 7)).
  split; [lra|]. split.
  - intros E. assert (A : (x ^ 2 + y - 11) ^ 2 = 0) by lra. assert (B : (x + y ^ 2 - 7) ^ 2 = 0) by lra.
    split; [destruct (Req_dec (x ^ 2 + y - 11) 0) as [Z|Z]|destruct (Req_dec (x + y ^ 2 - 7) 0) as [Z|Z]]; try lra;
    apply (pow_nonzero _ 2) in Z; lra.
  - intros [A B]. replace (x ^ 2 + y - 11) with 0 by lra. replace (x + y ^ 2 - 7) with 0 by lra. ring.
Qed.
