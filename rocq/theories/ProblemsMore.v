(** Proofs about Thevenot, the constructors, definedness and the relations between fidelities. *)
From Coq Require Import Reals List ZArith Lra Lia Psatz.
From Flocq Require Import Core.
From Verif Require Import Fl Samplers Problems ProblemsSpec ProblemsFacts.
Import ListNotations.
Local Open Scope R_scope.

(** ** Thevenot *)
Lemma pow_even_le u m : -1 <= u <= 1 -> (1 <= m)%nat -> 0 <= u ^ (2 * m) <= u ^ 2.
Proof.
  intros U M. rewrite pow_mult. destruct m as [|m]; [lia|]. simpl (_ ^ S m).
  assert (A : 0 <= u ^ 2 <= 1) by (split; [apply pow2_ge_0|nra]).
  assert (B : 0 <= (u ^ 2) ^ m <= 1).
  { split; [apply pow_le; lra|]. rewrite <- (pow1 m). apply pow_incr. lra. }
  change (u * (u * 1)) with (u ^ 2). nra.
Qed.
Lemma pow_even_pos u m : u <> 0 -> 0 < u ^ (2 * m).
Proof. intros U. rewrite pow_mult. apply pow_lt. pose proof (pow_nonzero u 2 U). pose proof (pow2_ge_0 u). lra. Qed.
Lemma thevenot_zero m beta n : (1 <= m)%nat -> (1 <= n)%nat -> thevenot m beta (repeat 0 n) = -1.
Proof.
  intros M N. unfold thevenot.
  assert (A : sum_list (map (fun t => (t / beta) ^ (2 * m)) (repeat 0 n)) = 0).
  { assert (F : Forall (fun y => y = 0) (map (fun t => (t / beta) ^ (2 * m)) (repeat 0 n))).
    { apply Forall_forall. intros y Hy. apply in_map_iff in Hy. destruct Hy as [t [<- Ht]]. apply repeat_spec in Ht. subst.
      unfold Rdiv. rewrite Rmult_0_l. apply pow_i. lia. }
    rewrite (sum_const _ _ F). ring. }
  assert (B : prod_list (map (fun t => t ^ 2) (repeat 0 n)) = 0).
  { apply prod_zero. destruct n; [lia|]. left. simpl. ring. }
  assert (C : prod_list (map (fun t => cos t ^ 2) (repeat 0 n)) = 1).
  { apply prod_ones. apply Forall_forall. intros y Hy. apply in_map_iff in Hy. destruct Hy as [t [<- Ht]]. apply repeat_spec in Ht. subst. rewrite cos_0. ring. }
  rewrite A, B, C, Ropp_0, exp_0. ring.
Qed.
Lemma thevenot_one m beta x : (1 <= m)%nat -> 2 * PI <= beta -> - (2 * PI) <= x <= 2 * PI ->
  -1 <= thevenot m beta [x] /\ (thevenot m beta [x] = -1 <-> x = 0).
Proof.
  intros M B X. pose proof PI2_1 as P1.
  assert (U : -1 <= x / beta <= 1).
  { split; [apply Rmult_le_reg_r with beta|apply Rmult_le_reg_r with beta]; try lra; unfold Rdiv; rewrite Rmult_assoc, Rinv_l; lra. }
  destruct (pow_even_le _ m U M) as [V0 V1].
  assert (V : (x / beta) ^ 2 <= x ^ 2).
  { replace (x ^ 2) with ((x / beta) ^ 2 * beta ^ 2) by (field; lra).
    assert (1 <= beta ^ 2) by nra. pose proof (pow2_ge_0 (x / beta)). nra. }
  unfold thevenot. simpl map. simpl sum_list. simpl prod_list.
  rewrite Rplus_0_r, !Rmult_1_r.
  set (u := (x / beta) ^ (2 * m)) in *.
  change (x * (x * 1)) with (x ^ 2). change (cos x * (cos x * 1)) with (cos x ^ 2).
  replace (x * x) with (x ^ 2) by ring. replace (cos x * cos x) with (cos x ^ 2) by ring.
  assert (E1 : exp (- x ^ 2) <= exp (- u)) by (apply exp_le_compat; lra).
  assert (E2 : exp (- x ^ 2) <= 1) by (rewrite <- exp_0; apply exp_le_compat; pose proof (pow2_ge_0 x); lra).
  pose proof (exp_pos (- x ^ 2)) as E3.
  assert (C : 0 <= cos x ^ 2 <= 1).
  { split; [apply pow2_ge_0|]. pose proof (COS_bound x). nra. }
  change ((x / beta) ^ (m + (m + 0))) with u.
  assert (EC : exp (- x ^ 2) * cos x ^ 2 <= exp (- x ^ 2)) by nra.
  split; [lra|]. split.
  - intros H. assert (Z : exp (- x ^ 2) = 1) by lra.
    rewrite <- exp_0 in Z. apply exp_inv in Z. destruct (Req_dec x 0) as [|W]; [easy|]. apply (pow_nonzero _ 2) in W. lra.
  - intros ->. assert (Hu : u = 0) by (unfold u, Rdiv; rewrite Rmult_0_l; apply pow_i; lia).
    rewrite Hu, cos_0, pow_i by lia. rewrite Ropp_0, exp_0. ring.
Qed.
Lemma thevenot_beaten m beta n : (1 <= m)%nat -> beta <> 0 -> thevenot m beta (PI :: repeat 0 (S n)) < -1.
Proof.
  intros M B. unfold thevenot. pose proof PI_RGT_0 as P.
  assert (B1 : prod_list (map (fun t => t ^ 2) (PI :: repeat 0 (S n))) = 0).
  { apply prod_zero. right. left. simpl. ring. }
  assert (C1 : prod_list (map (fun t => cos t ^ 2) (PI :: repeat 0 (S n))) = 1).
  { apply prod_ones. apply Forall_forall. intros y Hy. apply in_map_iff in Hy. destruct Hy as [t [<- [<-|Ht]]].
    - rewrite cos_PI. ring.
    - apply repeat_spec in Ht. subst. rewrite cos_0. ring. }
  assert (S1 : 0 < sum_list (map (fun t => (t / beta) ^ (2 * m)) (PI :: repeat 0 (S n)))).
  { simpl map. simpl sum_list.
    assert (0 < (PI / beta) ^ (2 * m)). { apply pow_even_pos. unfold Rdiv. apply Rmult_integral_contrapositive. split; [lra|]. now apply Rinv_neq_0_compat. }
    assert (0 <= sum_list (map (fun t => (t / beta) ^ (2 * m)) (repeat 0 n))).
    { apply sum_nonneg. apply Forall_map_all. intros t. rewrite pow_mult. apply pow_le, pow2_ge_0. }
    assert (0 <= (0 / beta) ^ (2 * m)). { rewrite pow_mult. apply pow_le, pow2_ge_0. }
    simpl Nat.mul in *. lra. }
  rewrite B1, C1, Ropp_0, exp_0.
  assert (exp (- sum_list (map (fun t => (t / beta) ^ (2 * m)) (PI :: repeat 0 (S n)))) < 1).
  { rewrite <- exp_0. apply exp_increasing. lra. }
  lra.
Qed.
Lemma thevenot_above m beta x : -2 < thevenot m beta x.
Proof.
  unfold thevenot.
  assert (C : 0 <= prod_list (map (fun t => cos t ^ 2) x) <= 1).
  { apply prod_unit. apply Forall_map_all. intros t. split; [apply pow2_ge_0|]. pose proof (COS_bound t). nra. }
  assert (P : 0 <= prod_list (map (fun t => t ^ 2) x)).
  { induction x as [|t x IH]; simpl; [lra|]. apply Rmult_le_pos; [nra|]. apply IH.
    apply prod_unit. apply Forall_map_all. intros s. split; [apply pow2_ge_0|]. pose proof (COS_bound s). nra. }
  assert (E : exp (- prod_list (map (fun t => t ^ 2) x)) <= 1) by (rewrite <- exp_0; apply exp_le_compat; lra).
  pose proof (exp_pos (- prod_list (map (fun t => t ^ 2) x))).
  pose proof (exp_pos (- sum_list (map (fun t => (t / beta) ^ (2 * m)) x))). nra.
Qed.

(** ** constructors *)
Section Class.
Context {P : Type} (f : P -> list R -> option R) (bound : R).
Let made (c : Z * P) : instance P := Instance (snd c) (Z.to_nat (fst c)) (repeat (- bound, bound) (Z.to_nat (fst c))).
Let attr (c : Z * P) : attributes :=
  Attributes (Z.to_nat (fst c)) (repeat (- bound, bound) (Z.to_nat (fst c))) (f (snd c) (repeat 0 (Z.to_nat (fst c)))) (repeat 0 (Z.to_nat (fst c))).
Lemma find_app A (q : A -> bool) l1 l2 : find q (l1 ++ l2) = match find q l1 with Some a => Some a | None => find q l2 end.
Proof. induction l1 as [|a l IH]; simpl; [easy|]. now destruct (q a). Qed.
Lemma constructs_attr calls c : cl_attr (constructs (construct f bound) calls c) =
  match last_valid calls with Some d => Some (attr d) | None => cl_attr c end.
Proof.
  revert c; induction calls as [|[d p] cs IH]; intros c; [easy|].
  simpl constructs. rewrite IH. unfold last_valid. simpl rev. rewrite find_app. fold (last_valid cs).
  destruct (last_valid cs) as [q|]; [easy|]. simpl. unfold construct.
  destruct (Z.ltb_spec d 0); destruct (Z.leb_spec 0 d); try lia; easy.
Qed.
Lemma constructs_objects calls c : cl_objects (constructs (construct f bound) calls c) = cl_objects c ++ map made (valid_calls calls).
Proof.
  revert c; induction calls as [|[d p] cs IH]; intros c; simpl; [now rewrite app_nil_r|].
  rewrite IH. unfold construct. destruct (Z.ltb_spec d 0); destruct (Z.leb_spec 0 d); try lia; simpl; [easy|].
  now rewrite <- app_assoc.
Qed.
End Class.

(** ** call dispatch *)
Lemma mf_call_spec A B (hf lf : A -> B) X :
  mf_call hf lf X = match X with [] => [] | [a] => [hf a] | a :: b :: _ => [hf a; lf b] end.
Proof.
  destruct X as [|a [|b X]]; [easy|easy|]. unfold mf_call. cbn [length seq map concat Nat.eqb nth_error app].
  cut (forall l, (forall i, In i l -> (2 <= i)%nat) ->
    concat (map (fun i => (if Nat.eqb i 0 then match nth_error (a :: b :: X) i with Some a => [hf a] | None => [] end else []) ++
                          (if Nat.eqb i 1 then match nth_error (a :: b :: X) i with Some a => [lf a] | None => [] end else [])) l) = []).
  { intros H. rewrite H; [easy|]. intros i Hi. apply in_seq in Hi. lia. }
  induction l as [|i l IH]; intros H; [easy|]. cbn [map concat]. rewrite IH by (intros; apply H; now right).
  assert (2 <= i)%nat by (apply H; now left). destruct i as [|[|i]]; try lia. easy.
Qed.
Lemma mfarray_size_spec A (d : list (list A)) : mfarray_size d = map (@length A) d /\ mfarray_n_levels d = length d.
Proof.
  split; [|easy]. unfold mfarray_size, mfarray_n_levels. induction d as [|x d IH]; [easy|].
  cbn [length seq map nth]. f_equal. rewrite <- seq_shift, map_map. exact IH.
Qed.

(** ** cost ratio *)
Lemma cost_ratio_spec a b : b <> 0 ->
  exists k, cost_ratio a b = Ok k /\ Rabs (IZR k - a / b) <= / 2 /\ (Rabs (IZR k - a / b) = / 2 -> Z.Even k).
Proof.
  intros B. unfold cost_ratio. destruct (Req_EM_T b 0) as [|_]; [easy|].
  eexists; split; [reflexivity|]. split.
  - rewrite Rabs_minus_sym. apply Znearest_half.
  - intros H. set (q := a / b) in *. rewrite Rabs_minus_sym in H.
    assert (F : Rabs (q - IZR (ZnearestE q)) = / 2) by easy.
    apply Z.even_spec. unfold ZnearestE, Znearest in *.
    pose proof (Zfloor_lb q) as L. pose proof (Zfloor_ub q) as U.
    destruct (Rcompare_spec (q - IZR (Zfloor q)) (/ 2)) as [C|C|C].
    + exfalso. rewrite Rabs_pos_eq in F; lra.
    + destruct (Z.even (Zfloor q)) eqn:E; simpl; [easy|].
      rewrite (Zceil_floor_neq q); [now rewrite Z.add_1_r, Z.even_succ, <- Z.negb_even, E|].
      intros D. lra.
    + exfalso. assert (D : IZR (Zfloor q) <> q) by lra. rewrite (Zceil_floor_neq _ D) in F. rewrite plus_IZR in F.
      rewrite Rabs_minus_sym, Rabs_pos_eq in F; lra.
Qed.

(** ** guarded operations *)
Lemma odiv_ok a b : b <> 0 -> odiv a b = Some (a / b).
Proof. intros H. unfold odiv. now destruct (Req_EM_T b 0). Qed.
Lemma odiv_zero a : odiv a 0 = None.
Proof. unfold odiv. now destruct (Req_EM_T 0 0). Qed.
Lemma oln_ok a : 0 < a -> oln a = Some (ln a).
Proof. intros H. unfold oln. now destruct (Rlt_dec 0 a). Qed.
Lemma osqrt_ok a : 0 <= a -> osqrt a = Some (sqrt a).
Proof. intros H. unfold osqrt. now destruct (Rle_dec 0 a). Qed.
Lemma ln_above_1 q : 1 < q -> 0 < ln q.
Proof. intros H. rewrite <- ln_1. apply ln_increasing; lra. Qed.

Lemma ln_le_compat a b : 0 < a -> a <= b -> ln a <= ln b.
Proof. intros A [H| ->]; [left; now apply ln_increasing|lra]. Qed.

(** ** Borehole *)
Lemma borehole_defined a b rw r Tu Hu Tl Hl L Kw :
  0 < a -> 0 <= b -> 0 < rw -> rw < r -> 0 < Tu -> Hl < Hu -> 0 < Tl -> 0 < L -> 0 < Kw ->
  let l := ln (r / rw) in 0 < l /\
  borehole_base a b rw r Tu Hu Tl Hl L Kw = Some (a * Tu * (Hu - Hl) / (l * (b + 2 * L * Tu / (l * rw ^ 2 * Kw) + Tu / Tl))) /\
  0 < 2 * L * Tu / (l * rw ^ 2 * Kw) + Tu / Tl.
Proof.
  intros A B RW RR TU HH TL LL KW. cbv zeta.
  assert (Q : 1 < r / rw).
  { apply Rmult_lt_reg_r with rw; [easy|]. unfold Rdiv. rewrite Rmult_assoc, Rinv_l; lra. }
  pose proof (ln_above_1 _ Q) as LN. split; [easy|].
  assert (D1 : 0 < ln (r / rw) * rw ^ 2 * Kw) by (apply Rmult_lt_0_compat; [apply Rmult_lt_0_compat; [easy|apply pow_lt; easy]|easy]).
  assert (U : 0 < 2 * L * Tu / (ln (r / rw) * rw ^ 2 * Kw)).
  { apply Rdiv_lt_0_compat; [|easy]. apply Rmult_lt_0_compat; lra. }
  assert (V : 0 < Tu / Tl) by now apply Rdiv_lt_0_compat.
  split; [|lra].
  unfold borehole_base. rewrite odiv_ok by lra. cbn [obind]. rewrite oln_ok by lra. cbn [obind].
  rewrite odiv_ok by lra. cbn [obind]. rewrite odiv_ok by lra. cbn [obind]. rewrite odiv_ok; [easy|].
  apply Rgt_not_eq. apply Rmult_lt_0_compat; lra.
Qed.
Ltac unbox := repeat match goal with H : in_box _ _ |- _ => unfold in_box in H | H : Forall2 _ _ _ |- _ => inversion H; clear H; subst end; cbn [fst snd] in *.
Lemma borehole_compare n1 n2 l k k1 : 0 < n1 < n2 -> 0 < l -> 0 < k -> k < k1 -> 0 < n1 / (l * k1) < n2 / (l * k).
Proof.
  intros N L K K1. assert (D : 0 < l * k < l * k1) by (split; [now apply Rmult_lt_0_compat|apply Rmult_lt_compat_l; lra]).
  split; [apply Rdiv_lt_0_compat; lra|].
  apply Rlt_trans with (n1 / (l * k)).
  - apply Rmult_lt_compat_l; [lra|]. apply Rinv_lt_contravar; [|lra]. apply Rmult_lt_0_compat; lra.
  - apply Rmult_lt_compat_r; [|lra]. apply Rinv_0_lt_compat. lra.
Qed.
Lemma borehole_ordered rw r Tu Hu Tl Hl L Kw : in_box borehole_domain [rw; r; Tu; Hu; Tl; Hl; L; Kw] ->
  exists u v, borehole_lf rw r Tu Hu Tl Hl L Kw = Some u /\ borehole_hf rw r Tu Hu Tl Hl L Kw = Some v /\ 0 < u < v.
Proof.
  intros D. unfold borehole_domain in D. unbox. pose proof PI2_3_2 as P.
  destruct (borehole_defined 5 1.5 rw r Tu Hu Tl Hl L Kw) as [P1 [E1 K1]]; try lra.
  destruct (borehole_defined (2 * PI) 1 rw r Tu Hu Tl Hl L Kw) as [P2 [E2 K2]]; try lra.
  eexists; eexists. split; [exact E1|]. split; [exact E2|].
  apply borehole_compare; try lra. rewrite !(Rmult_assoc _ Tu). assert (0 < Tu * (Hu - Hl)) by (apply Rmult_lt_0_compat; lra). split; nra.
Qed.

(** ** CurrinExp *)
Lemma currin_den x : -0.05 <= x <= 1.05 -> 0 < 100 * x ^ 3 + 500 * x ^ 2 + 4 * x + 20.
Proof. intros H. assert (0 <= 500 * x ^ 2 + 100 * x ^ 3) by nra. lra. Qed.
Lemma currin_hf_defined x y : -0.05 <= x <= 1.05 -> exists t, 0 < t <= 1 /\
  currin_hf x y = Some (t * (2300 * x ^ 3 + 1900 * x ^ 2 + 2092 * x + 60) / (100 * x ^ 3 + 500 * x ^ 2 + 4 * x + 20)).
Proof.
  intros H. pose proof (currin_den _ H) as D. unfold currin_hf.
  destruct (Rle_dec y (/ 10 ^ 8)) as [L|L]; cbn [obind].
  - exists 1. split; [lra|]. rewrite odiv_ok by lra. easy.
  - assert (Y : 0 < y) by (assert (0 < / 10 ^ 8) by (apply Rinv_0_lt_compat, pow_lt; lra); lra).
    rewrite odiv_ok by lra. cbn [obind]. exists (1 - exp (-1 / (2 * y))). split.
    + assert (N : -1 / (2 * y) < 0). { unfold Rdiv. assert (0 < / (2 * y)) by (apply Rinv_0_lt_compat; lra). lra. }
      apply exp_increasing in N. rewrite exp_0 in N. pose proof (exp_pos (-1 / (2 * y))). lra.
    + rewrite odiv_ok by lra. easy.
Qed.
Lemma currin_defined x y : in_box currin_domain [x; y] ->
  (exists v, currin_hf x y = Some v /\ 0 < v) /\ (exists w, currin_lf x y = Some w).
Proof.
  intros D. unfold currin_domain in D. unbox. split.
  - destruct (currin_hf_defined x y ltac:(lra)) as [t [T E]]. eexists; split; [exact E|].
    apply Rdiv_lt_0_compat; [|apply currin_den; lra]. apply Rmult_lt_0_compat; [lra|].
    assert (0 <= x ^ 3) by (apply pow_le; lra). assert (0 <= x ^ 2) by apply pow2_ge_0. lra.
  - unfold currin_lf.
    destruct (currin_hf_defined (x + 0.05) (y + 0.05) ltac:(lra)) as [t1 [_ E1]].
    destruct (currin_hf_defined (x + 0.05) (y - 0.05) ltac:(lra)) as [t2 [_ E2]].
    destruct (currin_hf_defined (x - 0.05) (y + 0.05) ltac:(lra)) as [t3 [_ E3]].
    destruct (currin_hf_defined (x - 0.05) (y - 0.05) ltac:(lra)) as [t4 [_ E4]].
    rewrite E1, E2, E3, E4. cbn [obind]. eexists; reflexivity.
Qed.

(** ** Park91A *)
Lemma park_a_defined x1 x2 x3 x4 : in_box park_domain [x1; x2; x3; x4] ->
  (park_a_hf x1 x2 x3 x4 <> None <-> x1 <> 0) /\ (park_a_lf x1 x2 x3 x4 <> None <-> x1 <> 0).
Proof.
  intros D. unfold park_domain in D. cbn [repeat] in D. unbox.
  destruct (Req_dec x1 0) as [Z|Z].
  - subst x1. assert (E : park_a_hf 0 x2 x3 x4 = None) by (unfold park_a_hf; replace (0 ^ 2) with 0 by ring; now rewrite odiv_zero).
    unfold park_a_lf. rewrite E. cbn [obind]. tauto.
  - assert (E : exists v, park_a_hf x1 x2 x3 x4 = Some v).
    { unfold park_a_hf. pose proof (pow_nonzero x1 2 Z) as N. rewrite odiv_ok by easy. cbn [obind].
      rewrite osqrt_ok; [eexists; reflexivity|].
      assert (0 <= (x2 + x3 ^ 2) * x4 / x1 ^ 2); [|lra].
      apply Rmult_le_pos; [apply Rmult_le_pos; [pose proof (pow2_ge_0 x3); lra|lra]|].
      left. apply Rinv_0_lt_compat. pose proof (pow2_ge_0 x1). lra. }
    destruct E as [v E]. unfold park_a_lf. rewrite E. cbn [obind]. split; split; congruence.
Qed.

(** ** Hartman functions *)
Lemma hartman_row a p x : Forall (fun t => 0 <= t) a ->
  0 <= sum_list (map (fun t => fst (fst t) * (snd t - snd (fst t)) ^ 2) (combine (combine a p) x)).
Proof.
  intros H. revert p x; induction H as [|a0 a A0 _ IH]; intros p x; [simpl; lra|].
  destruct p as [|p0 p]; [simpl; lra|]. destruct x as [|x0 x]; [simpl; lra|].
  cbn [combine map sum_list fold_right fst snd]. specialize (IH p x). unfold sum_list in IH.
  pose proof (pow2_ge_0 (x0 - p0)). nra.
Qed.
Lemma hartman_weights c a p x : Forall (fun t => 0 < t) c -> Forall (Forall (fun t => 0 <= t)) a ->
  0 <= hartman_sum c a p x <= sum_list c /\ (c <> [] -> a <> [] -> p <> [] -> 0 < hartman_sum c a p x).
Proof.
  intros C A. unfold hartman_sum, dot. revert a p A; induction C as [|c0 c C0 C IH]; intros a p A; [simpl; split; [lra|easy]|].
  assert (SC : 0 <= sum_list c) by (apply sum_nonneg; eapply Forall_impl; [|exact C]; simpl; intros; lra).
  destruct a as [|a0 a]; [cbn [combine map]; rewrite ?combine_nil; unfold sum_list in *; cbn [fold_right map combine] in *; split; [lra|easy]|].
  destruct p as [|p0 p]; [cbn [combine map]; rewrite ?combine_nil; unfold sum_list in *; cbn [fold_right map combine] in *; split; [lra|easy]|].
  inversion A as [|? ? A0 A']; subst. specialize (IH a p A'). destruct IH as [IH _].
  cbn [combine map sum_list fold_right fst snd]. unfold sum_list in IH |- *.
  pose proof (hartman_row a0 p0 x A0) as R0. unfold sum_list in R0.
  set (q := fold_right Rplus 0 (map (fun t => fst (fst t) * (snd t - snd (fst t)) ^ 2) (combine (combine a0 p0) x))) in *.
  assert (E : 0 < exp (- q) <= 1). { split; [apply exp_pos|]. rewrite <- exp_0. apply exp_le_compat. lra. }
  split; [nra|]. intros _ _ _. nra.
Qed.
Lemma hartman_c_pos : Forall (fun t => 0 < t) hartman_c /\ sum_list hartman_c = 8.4.
Proof. unfold hartman_c. split; [repeat constructor; lra|unfold sum_list; cbn [fold_right]; lra]. Qed.
Lemma hartman3_bounds x : -8.4 <= hartman3 x < 0.
Proof.
  unfold hartman3. destruct (hartman_weights hartman_c hartman3_a hartman3_p x (proj1 hartman_c_pos)) as [B P].
  { unfold hartman3_a. repeat constructor; lra. }
  rewrite (proj2 hartman_c_pos) in B. specialize (P ltac:(easy) ltac:(easy) ltac:(easy)). lra.
Qed.
Lemma hartman6_bounds x : exists v, hartman6 x = Some v /\ - ln 8.4 <= v.
Proof.
  unfold hartman6. destruct (hartman_weights hartman_c hartman6_a hartman6_p x (proj1 hartman_c_pos)) as [B P].
  { unfold hartman6_a. repeat constructor; lra. }
  rewrite (proj2 hartman_c_pos) in B. specialize (P ltac:(easy) ltac:(easy) ltac:(easy)).
  rewrite Ropp_involutive, oln_ok by lra. cbn [obind]. eexists; split; [reflexivity|].
  apply Ropp_le_contravar. apply ln_le_compat; lra.
Qed.
Lemma hartman6_lf_bounds x : exists v, hartman6_lf x = Some v /\ - ln 7.4 <= v.
Proof.
  unfold hartman6_lf. set (y := map _ _).
  destruct (hartman_weights [1.1; 0.8; 2.5; 3] hartman6_a hartman6_p y) as [B P].
  { repeat constructor; lra. } { unfold hartman6_a. repeat constructor; lra. }
  assert (S : sum_list [1.1; 0.8; 2.5; 3] = 7.4) by (unfold sum_list; cbn [fold_right]; lra).
  rewrite S in B. specialize (P ltac:(easy) ltac:(easy) ltac:(easy)).
  cbv zeta. rewrite Ropp_involutive, oln_ok by lra. cbn [obind]. eexists; split; [reflexivity|].
  apply Ropp_le_contravar. apply ln_le_compat; lra.
Qed.

(** ** relations between the fidelities *)
Lemma forrester_fidelities x :
  forrester_1a_lf x = forrester x - 5 /\ forrester_1b_lf x = forrester x / 2 + 10 * (x - 1 / 2) - 5 /\ forrester_1c_lf x = forrester (x + 1 / 5).
Proof.
  unfold forrester_1a_lf, forrester_1b_lf, forrester_1c_lf, forrester. repeat split; try lra.
  replace (x + 0.2) with (x + 1 / 5) by lra. easy.
Qed.
Lemma two_dim_fidelities x y :
  sixhump_lf x y = sixhump (0.7 * x) (0.7 * y) - x * y - 15 /\
  bohachevsky_lf x y = bohachevsky_hf (0.7 * x) y + x * y - 12 /\
  booth_lf x y = booth_hf (0.4 * x) y + 1.7 * x * y - x + 2 * y /\
  himmelblau_lf x y = himmelblau_hf (0.5 * x) (0.8 * y) + y ^ 3 - (x + 1) ^ 2.
Proof.
  unfold sixhump_lf, sixhump, bohachevsky_lf, bohachevsky_hf, booth_lf, booth_hf, himmelblau_lf, himmelblau_hf. cbv zeta.
  repeat split; lra.
Qed.
Lemma one_dim_fidelities x :
  nonlinear_hf x = (x - sqrt 2) * nonlinear_lf x ^ 2 /\ phase_hf x = x ^ 2 + phase_lf (x + 1 / 80) ^ 2 /\
  discontinuous_hf x = 2 * discontinuous_lf x - 20 * x + (if Rle_dec x (1 / 2) then 20 else 24) /\
  discontinuous_lf x = forrester_1b_lf x + (if Rle_dec x (1 / 2) then 0 else 3).
Proof.
  unfold nonlinear_hf, nonlinear_lf, phase_hf, phase_lf, discontinuous_hf, discontinuous_lf, forrester_1b_lf.
  repeat split; try ring.
  - replace (8 * PI * (x + 1 / 80)) with (8 * PI * x + PI / 10) by field. easy.
  - destruct (Rle_dec x 0.5) as [A|A]; destruct (Rle_dec x (1 / 2)) as [B|B]; try lra.
  - destruct (Rle_dec x 0.5) as [A|A]; destruct (Rle_dec x (1 / 2)) as [B|B]; try lra.
Qed.
Lemma park_a_fidelity x1 x2 x3 x4 : park_a_lf x1 x2 x3 x4 = option_map (fun h => (1 + sin x1 / 10) * h - 2 * x1 + x2 ^ 2 + x3 ^ 2 + 0.5) (park_a_hf x1 x2 x3 x4).
Proof. unfold park_a_lf. destruct (park_a_hf x1 x2 x3 x4); cbn [obind option_map]; [f_equal; lra|easy]. Qed.

(** ** constrained Branin *)
Lemma branin_cons_split u v : branin_cons u v = branin (15 * u - 5) (15 * v) + 5 * u.
Proof. unfold branin_cons, branin. cbv zeta. ring. Qed.
Lemma branin_cons_min u v : 5 / (4 * PI) + 5 * u <= branin_cons u v.
Proof. rewrite branin_cons_split. pose proof (branin_min (15 * u - 5) (15 * v)). lra. Qed.

(** ** the jumps of mf_Discontinuous *)
Lemma step_jump k : k <> 0 -> ~ continuity_pt (fun x => if Rle_dec x (1 / 2) then 0 else k) (1 / 2).
Proof.
  intros K C. destruct (C (Rabs k / 2)) as [al [A H]].
  { pose proof (Rabs_pos_lt k K). lra. }
  specialize (H (1 / 2 + al / 2)). simpl in H. unfold R_dist in H.
  destruct (Rle_dec (1 / 2) (1 / 2)) as [L|L]; [|lra]. destruct (Rle_dec (1 / 2 + al / 2) (1 / 2)) as [L'|L']; [lra|].
  assert (Q : Rabs (k - 0) < Rabs k / 2).
  { apply H. split; [split; [easy|lra]|]. replace (1 / 2 + al / 2 - 1 / 2) with (al / 2) by ring. rewrite Rabs_pos_eq; lra. }
  rewrite Rminus_0_r in Q. pose proof (Rabs_pos k). lra.
Qed.
Lemma continuity_pt_same f g a : (forall x, f x = g x) -> continuity_pt f a -> continuity_pt g a.
Proof.
  intros E C eps He. destruct (C eps He) as [al [A H]]. exists al. split; [exact A|]. intros x Hx. rewrite <- !E. now apply H.
Qed.
Lemma forrester_1b_continuous x : continuity_pt forrester_1b_lf x.
Proof. unfold forrester_1b_lf. reg. Qed.
Lemma discontinuous_jump : ~ continuity_pt discontinuous_lf (1 / 2) /\ ~ continuity_pt discontinuous_hf (1 / 2).
Proof.
  split; intros C.
  - apply (step_jump 3); [lra|].
    apply continuity_pt_same with (fun x => discontinuous_lf x - forrester_1b_lf x).
    + intros x. rewrite (proj2 (proj2 (proj2 (one_dim_fidelities x)))). ring.
    + apply continuity_pt_minus; [exact C|apply forrester_1b_continuous].
  - apply (step_jump 10); [lra|].
    apply continuity_pt_same with (fun x => discontinuous_hf x - (2 * forrester_1b_lf x - 20 * x + 20)).
    + intros x. rewrite (proj1 (proj2 (proj2 (one_dim_fidelities x)))), (proj2 (proj2 (proj2 (one_dim_fidelities x)))).
      destruct (Rle_dec x (1 / 2)); ring.
    + apply continuity_pt_minus; [exact C|].
      apply continuity_pt_plus; [apply continuity_pt_minus; [apply continuity_pt_mult; [reg|apply forrester_1b_continuous]|reg]|reg].
Qed.
