(** The array interface of the test problems: proofs. *)
From Coq Require Import Reals List ZArith Lra Lia.
From Flocq Require Import Core.
From Interval Require Import Tactic.
From Verif Require Import Fl Problems ProblemsSpec ProblemsFacts ProblemsMore ProblemArrays ProblemArraysSpec.
Import ListNotations.
Local Open Scope R_scope.

(** ** rows of a fixed length *)
Ltac rows L := intros r L; cbv [num_dim] in L; do 9 (try (destruct r as [|? r]; try discriminate L)); try reflexivity.
Lemma map_rows (d : nat) (f g : list R -> option R) rows : (forall r, length r = d -> f r = g r) ->
  Forall (fun r => length r = d) rows -> map f rows = map g rows.
Proof. intros E F. apply map_ext_Forall. revert F. apply Forall_impl. exact E. Qed.
Lemma concat_ones (rows : list (list R)) : Forall (fun r => length r = 1%nat) rows -> concat rows = map (fun r => nth 0 r 0) rows.
Proof.
  induction 1 as [|r rows L F IH]; [reflexivity|]. destruct r as [|t [|u r]]; try discriminate L. cbn [concat map app nth]. now rewrite IH.
Qed.
Lemma concat_map1 (f : R -> R) rows : Forall (fun r => length r = 1%nat) rows ->
  map (fun t => Some (f t)) (concat rows) = map (fun r => Some (f (at_ 0 r))) rows.
Proof. intros F. now rewrite concat_ones, map_map. Qed.
Lemma whole_rows_ok f rows : Forall (fun r => length r = 1%nat) rows -> whole_rows f (Mat 1 rows) = Ok (Column (map (fun r => Some (f (at_ 0 r))) rows)).
Proof. intros F. unfold whole_rows. rewrite Nat.mul_1_r, Nat.eqb_refl, concat_map1 by easy. reflexivity. Qed.
Lemma whole_flat_ok f rows : Forall (fun r => length r = 1%nat) rows -> whole_flat f (Mat 1 rows) = Ok (Column (map (fun r => Some (f (at_ 0 r))) rows)).
Proof. intros F. unfold whole_flat. rewrite concat_map1 by easy. reflexivity. Qed.
Lemma first_column_ok f k rows : (1 <= k)%nat -> first_column f (Mat k rows) = Ok (Column (map (fun r => Some (f (at_ 0 r))) rows)).
Proof. intros K. destruct rows, k; try lia; reflexivity. Qed.
Lemma columns_ok q f k rows : (q <= k)%nat -> columns q f (Mat k rows) = Ok (Column (map f rows)).
Proof. intros K. unfold columns. destruct (Nat.ltb_spec k q); [lia|reflexivity]. Qed.
Lemma columns_few q f k rows : (k < q)%nat -> columns q f (Mat k rows) = Raise IndexError.
Proof. intros K. unfold columns. destruct (Nat.ltb_spec k q); [reflexivity|lia]. Qed.
Lemma broadcast_ok d f rows : broadcast_rows d f (Mat d rows) = Ok (Column (map f rows)).
Proof. unfold broadcast_rows. destruct rows; [reflexivity|]. now rewrite Nat.eqb_refl. Qed.
Lemma broadcast_one d f rows : d <> 1%nat -> broadcast_rows d f (Mat 1 rows) = Ok (Column (map (fun r => f (repeat (at_ 0 r) d)) rows)).
Proof. intros D. unfold broadcast_rows. destruct rows; [reflexivity|]. destruct (Nat.eqb_spec 1 d); [congruence|reflexivity]. Qed.
Lemma broadcast_bad d f k r rows : k <> d -> k <> 1%nat -> broadcast_rows d f (Mat k (r :: rows)) = Raise ValueError.
Proof. intros D K. unfold broadcast_rows. destruct (Nat.eqb_spec k d); [easy|]. destruct (Nat.eqb_spec k 1); easy. Qed.
Lemma pair_ok2 f rows : pair_rows f (Mat 2 rows) = Ok (Column (map (fun r => Some (f (at_ 0 r) (at_ 1 r))) rows)).
Proof. destruct rows; reflexivity. Qed.

Ltac column F := apply f_equal, f_equal; refine (map_rows _ _ _ _ _ F); let L := fresh in rows L.
Lemma batch p rows : Forall (fun r => length r = num_dim p) rows -> evaluate p (Mat (num_dim p) rows) = Ok (Column (map (point_value p) rows)).
Proof.
  intros F. destruct p; cbn [num_dim evaluate] in *; unfold columns_2d; cbn [atleast_2d];
    rewrite ?whole_rows_ok, ?whole_flat_ok, ?first_column_ok, ?columns_ok, ?broadcast_ok, ?pair_ok2 by (lia || easy); column F.
Qed.
Lemma batch_lf p rows : ~ In p single_fidelity -> Forall (fun r => length r = num_dim p) rows ->
  evaluate_lf p (Mat (num_dim p) rows) = Ok (Column (map (low_value p) rows)).
Proof.
  intros N F. destruct p; try (exfalso; apply N; cbn; tauto); cbn [num_dim evaluate_lf] in *; unfold columns_2d; cbn [atleast_2d];
    rewrite ?whole_rows_ok, ?whole_flat_ok, ?first_column_ok, ?columns_ok, ?broadcast_ok, ?pair_ok2 by (lia || easy); column F.
Qed.
Lemma batch_lf_none p x : In p single_fidelity -> evaluate_lf p x = Raise NotImplementedError.
Proof. intros I. cbn in I. repeat (destruct I as [<-|I]; [reflexivity|]). destruct I. Qed.
Lemma batch_cons rows : Forall (fun r => length r = 2%nat) rows ->
  evaluate_cons Branin_1 (Mat 2 rows) = Ok (Column (map (fun x => match x with [u; v] => Some (branin1_constraint u v) | _ => None end) rows)) /\
  evaluate_cons Branin_2 (Mat 2 rows) = Ok (Column (map (fun x => match x with [u; v] => Some (branin2_constraint u v) | _ => None end) rows)).
Proof. intros F. cbn [evaluate_cons]. rewrite !columns_ok by lia. split; column F. Qed.
Lemma batch_cons_none p x : p <> Branin_1 -> p <> Branin_2 -> evaluate_cons p x = Raise NotImplementedError.
Proof. intros A B. destruct p; easy. Qed.
(** batches of [Ackley] and [Thevenot] *)
Lemma batch_any f k rows v : any_rows f (Mat k rows) = Ok (Column (map f rows)) /\ any_rows f (Vec v) = Ok (Scalar (f v)).
Proof. easy. Qed.

(** ** values on the domain *)
Lemma box_length dom x : in_box dom x -> length x = length dom.
Proof. induction 1 as [|b t dom x B D IH]; [reflexivity|]. cbn [length]. now rewrite IH. Qed.
Lemma domain_box p : length (input_domain p) = num_dim p /\ Forall (fun b => fst b < snd b) (input_domain p).
Proof. destruct p; (split; [reflexivity|]); repeat constructor; cbn [fst snd]; lra. Qed.
Lemma value_on_domain p x : in_box (input_domain p) x -> (p = MfPark91A -> nth 0 x 0 <> 0) -> exists v, point_value p x = Some v.
Proof.
  intros D P. pose proof (box_length _ _ D) as L. rewrite (proj1 (domain_box p)) in L.
  destruct p; cbv [num_dim] in L; do 9 (try (destruct x as [|? x]; try discriminate L)); cbn [point_value];
    try (eexists; reflexivity).
  - destruct (hartman6_bounds [r; r0; r1; r2; r3; r4]) as [v [E _]]. now exists v.
  - destruct (hartman6_bounds [r; r0; r1; r2; r3; r4]) as [v [E _]]. now exists v.
  - destruct (borehole_ordered _ _ _ _ _ _ _ _ D) as [u [v [_ [E _]]]]. now exists v.
  - destruct (currin_defined _ _ D) as [[v [E _]] _]. now exists v.
  - destruct (park_a_defined _ _ _ _ D) as [[_ H] _]. specialize (H (P eq_refl)).
    destruct (park_a_hf r r0 r1 r2) as [v|]; [now exists v|easy].
Qed.
Lemma low_on_domain p x : ~ In p single_fidelity -> in_box (input_domain p) x -> (p = MfPark91A -> nth 0 x 0 <> 0) -> exists v, low_value p x = Some v.
Proof.
  intros N D P. pose proof (box_length _ _ D) as L. rewrite (proj1 (domain_box p)) in L.
  destruct p; try (exfalso; apply N; cbn; tauto); cbv [num_dim] in L; do 9 (try (destruct x as [|? x]; try discriminate L)); cbn [low_value];
    try (eexists; reflexivity).
  - destruct (hartman6_lf_bounds [r; r0; r1; r2; r3; r4]) as [v [E _]]. now exists v.
  - destruct (borehole_ordered _ _ _ _ _ _ _ _ D) as [u [v [E _]]]. now exists u.
  - destruct (currin_defined _ _ D) as [_ [v E]]. now exists v.
  - destruct (park_a_defined _ _ _ _ D) as [_ [_ H]]. specialize (H (P eq_refl)).
    destruct (park_a_lf r r0 r1 r2) as [v|]; [now exists v|easy].
Qed.

(** ** other shapes *)
Ltac each I := cbn in I; repeat (destruct I as [<-|I]); [..|destruct I].
Lemma wide p k rows : In p (accept_points ++ need_matrix) -> (num_dim p <= k)%nat -> Forall (fun r => length r = k) rows ->
  evaluate p (Mat k rows) = Ok (Column (map (fun r => point_value p (firstn (num_dim p) r)) rows)).
Proof.
  intros I K F. each I; cbn [num_dim evaluate] in *; unfold columns_2d; cbn [atleast_2d]; rewrite columns_ok by lia;
    apply f_equal, f_equal; apply (map_rows k); try exact F; intros r L;
    do 8 (try (destruct r as [|? r]; [cbn [length] in L; lia|])); reflexivity.
Qed.
Lemma narrow p k rows : In p (accept_points ++ need_matrix) -> (k < num_dim p)%nat -> evaluate p (Mat k rows) = Raise IndexError.
Proof. intros I K. each I; cbn [num_dim evaluate] in *; unfold columns_2d; cbn [atleast_2d]; apply columns_few; lia. Qed.
Lemma one_point p v : In p accept_points -> (num_dim p <= length v)%nat -> evaluate p (Vec v) = Ok (Column [point_value p (firstn (num_dim p) v)]).
Proof.
  intros I K. assert (E : evaluate p (Vec v) = evaluate p (Mat (length v) [v])) by (each I; reflexivity).
  rewrite E, wide; [reflexivity| |easy|now constructor].
  apply in_or_app. now left.
Qed.
Lemma no_point p v : In p need_matrix -> evaluate p (Vec v) = Raise IndexError.
Proof. intros I. each I; reflexivity. Qed.
Lemma hartman_columns p k r rows : In p hartmans -> Forall (fun r => length r = k) (r :: rows) ->
  evaluate p (Mat k (r :: rows)) =
  if Nat.eqb k (num_dim p) then Ok (Column (map (point_value p) (r :: rows)))
  else if Nat.eqb k 1 then Ok (Column (map (fun r => point_value p (repeat (nth 0 r 0) (num_dim p))) (r :: rows)))
  else Raise ValueError.
Proof.
  intros I F. destruct (Nat.eqb_spec k (num_dim p)) as [->|N]; [now apply batch|].
  destruct (Nat.eqb_spec k 1) as [->|K].
  - each I; cbn [num_dim evaluate] in *; rewrite broadcast_one by lia; reflexivity.
  - each I; cbn [num_dim evaluate] in *; now apply broadcast_bad.
Qed.
Lemma forrester_shapes p k rows : In p forresters -> Forall (fun r => length r = k) rows -> rows <> [] -> k <> 1%nat ->
  evaluate p (Mat k rows) = Raise ValueError.
Proof.
  intros I F N K. assert (E : whole_rows forrester (Mat k rows) = Raise ValueError).
  { unfold whole_rows. destruct (Nat.eqb_spec (length rows * k) (length rows)) as [E|]; [|reflexivity].
    destruct rows; [easy|]. cbn [length] in E. nia. }
  each I; exact E.
Qed.
Lemma forrester_vector p v : In p forresters -> evaluate p (Vec v) = Ok (Column (map (fun t => point_value p [t]) v)).
Proof. intros I. each I; reflexivity. Qed.
Lemma flat_shapes p k rows : In p [Nonlinear1D; PhaseShifted] -> Forall (fun r => length r = k) rows ->
  exists l, evaluate p (Mat k rows) = Ok (Column l) /\ length l = (length rows * k)%nat.
Proof.
  intros I F. assert (L : length (concat rows) = (length rows * k)%nat).
  { clear I. induction F as [|r rows L F IH]; [reflexivity|]. cbn [concat length]. rewrite app_length, IH, L. lia. }
  each I; (eexists; split; [reflexivity|]); now rewrite map_length.
Qed.
Lemma ackley_n2_shapes : (forall x1 x2, evaluate AckleyN2 (Vec [x1; x2]) = Ok (Scalar (Some (ackley_n2 x1 x2)))) /\
  (forall v, length v <> 2%nat -> evaluate AckleyN2 (Vec v) = Raise ValueError) /\
  (forall k r rows, k <> 2%nat -> evaluate AckleyN2 (Mat k (r :: rows)) = Raise ValueError).
Proof.
  split; [reflexivity|]. split.
  - intros v L. destruct v as [|a [|b [|c v]]]; try reflexivity. now destruct L.
  - intros k r rows K. destruct k as [|[|[|k]]]; try reflexivity. lia.
Qed.

(** ** constructors *)
Lemma check_dim_ok p d : p <> AckleyN2 -> check_dim p d = if Z.eqb d (Z.of_nat (num_dim p)) then Ok tt else Raise AssertionError.
Proof. intros N. destruct p; easy. Qed.
Lemma new_plain p d cost : p <> AckleyN2 -> ~ In p with_cost ->
  new_problem p d cost = if Z.eqb d (Z.of_nat (num_dim p)) then Ok None else Raise AssertionError.
Proof.
  intros N W. unfold new_problem. rewrite check_dim_ok by easy.
  destruct p; try (exfalso; apply W; cbn; tauto); try easy; now destruct (Z.eqb d _).
Qed.
Lemma new_cost p d c0 c1 : In p with_cost ->
  (d = Z.of_nat (num_dim p) -> forall k, cost_ratio c0 c1 = Ok k -> new_problem p d (c0, c1) = Ok (Some k)) /\
  (d <> Z.of_nat (num_dim p) \/ c1 = 0 ->
   new_problem p d (c0, c1) = Raise (if Z.eqb d (Z.of_nat (num_dim p)) then ZeroDivisionError
                                     else match p with MfSixhump | MfHartman6 => if Req_EM_T c1 0 then ZeroDivisionError else AssertionError | _ => AssertionError end)).
Proof.
  intros I. assert (N : p <> AckleyN2) by (each I; easy). unfold new_problem. rewrite check_dim_ok by easy. cbn [fst snd].
  split.
  - intros -> k E. rewrite E, Z.eqb_refl. each I; reflexivity.
  - intros H. unfold cost_ratio. destruct (Z.eqb_spec d (Z.of_nat (num_dim p))) as [E|E], (Req_EM_T c1 0) as [Z|Z].
    + each I; reflexivity.
    + destruct H; easy.
    + each I; reflexivity.
    + each I; reflexivity.
Qed.
Lemma new_ackley_n2 d cost : new_problem AckleyN2 d cost = if Z.leb 0 d then Ok None else Raise AssertionError.
Proof. unfold new_problem, check_dim. now destruct (Z.leb 0 d). Qed.

(** ** integers *)
Lemma trunc_up z : (0 <= z)%Z -> Ztrunc (IZR z + 0.05) = z.
Proof.
  intros Z. apply IZR_le in Z. rewrite Ztrunc_floor by lra. apply Zfloor_imp. rewrite plus_IZR. lra.
Qed.
Lemma trunc_down z : (0 < z)%Z -> Ztrunc (IZR z - 0.05) = (z - 1)%Z.
Proof.
  intros Z. assert (1 <= IZR z) by (apply IZR_le; lia). rewrite Ztrunc_floor by lra. apply Zfloor_imp.
  rewrite plus_IZR, minus_IZR. lra.
Qed.
Lemma trunc_zero : Ztrunc (0 - 0.05) = 0%Z.
Proof. rewrite Ztrunc_ceil by lra. apply Zceil_imp. rewrite minus_IZR. lra. Qed.
Lemma currin_some x y : 0 < 100 * x ^ 3 + 500 * x ^ 2 + 4 * x + 20 -> / 10 ^ 8 < y ->
  currin_hf x y = Some ((1 - exp (-1 / (2 * y))) * (2300 * x ^ 3 + 1900 * x ^ 2 + 2092 * x + 60) / (100 * x ^ 3 + 500 * x ^ 2 + 4 * x + 20)).
Proof.
  intros D Y. unfold currin_hf. destruct (Rle_dec y (/ 10 ^ 8)) as [L|_]; [lra|]. assert (0 < / 10 ^ 8) by (apply Rinv_0_lt_compat, pow_lt; lra).
  rewrite odiv_ok by lra. cbn [obind]. apply odiv_ok. lra.
Qed.
Lemma currin_small x y : 0 < 100 * x ^ 3 + 500 * x ^ 2 + 4 * x + 20 -> y <= 0 ->
  currin_hf x y = Some (1 * (2300 * x ^ 3 + 1900 * x ^ 2 + 2092 * x + 60) / (100 * x ^ 3 + 500 * x ^ 2 + 4 * x + 20)).
Proof.
  intros D Y. unfold currin_hf. assert (0 < / 10 ^ 8) by (apply Rinv_0_lt_compat, pow_lt; lra).
  destruct (Rle_dec y (/ 10 ^ 8)) as [_|L]; [|lra]. cbn [obind]. apply odiv_ok. lra.
Qed.
Ltac value := unfold currin_lf, currin_lf_int; try change (IZR 0) with 0;
  rewrite ?trunc_zero, ?(trunc_up 1), ?(trunc_up 0), ?(trunc_down 1) by lia; try change (IZR (1 - 1)) with 0;
  repeat match goal with |- context [currin_hf ?x ?y] =>
    first [rewrite (currin_some x y) by (simpl; lra) | rewrite (currin_small x y) by (simpl; lra)] end; cbn [obind]; reflexivity.
Lemma currin_int_corners x1 x2 : in_box currin_domain [IZR x1; IZR x2] ->
  exists v w, currin_lf (IZR x1) (IZR x2) = Some v /\ currin_lf_int x1 x2 = Some w /\ Rabs (v - w) > / 10 ^ 4.
Proof.
  intros D. assert (C : (x1 = 0 \/ x1 = 1)%Z /\ (x2 = 0 \/ x2 = 1)%Z).
  { inversion D as [|? ? ? ? B1 D1]; subst. inversion D1 as [|? ? ? ? B2 D2]; subst. cbn [fst snd] in *.
    destruct B1 as [A1 A2]. destruct B2 as [A3 A4]. apply le_IZR in A1, A2, A3, A4. lia. }
  destruct C as [[->| ->] [->| ->]]; (eexists; eexists; split; [value|]; split; [value|]; unfold Rgt; interval with (i_prec 60)).
Qed.
Lemma currin_int_points x1 x2 : (0 <= x1)%Z -> (0 <= x2)%Z ->
  currin_lf_int x1 x2 = mean4 (currin_hf (IZR x1 + 0.05) (IZR x2 + 0.05)) (currin_hf (IZR x1) (IZR (Z.max 0 (x2 - 1))))
    (currin_hf (IZR (Z.max 0 (x1 - 1))) (IZR x2)) (currin_hf (IZR x1 - 0.05) (IZR x2 - 0.05)).
Proof.
  assert (T : forall z, (0 <= z)%Z -> Ztrunc (IZR z - 0.05) = Z.max 0 (z - 1)).
  { intros z Z. destruct (Z.eq_dec z 0) as [->|N]; [exact trunc_zero|]. rewrite trunc_down by lia. lia. }
  intros P Q. unfold currin_lf_int, mean4. rewrite !trunc_up, !T by easy.
  repeat match goal with |- context [currin_hf ?a ?b] => destruct (currin_hf a b); cbn [obind]; try reflexivity end.
Qed.
