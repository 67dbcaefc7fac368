(** Theorems about the arrays the test problems accept (C94 to C97).
    [Mat k rows] is an array of shape (n, k) and [Vec v] one of shape (n,); a function returns a [Column] of shape
    (n, 1) or a [Scalar].  The value of a problem at a point is in ProblemArraysSpec.v, with the names of the
    groups of problems; None in a column is NaN or infinity. *)
From Coq Require Import Reals List ZArith Lra Lia.
From Verif Require Import Fl Problems ProblemsSpec ProblemArrays ProblemArraysSpec ProblemArraysFacts.
Import ListNotations.
Local Open Scope R_scope.

(** ** C94 a batch of points *)
Theorem C94_batch : forall p rows, Forall (fun r => length r = num_dim p) rows ->
  evaluate p (Mat (num_dim p) rows) = Ok (Column (map (point_value p) rows)).
Proof. exact batch. Qed.
Print Assumptions C94_batch.
Theorem C94_low_fidelity : forall p rows, ~ In p single_fidelity -> Forall (fun r => length r = num_dim p) rows ->
  evaluate_lf p (Mat (num_dim p) rows) = Ok (Column (map (low_value p) rows)).
Proof. exact batch_lf. Qed.
Print Assumptions C94_low_fidelity.
Theorem C94_no_low_fidelity : forall p x, In p single_fidelity -> evaluate_lf p x = Raise NotImplementedError.
Proof. exact batch_lf_none. Qed.
Print Assumptions C94_no_low_fidelity.
Theorem C94_constraint : forall rows, Forall (fun r => length r = 2%nat) rows ->
  evaluate_cons Branin_1 (Mat 2 rows) = Ok (Column (map (fun x => match x with [u; v] => Some (branin1_constraint u v) | _ => None end) rows)) /\
  evaluate_cons Branin_2 (Mat 2 rows) = Ok (Column (map (fun x => match x with [u; v] => Some (branin2_constraint u v) | _ => None end) rows)).
Proof. exact batch_cons. Qed.
Print Assumptions C94_constraint.
Theorem C94_no_constraint : forall p x, p <> Branin_1 -> p <> Branin_2 -> evaluate_cons p x = Raise NotImplementedError.
Proof. exact batch_cons_none. Qed.
Print Assumptions C94_no_constraint.
(** on the declared domain every value is a number, except where Park91A divides by zero *)
Theorem C94_numbers : forall p x, in_box (input_domain p) x -> (p = MfPark91A -> nth 0 x 0 <> 0) -> exists v, point_value p x = Some v.
Proof. exact value_on_domain. Qed.
Print Assumptions C94_numbers.
Theorem C94_low_numbers : forall p x, ~ In p single_fidelity -> in_box (input_domain p) x -> (p = MfPark91A -> nth 0 x 0 <> 0) ->
  exists v, low_value p x = Some v.
Proof. exact low_on_domain. Qed.
Print Assumptions C94_low_numbers.
Example C94_two : evaluate MfBooth (Mat 2 [[1; 3]; [0; 0]]) = Ok (Column [Some (booth_hf 1 3); Some (booth_hf 0 0)]).
Proof. apply (C94_batch MfBooth). repeat constructor. Qed.

(** ** C95 constructors *)
Theorem C95_domain : forall p, length (input_domain p) = num_dim p /\ Forall (fun b => fst b < snd b) (input_domain p).
Proof. exact domain_box. Qed.
Print Assumptions C95_domain.
Theorem C95_dimension : forall p d cost, p <> AckleyN2 -> ~ In p with_cost ->
  new_problem p d cost = if Z.eqb d (Z.of_nat (num_dim p)) then Ok None else Raise AssertionError.
Proof. exact new_plain. Qed.
Print Assumptions C95_dimension.
(** with a cost: the ratio is computed before the dimension is checked in two of the classes *)
Theorem C95_cost : forall p d c0 c1, In p with_cost ->
  (d = Z.of_nat (num_dim p) -> forall k, cost_ratio c0 c1 = Ok k -> new_problem p d (c0, c1) = Ok (Some k)) /\
  (d <> Z.of_nat (num_dim p) \/ c1 = 0 ->
   new_problem p d (c0, c1) = Raise (if Z.eqb d (Z.of_nat (num_dim p)) then ZeroDivisionError
                                     else match p with MfSixhump | MfHartman6 => if Req_EM_T c1 0 then ZeroDivisionError else AssertionError | _ => AssertionError end)).
Proof. exact new_cost. Qed.
Print Assumptions C95_cost.
(** AckleyN2 accepts every dimension that is not negative, and is a function of two variables all the same *)
Theorem C95_ackley_n2 : forall d cost, new_problem AckleyN2 d cost = if Z.leb 0 d then Ok None else Raise AssertionError.
Proof. exact new_ackley_n2. Qed.
Print Assumptions C95_ackley_n2.
Example C95_five : new_problem AckleyN2 5 (0, 0) = Ok None /\ evaluate AckleyN2 (Mat 5 [[0; 0; 0; 0; 0]]) = Raise ValueError /\
  In MfSixhump with_cost /\ ~ In MfBooth with_cost.
Proof. repeat split; cbn; try tauto. intros H. repeat (destruct H as [H|H]; [discriminate H|]). exact H. Qed.

(** ** C96 other shapes *)
(** columns beyond the dimension are ignored, missing ones are an IndexError *)
Theorem C96_wide : forall p k rows, In p (accept_points ++ need_matrix) -> (num_dim p <= k)%nat -> Forall (fun r => length r = k) rows ->
  evaluate p (Mat k rows) = Ok (Column (map (fun r => point_value p (firstn (num_dim p) r)) rows)).
Proof. exact wide. Qed.
Print Assumptions C96_wide.
Theorem C96_narrow : forall p k rows, In p (accept_points ++ need_matrix) -> (k < num_dim p)%nat -> evaluate p (Mat k rows) = Raise IndexError.
Proof. exact narrow. Qed.
Print Assumptions C96_narrow.
(** a single point given as a vector *)
Theorem C96_point : forall p v, In p accept_points -> (num_dim p <= length v)%nat -> evaluate p (Vec v) = Ok (Column [point_value p (firstn (num_dim p) v)]).
Proof. exact one_point. Qed.
Print Assumptions C96_point.
Theorem C96_no_point : forall p v, In p need_matrix -> evaluate p (Vec v) = Raise IndexError.
Proof. exact no_point. Qed.
Print Assumptions C96_no_point.
(** the Hartman functions read one column as points with equal coordinates *)
Theorem C96_hartman : forall p k r rows, In p hartmans -> Forall (fun r => length r = k) (r :: rows) ->
  evaluate p (Mat k (r :: rows)) =
  if Nat.eqb k (num_dim p) then Ok (Column (map (point_value p) (r :: rows)))
  else if Nat.eqb k 1 then Ok (Column (map (fun r => point_value p (repeat (nth 0 r 0) (num_dim p))) (r :: rows)))
  else Raise ValueError.
Proof. exact hartman_columns. Qed.
Print Assumptions C96_hartman.
Theorem C96_forrester : forall p k rows, In p forresters -> Forall (fun r => length r = k) rows -> rows <> [] -> k <> 1%nat ->
  evaluate p (Mat k rows) = Raise ValueError.
Proof. exact forrester_shapes. Qed.
Print Assumptions C96_forrester.
Theorem C96_forrester_vector : forall p v, In p forresters -> evaluate p (Vec v) = Ok (Column (map (fun t => point_value p [t]) v)).
Proof. exact forrester_vector. Qed.
Print Assumptions C96_forrester_vector.
(** two of the one-dimensional problems return a value for every entry *)
Theorem C96_flat : forall p k rows, In p [Nonlinear1D; PhaseShifted] -> Forall (fun r => length r = k) rows ->
  exists l, evaluate p (Mat k rows) = Ok (Column l) /\ length l = (length rows * k)%nat.
Proof. exact flat_shapes. Qed.
Print Assumptions C96_flat.
Theorem C96_ackley_n2 : (forall x1 x2, evaluate AckleyN2 (Vec [x1; x2]) = Ok (Scalar (Some (ackley_n2 x1 x2)))) /\
  (forall v, length v <> 2%nat -> evaluate AckleyN2 (Vec v) = Raise ValueError) /\
  (forall k r rows, k <> 2%nat -> evaluate AckleyN2 (Mat k (r :: rows)) = Raise ValueError).
Proof. exact ackley_n2_shapes. Qed.
Print Assumptions C96_ackley_n2.
Example C96_ok : evaluate MfBooth (Mat 3 [[1; 3; 7]]) = evaluate MfBooth (Vec [1; 3]) /\
  exists l, evaluate PhaseShifted (Mat 2 [[0; 1]]) = Ok (Column l) /\ length l = 2%nat.
Proof. split; [reflexivity|]. apply (C96_flat PhaseShifted 2 [[0; 1]]); [cbn; tauto|repeat constructor]. Qed.

(** ** C97 integer points of Currin *)
(** at every point of the domain with integer coordinates, given as integers, the low fidelity is another one *)
Theorem C97_currin : forall x1 x2, in_box currin_domain [IZR x1; IZR x2] ->
  exists v w, currin_lf (IZR x1) (IZR x2) = Some v /\ currin_lf_int x1 x2 = Some w /\ Rabs (v - w) > / 10 ^ 4.
Proof. exact currin_int_corners. Qed.
Print Assumptions C97_currin.
(** two of the four points lose their fraction: it is the mean of the high fidelity at these points *)
Theorem C97_points : forall x1 x2, (0 <= x1)%Z -> (0 <= x2)%Z ->
  currin_lf_int x1 x2 = mean4 (currin_hf (IZR x1 + 0.05) (IZR x2 + 0.05)) (currin_hf (IZR x1) (IZR (Z.max 0 (x2 - 1))))
    (currin_hf (IZR (Z.max 0 (x1 - 1))) (IZR x2)) (currin_hf (IZR x1 - 0.05) (IZR x2 - 0.05)).
Proof. exact currin_int_points. Qed.
Print Assumptions C97_points.
Example C97_corner : in_box currin_domain [IZR 1; IZR 0]. Proof. repeat constructor; simpl; lra. Qed.
