(** Theorems about the values the multi-fidelity test problems take on their domains (C98), over the
    real numbers.  The functions and domains are transcribed in Problems.v, [in_box] is in ProblemsSpec.v. *)
From Coq Require Import Reals List ZArith Lra.
From Verif Require Import Fl Problems ProblemsSpec ProblemsFacts ProblemsMore ProblemsNum ProblemsRange.
Import ListNotations.
Local Open Scope R_scope.

(** the low-fidelity Hartman3 is between its values at two corners, 0.162 and 0.655, so it is nowhere near
    the high fidelity, which is negative *)
Theorem C98_hartman3 : forall x1 x2 x3, in_box hartman3_domain [x1; x2; x3] ->
  hartman3_lf 1 1 0 <= hartman3_lf x1 x2 x3 <= hartman3_lf 1 0 1 /\
  hartman3_lf 1 1 0 = 0.162 /\ hartman3_lf 1 0 1 = 0.655 /\ hartman3 [x1; x2; x3] < 0.
Proof. exact hartman3_c98. Qed.
Print Assumptions C98_hartman3.
(** the low-fidelity Hartman6 is the high fidelity at scaled variables, up to constants *)
Theorem C98_hartman6 : forall x1 x2 x3 x4 x5 x6, exists u v,
  hartman6_lf [x1; x2; x3; x4; x5; x6] = Some u /\ hartman6 [0.75 * x1; x2; 0.8 * x3; 1.3 * x4; 0.7 * x5; 1.1 * x6] = Some v /\
  v - ln 1.1 < u < v + ln 1.5.
Proof. exact hartman6_fidelities. Qed.
Print Assumptions C98_hartman6.
(** CurrinExp is a product of a function of each variable, its low fidelity the product of their averages
    over two neighbours; both are positive and at most 13.7988 *)
Theorem C98_currin : forall x y, in_box currin_domain [x; y] ->
  let r t := (2300 * t ^ 3 + 1900 * t ^ 2 + 2092 * t + 60) / (100 * t ^ 3 + 500 * t ^ 2 + 4 * t + 20) in
  let g t := if Rle_dec t (/ 10 ^ 8) then 1 else 1 - exp (-1 / (2 * t)) in
  currin_hf x y = Some (g y * r x) /\
  currin_lf x y = Some ((g (y + 0.05) + g (y - 0.05)) / 2 * ((r (x + 0.05) + r (x - 0.05)) / 2)) /\
  (exists u v, currin_lf x y = Some u /\ currin_hf x y = Some v /\ 0 < u <= 13.7988 /\ 0 < v <= 13.7988).
Proof. exact currin_c98. Qed.
Print Assumptions C98_currin.
Theorem C98_currin_attained : exists v, currin_hf 0.21667 0 = Some v /\ 13.7987 <= v.
Proof. exact currin_high. Qed.
Print Assumptions C98_currin_attained.
Theorem C98_currin_decreasing : forall x y y', in_box currin_domain [x; y] -> in_box currin_domain [x; y'] -> y <= y' ->
  exists v v', currin_hf x y = Some v /\ currin_hf x y' = Some v' /\ v' <= v.
Proof. exact currin_decreasing. Qed.
Print Assumptions C98_currin_decreasing.
Example C98_currin_inside : in_box currin_domain [1 / 2; 0] /\ in_box currin_domain [1 / 2; 1].
Proof. split; repeat constructor; simpl; lra. Qed.
(** Park91A increases in each variable and is between x1 e and 25.5893 *)
Theorem C98_park_a : forall x1 x2 x3 x4, in_box park_domain [x1; x2; x3; x4] -> 0 < x1 ->
  (exists u, park_a_hf x1 x2 x3 x4 = Some u /\ x1 * exp 1 <= u <= 25.5893) /\
  park_a_hf x1 x2 x3 0 = Some (x1 * exp (1 + sin x3)).
Proof. exact park_a_c98. Qed.
Print Assumptions C98_park_a.
Theorem C98_park_a_increasing : forall x1 x2 x3 x4 y1 y2 y3 y4,
  in_box park_domain [x1; x2; x3; x4] -> in_box park_domain [y1; y2; y3; y4] ->
  0 < x1 <= y1 -> x2 <= y2 -> x3 <= y3 -> x4 <= y4 ->
  exists u v, park_a_hf x1 x2 x3 x4 = Some u /\ park_a_hf y1 y2 y3 y4 = Some v /\ u <= v.
Proof. exact park_a_increasing. Qed.
Print Assumptions C98_park_a_increasing.
Theorem C98_park_a_corner : exists u, park_a_hf 1 1 1 1 = Some u /\ 25.5892 <= u.
Proof. exact park_a_corner. Qed.
Print Assumptions C98_park_a_corner.
Theorem C98_park_b : forall x1 x2 x3 x4, in_box park_domain [x1; x2; x3; x4] ->
  park_b_hf 0 0 0 0 <= park_b_hf x1 x2 x3 x4 <= park_b_hf 1 1 1 0 /\ park_b_hf 0 0 0 0 = 2 / 3 /\ park_b_hf 1 1 1 0 = 2 / 3 * exp 2 + 1.
Proof. exact park_b_c98. Qed.
Print Assumptions C98_park_b.
Example C98_park_inside : in_box park_domain [1 / 10; 0; 1; 1 / 2] /\ in_box park_domain [1; 0; 1; 1].
Proof. split; apply park_box; lra. Qed.
(** the fidelities of Borehole are proportional up to 2e-5 *)
Theorem C98_borehole : forall rw r Tu Hu Tl Hl L Kw, in_box borehole_domain [rw; r; Tu; Hu; Tl; Hl; L; Kw] ->
  exists u v, borehole_lf rw r Tu Hu Tl Hl L Kw = Some u /\ borehole_hf rw r Tu Hu Tl Hl L Kw = Some v /\
    5 / (2 * PI) * v * (1 - 2 / 10 ^ 5) < u < 5 / (2 * PI) * v.
Proof. exact borehole_ratio. Qed.
Print Assumptions C98_borehole.
Theorem C98_borehole_range : forall rw r Tu Hu Tl Hl L Kw, in_box borehole_domain [rw; r; Tu; Hu; Tl; Hl; L; Kw] ->
  exists v, borehole_hf rw r Tu Hu Tl Hl L Kw = Some v /\ 7 <= v <= 310.
Proof. exact borehole_range. Qed.
Print Assumptions C98_borehole_range.
Example C98_borehole_inside : in_box borehole_domain [0.1; 200; 70000; 1000; 100; 750; 1500; 10000].
Proof. repeat constructor; simpl; lra. Qed.
Theorem C98_one_dimension : forall x, 0 <= x <= 1 -> - sqrt 2 <= nonlinear_hf x <= 0 /\ x ^ 2 <= phase_hf x <= x ^ 2 + 1.
Proof. exact one_dim_c98. Qed.
Print Assumptions C98_one_dimension.
