(** Theorems about the test problems (C61 to C73, C92, C93).
    The words are in ProblemsSpec.v ([in_box] a point of a box, [within] a distance, [valid_calls] and
    [last_valid] for constructor calls); the functions and the declared attributes ([*_domain], [*_optimum],
    [*_scheme]) are transcribed in Problems.v.  Everything is over the real numbers. *)
From Coq Require Import Reals List ZArith Lra Lia.
From Verif Require Import Fl Spec Samplers Problems ProblemsSpec ProblemsFacts ProblemsMore ProblemsNum ProblemsMain.
Import ListNotations.
Local Open Scope R_scope.

(** ** C61 Goldstein-Price *)
Theorem C61_minimum : forall x1 x2,
  goldprice_optimum <= goldprice x1 x2 /\ (goldprice x1 x2 = goldprice_optimum <-> x1 = 0 /\ x2 = -1).
Proof. exact goldprice_c61. Qed.
Print Assumptions C61_minimum.
Example C61_inside : in_box goldprice_domain [0; -1] /\ goldprice_optimum = 3.
Proof. split; [repeat constructor; simpl; lra|reflexivity]. Qed.
(** the declared place is not a minimiser *)
Theorem C61_scheme : goldprice (fst goldprice_scheme) (snd goldprice_scheme) = 28611.
Proof. exact goldprice_declared. Qed.
Print Assumptions C61_scheme.

(** ** C62 Ackley *)
Theorem C62_minimum : forall a b c x, x <> [] -> 0 <= a -> 0 <= b -> exists v, ackley a b c x = Some v /\ 0 <= v.
Proof. exact ackley_min. Qed.
Print Assumptions C62_minimum.
Theorem C62_attained : forall a b c n, (0 < n)%nat -> ackley a b c (repeat 0 n) = Some 0.
Proof. exact ackley_zero. Qed.
Print Assumptions C62_attained.
Theorem C62_unique : forall a b c x, 0 < a -> 0 < b -> ackley a b c x = Some 0 -> Forall (fun t => t = 0) x.
Proof. exact ackley_unique. Qed.
Print Assumptions C62_unique.
(** what [Ackley(num_dim, a, b, c)] declares *)
Theorem C62_declared : forall d a b c cl, (0 < d)%Z ->
  exists cl' o, ackley_construct d (a, b, c) cl = (cl', Ok o) /\ get_optimum cl' o = Some (Some 0) /\ get_scheme cl' o = Some (repeat 0 (Z.to_nat d)).
Proof. exact ackley_c62. Qed.
Print Assumptions C62_declared.
(** dimension zero is accepted, and the declared optimum is then not a number *)
Theorem C62_dimension_zero : forall a b c cl,
  exists cl' o, ackley_construct 0 (a, b, c) cl = (cl', Ok o) /\ get_optimum cl' o = Some None.
Proof. exact ackley_c62_zero. Qed.
Print Assumptions C62_dimension_zero.
Example C62_default : exists v, ackley 20 0.2 (2 * PI) [1; 2; 3] = Some v /\ 0 <= v.
Proof. apply C62_minimum; [easy|lra|lra]. Qed.

(** ** C63 Branin *)
Theorem C63_minimum : forall x1 x2, 5 / (4 * PI) <= branin x1 x2.
Proof. exact branin_min. Qed.
Print Assumptions C63_minimum.
Theorem C63_minimisers : forall x1 x2, in_box branin_domain [x1; x2] ->
  (branin x1 x2 = 5 / (4 * PI) <-> (x1 = - PI /\ x2 = 12.275) \/ (x1 = PI /\ x2 = 2.275) \/ (x1 = 3 * PI /\ x2 = 2.475)).
Proof. exact branin_c63. Qed.
Print Assumptions C63_minimisers.
Theorem C63_inside : Forall (fun p => in_box branin_domain [fst p; snd p]) [(- PI, 12.275); (PI, 2.275); (3 * PI, 2.475)].
Proof. exact branin_c63_inside. Qed.
Print Assumptions C63_inside.
Theorem C63_declared : within (/ 10 ^ 6) branin_optimum (5 / (4 * PI)) /\
  Forall (fun p => in_box branin_domain [fst p; snd p] /\ within (/ 10 ^ 6) (branin (fst p) (snd p)) branin_optimum) branin_scheme.
Proof. exact branin_c63_declared. Qed.
Print Assumptions C63_declared.
Example C63_three : length branin_scheme = 3%nat. Proof. reflexivity. Qed.

(** ** C64 Thevenot *)
Theorem C64_one_dimension : forall m beta x, (1 <= m)%nat -> 2 * PI <= beta -> - (2 * PI) <= x <= 2 * PI ->
  -1 <= thevenot m beta [x] /\ (thevenot m beta [x] = -1 <-> x = 0).
Proof. exact thevenot_one. Qed.
Print Assumptions C64_one_dimension.
Theorem C64_declared : forall d m beta cl, (0 < d)%Z -> (1 <= m)%nat ->
  exists cl' o, thevenot_construct d (m, beta) cl = (cl', Ok o) /\ get_optimum cl' o = Some (Some (-1)) /\
    get_domain cl' o = Some (repeat (- (2 * PI), 2 * PI) (Z.to_nat d)).
Proof. exact thevenot_c64. Qed.
Print Assumptions C64_declared.
(** in two or more dimensions a point of the domain lies below the declared optimum *)
Theorem C64_beaten : forall m beta n, (2 <= n)%nat -> (1 <= m)%nat -> beta <> 0 ->
  exists x, in_box (repeat (- (2 * PI), 2 * PI) n) x /\ thevenot m beta x < thevenot m beta (repeat 0 n).
Proof. exact thevenot_c64_beaten. Qed.
Print Assumptions C64_beaten.
Theorem C64_above : forall m beta x, -2 < thevenot m beta x.
Proof. exact thevenot_above. Qed.
Print Assumptions C64_above.
(** the default parameters *)
Example C64_default : (1 <= 5)%nat /\ 2 * PI <= 15 /\ thevenot 5 15 (repeat 0 2) = -1.
Proof. split; [lia|]. split; [pose proof pi_bounds; lra|]. apply thevenot_zero; lia. Qed.

(** ** C65 AckleyN2 *)
Theorem C65_minimum : forall x1 x2, -200 <= ackley_n2 x1 x2 /\ (ackley_n2 x1 x2 = -200 <-> x1 = 0 /\ x2 = 0).
Proof. exact ackley_n2_min. Qed.
Print Assumptions C65_minimum.
(** the least value is declared as the place and the place as the value *)
Theorem C65_swapped : exists x1 x2, ackley_n2_optimum = Numbers [x1; x2] /\ ackley_n2_scheme = Number (ackley_n2 x1 x2) /\
  in_box ackley_n2_domain [x1; x2] /\ forall y1 y2, ackley_n2 x1 x2 <= ackley_n2 y1 y2.
Proof. exact ackley_n2_c65. Qed.
Print Assumptions C65_swapped.

(** ** C66 Booth, Bohachevsky, Himmelblau *)
Theorem C66_booth : forall x1 x2, booth_optimum <= booth_hf x1 x2 /\
  (booth_hf x1 x2 = booth_optimum <-> x1 = fst booth_scheme /\ x2 = snd booth_scheme).
Proof. exact booth_min. Qed.
Print Assumptions C66_booth.
Theorem C66_bohachevsky : forall x1 x2, bohachevsky_optimum <= bohachevsky_hf x1 x2 /\
  (bohachevsky_hf x1 x2 = bohachevsky_optimum <-> x1 = fst bohachevsky_scheme /\ x2 = snd bohachevsky_scheme).
Proof. exact bohachevsky_min. Qed.
Print Assumptions C66_bohachevsky.
Theorem C66_himmelblau : forall x1 x2, 0 <= himmelblau_hf x1 x2 /\
  (himmelblau_hf x1 x2 = 0 <-> x1 ^ 2 + x2 = 11 /\ x1 + x2 ^ 2 = 7).
Proof. exact himmelblau_min. Qed.
Print Assumptions C66_himmelblau.
Theorem C66_inside : in_box booth_domain [fst booth_scheme; snd booth_scheme] /\
  in_box bohachevsky_domain [fst bohachevsky_scheme; snd bohachevsky_scheme] /\
  in_box himmelblau_domain [3; 2] /\ himmelblau_hf 3 2 = 0.
Proof. exact inside_c66. Qed.
Print Assumptions C66_inside.

(** ** C67 Forrester *)
Theorem C67_forrester : (forall x, in_box forrester_domain [x] -> forrester_optimum - / 10 ^ 6 <= forrester x) /\
  in_box forrester_domain [forrester_scheme] /\ within (/ 10 ^ 6) (forrester forrester_scheme) forrester_optimum.
Proof. exact forrester_c67. Qed.
Print Assumptions C67_forrester.

(** ** C68 six-hump camel and Sasena *)
Theorem C68_sixhump : forall x1 x2, in_box sixhump_domain [x1; x2] \/ in_box mf_sixhump_domain [x1; x2] ->
  sixhump_optimum - / 10 ^ 4 / 2 <= sixhump x1 x2.
Proof. exact sixhump_c68. Qed.
Print Assumptions C68_sixhump.
Theorem C68_sixhump_scheme : Forall (fun p => in_box sixhump_domain [fst p; snd p] /\ in_box mf_sixhump_domain [fst p; snd p] /\
  within (/ 10 ^ 4 / 2) (sixhump (fst p) (snd p)) sixhump_optimum) sixhump_scheme.
Proof. exact sixhump_c68_scheme. Qed.
Print Assumptions C68_sixhump_scheme.
Theorem C68_sasena : (forall x1 x2, in_box sasena_domain [x1; x2] -> sasena_optimum - 35 / 10 ^ 4 <= sasena x1 x2) /\
  in_box sasena_domain [fst sasena_scheme; snd sasena_scheme] /\
  within (/ 10 ^ 4 / 2) (sasena (fst sasena_scheme) (snd sasena_scheme)) sasena_optimum.
Proof. exact sasena_c68. Qed.
Print Assumptions C68_sasena.
Example C68_nonempty : length sixhump_scheme = 2%nat /\ in_box sixhump_domain [0; 0].
Proof. split; [reflexivity|]. repeat constructor; simpl; lra. Qed.

(** ** C69 Hartman *)
Theorem C69_hartman3 : forall x, -8.4 <= hartman3 x < 0.
Proof. exact hartman3_bounds. Qed.
Print Assumptions C69_hartman3.
Theorem C69_hartman3_domain : forall x1 x2 x3, in_box hartman3_domain [x1; x2; x3] -> hartman3_optimum - 2 / 100 <= hartman3 [x1; x2; x3].
Proof. exact hartman3_c69. Qed.
Print Assumptions C69_hartman3_domain.
(** the declared place is about 1e-4 above the declared optimum, and another point of the domain attains it *)
Theorem C69_hartman3_scheme : in_box hartman3_domain hartman3_scheme /\
  hartman3_optimum + / 10 ^ 4 <= hartman3 hartman3_scheme <= hartman3_optimum + 1.5 / 10 ^ 4 /\
  exists x, in_box hartman3_domain x /\ hartman3 x < hartman3 hartman3_scheme /\ within (/ 10 ^ 6) (hartman3 x) hartman3_optimum.
Proof. exact hartman3_c69_scheme. Qed.
Print Assumptions C69_hartman3_scheme.
Theorem C69_hartman6 : forall x, exists v, hartman6 x = Some v /\ - ln 8.4 <= v.
Proof. exact hartman6_bounds. Qed.
Print Assumptions C69_hartman6.
Theorem C69_hartman6_scheme : in_box hartman6_domain hartman6_scheme /\
  exists v, hartman6 hartman6_scheme = Some v /\ within (/ 10 ^ 6) v hartman6_optimum.
Proof. exact hartman6_c69_scheme. Qed.
Print Assumptions C69_hartman6_scheme.
Theorem C69_hartman6_low : forall x, exists v, hartman6_lf x = Some v /\ - ln 7.4 <= v.
Proof. exact hartman6_lf_bounds. Qed.
Print Assumptions C69_hartman6_low.
Example C69_inside : in_box hartman3_domain [0; 1 / 2; 1]. Proof. repeat constructor; simpl; lra. Qed.

(** ** C70 where the functions are defined *)
Theorem C70_borehole : forall rw r Tu Hu Tl Hl L Kw, in_box borehole_domain [rw; r; Tu; Hu; Tl; Hl; L; Kw] ->
  exists u v, borehole_lf rw r Tu Hu Tl Hl L Kw = Some u /\ borehole_hf rw r Tu Hu Tl Hl L Kw = Some v /\ 0 < u < v.
Proof. exact borehole_ordered. Qed.
Print Assumptions C70_borehole.
Theorem C70_currin : forall x1 x2, in_box currin_domain [x1; x2] ->
  (exists v, currin_hf x1 x2 = Some v /\ 0 < v) /\ (exists w, currin_lf x1 x2 = Some w).
Proof. exact currin_defined. Qed.
Print Assumptions C70_currin.
(** on the domain, Park91A divides by zero exactly where the first variable is zero *)
Theorem C70_park : forall x1 x2 x3 x4, in_box park_domain [x1; x2; x3; x4] ->
  (park_a_hf x1 x2 x3 x4 <> None <-> x1 <> 0) /\ (park_a_lf x1 x2 x3 x4 <> None <-> x1 <> 0).
Proof. exact park_a_defined. Qed.
Print Assumptions C70_park.
Example C70_inside : in_box borehole_domain [0.1; 200; 70000; 1000; 100; 750; 1500; 10000] /\ in_box park_domain [0; 1; 1; 1].
Proof. split; repeat constructor; simpl; lra. Qed.

(** ** C71 class attributes *)
Theorem C71_ackley : forall calls o, let cl := constructs ackley_construct calls (Class None []) in
  In o (cl_objects cl) ->
  exists d a b c, last_valid calls = Some (d, (a, b, c)) /\ let n := Z.to_nat d in
    get_dimension cl o = Some n /\ get_domain cl o = Some (repeat (-32, 32) n) /\
    get_optimum cl o = Some (ackley a b c (repeat 0 n)) /\ get_scheme cl o = Some (repeat 0 n).
Proof. exact ackley_c71. Qed.
Print Assumptions C71_ackley.
Theorem C71_thevenot : forall calls o, let cl := constructs thevenot_construct calls (Class None []) in
  In o (cl_objects cl) ->
  exists d m beta, last_valid calls = Some (d, (m, beta)) /\ let n := Z.to_nat d in
    get_dimension cl o = Some n /\ get_domain cl o = Some (repeat (- (2 * PI), 2 * PI) n) /\
    get_optimum cl o = Some (Some (thevenot m beta (repeat 0 n))) /\ get_scheme cl o = Some (repeat 0 n).
Proof. exact thevenot_c71. Qed.
Print Assumptions C71_thevenot.
(** the objects keep their own parameters, dimension and domain *)
Theorem C71_own : forall calls calls',
  cl_objects (constructs ackley_construct calls (Class None [])) =
    map (fun c => Instance (snd c) (Z.to_nat (fst c)) (repeat (-32, 32) (Z.to_nat (fst c)))) (valid_calls calls) /\
  cl_objects (constructs thevenot_construct calls' (Class None [])) =
    map (fun c => Instance (snd c) (Z.to_nat (fst c)) (repeat (- (2 * PI), 2 * PI) (Z.to_nat (fst c)))) (valid_calls calls').
Proof. exact own_c71. Qed.
Print Assumptions C71_own.
Theorem C71_negative : forall d p q cl cl', (d < 0)%Z ->
  ackley_construct d p cl = (cl, Raise AssertionError) /\ thevenot_construct d q cl' = (cl', Raise AssertionError).
Proof. exact negative_c71. Qed.
Print Assumptions C71_negative.
(** a second object of another dimension leaves the first with a dimension that is not its own *)
Theorem C71_two : forall d1 d2 p1 p2, (0 <= d1)%Z -> (0 <= d2)%Z -> d1 <> d2 ->
  exists o1 o2, let cl := constructs ackley_construct [(d1, p1); (d2, p2)] (Class None []) in
    cl_objects cl = [o1; o2] /\ in_dim o1 = Z.to_nat d1 /\ get_dimension cl o1 = Some (in_dim o2) /\ in_dim o1 <> in_dim o2.
Proof. exact class_c71_two. Qed.
Print Assumptions C71_two.
Example C71_calls : last_valid [(2%Z, 0); ((-1)%Z, 1); (3%Z, 2); ((-4)%Z, 3)] = Some (3%Z, 2). Proof. reflexivity. Qed.

(** ** C72 the constrained Branin problems *)
Theorem C72_branin1 : (forall u v, in_box branin_cons_domain [u; v] -> branin1_constraint u v <= 0 -> branin1_optimum - / 10 ^ 4 <= branin_cons u v) /\
  in_box branin_cons_domain [fst branin1_scheme; snd branin1_scheme] /\
  branin1_constraint (fst branin1_scheme) (snd branin1_scheme) <= 0 /\
  within (/ 10 ^ 4) (branin_cons (fst branin1_scheme) (snd branin1_scheme)) branin1_optimum.
Proof. exact branin1_c72. Qed.
Print Assumptions C72_branin1.
(** Branin_2: the declared place breaks the constraint and lies below every feasible point; the declared optimum
    is at most 0.041 above the feasible values, and a feasible point is within 0.01 above it *)
Theorem C72_branin2 : in_box branin_cons_domain [fst branin2_scheme; snd branin2_scheme] /\
  0 < branin2_constraint (fst branin2_scheme) (snd branin2_scheme) /\
  branin2_optimum - 46 / 1000 < branin_cons (fst branin2_scheme) (snd branin2_scheme) < branin2_optimum - 45 / 1000 /\
  (forall u v, in_box branin_cons_domain [u; v] -> branin2_constraint u v <= 0 ->
     branin_cons (fst branin2_scheme) (snd branin2_scheme) < branin_cons u v /\ branin2_optimum - 41 / 1000 <= branin_cons u v) /\
  exists u v, in_box branin_cons_domain [u; v] /\ branin2_constraint u v <= 0 /\ branin_cons u v <= branin2_optimum + 1 / 100.
Proof. exact branin2_c72. Qed.
Print Assumptions C72_branin2.
Theorem C72_objective : forall u v, 5 / (4 * PI) + 5 * u <= branin_cons u v.
Proof. exact branin_c72. Qed.
Print Assumptions C72_objective.

(** ** C73 evaluating several fidelities *)
Theorem C73_call : forall A B (hf lf : A -> B) X,
  mf_call hf lf X = match X with [] => [] | [a] => [hf a] | a :: b :: _ => [hf a; lf b] end.
Proof. exact mf_call_spec. Qed.
Print Assumptions C73_call.
Theorem C73_array : forall A (d : list (list A)), mfarray_size d = map (@length A) d /\ mfarray_n_levels d = length d /\
  mfarray_hf d = match d with [] => Raise IndexError | h :: _ => Ok h end.
Proof. exact mfarray_c73. Qed.
Print Assumptions C73_array.
Example C73_two : mf_call (map S) (map (Nat.mul 2)) [[1; 2]; [3]; [4]]%nat = [[2; 3]; [6]]%nat. Proof. reflexivity. Qed.

(** ** C92 the cost ratio *)
Theorem C92_nearest : forall c0 c1, c1 <> 0 ->
  exists k, cost_ratio c0 c1 = Ok k /\ Rabs (IZR k - c0 / c1) <= / 2 /\ (Rabs (IZR k - c0 / c1) = / 2 -> Z.Even k).
Proof. exact cost_ratio_spec. Qed.
Print Assumptions C92_nearest.
Theorem C92_cheap : forall c0 c1, 0 <= c0 -> 0 < c1 -> c0 <= c1 / 2 -> cost_ratio c0 c1 = Ok 0%Z.
Proof. exact cost_ratio_c92_cheap. Qed.
Print Assumptions C92_cheap.
Theorem C92_zero : forall c0, cost_ratio c0 0 = Raise ZeroDivisionError.
Proof. exact cost_ratio_c92_zero. Qed.
Print Assumptions C92_zero.
(** the default costs *)
Example C92_default : cost_ratio 1 0.2 = Ok 5%Z /\ cost_ratio 1 0.1 = Ok 10%Z. Proof. exact cost_ratio_c92_default. Qed.

(** ** C93 how the fidelities are related *)
Theorem C93_forrester : forall x,
  forrester_1a_lf x = forrester x - 5 /\ forrester_1b_lf x = forrester x / 2 + 10 * (x - 1 / 2) - 5 /\ forrester_1c_lf x = forrester (x + 1 / 5).
Proof. exact forrester_fidelities. Qed.
Print Assumptions C93_forrester.
Theorem C93_two_dimensions : forall x y,
  sixhump_lf x y = sixhump (0.7 * x) (0.7 * y) - x * y - 15 /\
  bohachevsky_lf x y = bohachevsky_hf (0.7 * x) y + x * y - 12 /\
  booth_lf x y = booth_hf (0.4 * x) y + 1.7 * x * y - x + 2 * y /\
  himmelblau_lf x y = himmelblau_hf (0.5 * x) (0.8 * y) + y ^ 3 - (x + 1) ^ 2.
Proof. exact two_dim_fidelities. Qed.
Print Assumptions C93_two_dimensions.
Theorem C93_one_dimension : forall x,
  nonlinear_hf x = (x - sqrt 2) * nonlinear_lf x ^ 2 /\ phase_hf x = x ^ 2 + phase_lf (x + 1 / 80) ^ 2 /\
  discontinuous_hf x = 2 * discontinuous_lf x - 20 * x + (if Rle_dec x (1 / 2) then 20 else 24) /\
  discontinuous_lf x = forrester_1b_lf x + (if Rle_dec x (1 / 2) then 0 else 3).
Proof. exact one_dim_fidelities. Qed.
Print Assumptions C93_one_dimension.
Theorem C93_park : forall x1 x2 x3 x4,
  park_a_lf x1 x2 x3 x4 = option_map (fun h => (1 + sin x1 / 10) * h - 2 * x1 + x2 ^ 2 + x3 ^ 2 + 0.5) (park_a_hf x1 x2 x3 x4) /\
  (park_b_lf x1 x2 x3 x4 < park_b_hf x1 x2 x3 x4 <-> park_b_hf x1 x2 x3 x4 < 5).
Proof. exact park_c93. Qed.
Print Assumptions C93_park.
Theorem C93_park_positive : forall x1 x2 x3 x4, in_box park_domain [x1; x2; x3; x4] -> 2 / 3 <= park_b_hf x1 x2 x3 x4.
Proof. exact park_b_positive. Qed.
Print Assumptions C93_park_positive.
(** both fidelities of the discontinuous problem jump at one half *)
Theorem C93_discontinuous : ~ continuity_pt discontinuous_lf (1 / 2) /\ ~ continuity_pt discontinuous_hf (1 / 2).
Proof. exact discontinuous_jump. Qed.
Print Assumptions C93_discontinuous.
Example C93_values : park_a_lf 0 1 1 1 = None /\ booth_lf 1 3 <> booth_hf 1 3.
Proof.
  split.
  - unfold park_a_lf, park_a_hf, odiv, obind. destruct (Req_EM_T (0 ^ 2) 0) as [|N]; [easy|]. exfalso. apply N. ring.
  - unfold booth_lf, booth_hf. cbv zeta. lra.
Qed.
