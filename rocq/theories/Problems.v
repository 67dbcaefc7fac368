(** Model of the test problems of problems/*.py in exact real arithmetic (NumPy evaluates the same
    expressions row by row in binary64).  A function of a fixed number of variables takes them one by
    one; functions of any number take the row as a list.  Values are [option]s where a division by zero
    or a logarithm or root outside its domain is possible: [None] stands for NaN or infinity. *)
From Coq Require Import Reals List ZArith Lra.
From Flocq Require Import Core.
From Verif Require Import Fl.
Import ListNotations.
Local Open Scope R_scope.

Definition sum_list (l : list R) : R := fold_right Rplus 0 l.
Definition prod_list (l : list R) : R := fold_right Rmult 1 l.
Definition mean_list (l : list R) : R := sum_list l / INR (length l).
Definition dot (a b : list R) : R := sum_list (map (fun p => fst p * snd p) (combine a b)).
Definition odiv (a b : R) : option R := if Req_EM_T b 0 then None else Some (a / b).
Definition oln (a : R) : option R := if Rlt_dec 0 a then Some (ln a) else None.
Definition osqrt (a : R) : option R := if Rle_dec 0 a then Some (sqrt a) else None.
Definition obind {A B} (o : option A) (f : A -> option B) : option B := match o with Some a => f a | None => None end.
Notation "x <-- o ;; k" := (obind o (fun x => k)) (at level 100, o at next level, right associativity).

(** ** sf_functions.py *)

(** 36-41 [Forrester.f], also mf_functions.py 49-54, 83-88, 119-124 [Forrester_1a/1b/1c.hf] *)
Definition forrester (x : R) : R := (6 * x - 2) ^ 2 * sin (12 * x - 4).
(** 69-86 [Branin.f] *)
Definition branin (x1 x2 : R) : R :=
  let a := 1 in let b := 5.1 / (4 * PI ^ 2) in let c := 5 / PI in let d := 6 in let h := 10 in let ff := 1 / (8 * PI) in
  a * (x2 - b * x1 ^ 2 + c * x1 - d) ^ 2 + h * (1 - ff) * cos x1 + h.
(** 114-142 [GoldPrice.f] *)
Definition goldprice (x1 x2 : R) : R :=
  (1 + (x1 + x2 + 1) ^ 2 * (19 - 14 * x1 + 3 * x1 ^ 2 - 14 * x2 + 6 * x1 * x2 + 3 * x2 ^ 2)) *
  (30 + (2 * x1 - 3 * x2) ^ 2 * (18 - 32 * x1 + 12 * x1 ^ 2 + 48 * x2 - 36 * x1 * x2 + 27 * x2 ^ 2)).
(** 170-181 [Sixhump.f], also mf_functions.py 225-237 [mf_Sixhump.hf] *)
Definition sixhump (x1 x2 : R) : R :=
  (4 - 2.1 * x1 ^ 2 + x1 ^ 4 / 3) * x1 ^ 2 + x1 * x2 + (-4 + 4 * x2 ^ 2) * x2 ^ 2.
(** 209-221 [Sasena.f] *)
Definition sasena (x1 x2 : R) : R :=
  2 + 0.01 * (x2 - x1 ^ 2) ^ 2 + (1 - x1) ^ 2 + 2 * (2 - x2) ^ 2 + 7 * sin (0.5 * x1) * sin (0.7 * x1 * x2).
(** 271-273, 342-344 [np.dot(c, np.exp(-np.sum(a * (x[i, :] - p) ** 2, axis=1)))] of the Hartman functions,
    also mf_functions.py 184-186, 321-323, 353-356 *)
Definition hartman_sum (c : list R) (a p : list (list R)) (x : list R) : R :=
  dot c (map (fun ap => exp (- sum_list (map (fun t => fst (fst t) * (snd t - snd (fst t)) ^ 2) (combine (combine (fst ap) (snd ap)) x)))) (combine a p)).
(** 249-275 [Hartman3.f], also mf_functions.py 162-188 [mf_Hartman3.hf] *)
Definition hartman3_a : list (list R) := [[3; 10; 30]; [0.1; 10; 35]; [3; 10; 30]; [0.1; 10; 35]].
Definition hartman3_p : list (list R) :=
  [[0.3689; 0.117; 0.2673]; [0.4699; 0.4387; 0.747]; [0.1091; 0.8732; 0.5547]; [0.03815; 0.5743; 0.8828]].
Definition hartman_c : list R := [1; 1.2; 3; 3.2].
Definition hartman3 (x : list R) : R := - hartman_sum hartman_c hartman3_a hartman3_p x.
(** 320-346 [Hartman6.f], also mf_functions.py 297-325 [mf_Hartman6.hf] *)
Definition hartman6_a : list (list R) :=
  [[10; 3; 17; 3.5; 1.7; 8]; [0.05; 10; 17; 0.1; 8; 14]; [3; 3.5; 1.7; 10; 17; 8]; [17; 8; 0.05; 10; 0.1; 14]].
Definition hartman6_p : list (list R) :=
  [[0.1312; 0.1696; 0.5569; 0.0124; 0.8283; 0.5886]; [0.2329; 0.4135; 0.8307; 0.3736; 0.1004; 0.9991];
   [0.2348; 0.1451; 0.3522; 0.2883; 0.3047; 0.6650]; [0.4047; 0.8828; 0.8732; 0.5743; 0.1091; 0.0381]].
Definition hartman6 (x : list R) : option R := l <-- oln (- - hartman_sum hartman_c hartman6_a hartman6_p x) ;; Some (- l).
(** 386-403 [Thevenot.f]; the exponent 2*m is a natural number here (the default m is 5.0) *)
Definition thevenot (m : nat) (beta : R) (x : list R) : R :=
  exp (- sum_list (map (fun t => (t / beta) ^ (2 * m)) x)) - 2 * exp (- prod_list (map (fun t => t ^ 2) x)) * prod_list (map (fun t => cos t ^ 2) x).
(** 462-482 [Ackley.f]; the mean of an empty row is NaN *)
Definition ackley (a b c : R) (x : list R) : option R :=
  match x with
  | [] => None
  | _ => Some (- a * exp (- b * sqrt (mean_list (map (fun t => t ^ 2) x))) - exp (mean_list (map (fun t => cos (c * t)) x)) + a + exp 1)
  end.
(** 523-537 [AckleyN2.f] *)
Definition ackley_n2 (x1 x2 : R) : R := -200 * exp (-0.2 * sqrt (x1 ^ 2 + x2 ^ 2)).

(** *** declared domain, optimum and optimum_scheme
    (decimal literals are read as the decimal numbers they denote, [np.pi] as pi) *)

(** 18-20 Forrester, also mf_functions.py 37-39, 71-73, 107-109 *)
Definition forrester_domain : list (R * R) := [(0, 1)].
Definition forrester_optimum : R := -6.020740.
Definition forrester_scheme : R := 0.757248757841856.
(** 49-51 Branin *)
Definition branin_domain : list (R * R) := [(-5, 10); (0, 15)].
Definition branin_optimum : R := 0.397887.
Definition branin_scheme : list (R * R) := [(- PI, 12.275); (PI, 2.275); (9.42478, 2.475)].
(** 94-96 GoldPrice *)
Definition goldprice_domain : list (R * R) := [(-2, 2); (-2, 2)].
Definition goldprice_optimum : R := 3.
Definition goldprice_scheme : R * R := (0, 1).
(** 150-152 Sixhump; mf_functions.py 212-215 has the domain [[-2, 2], [-2, 2]] and the same optimum *)
Definition sixhump_domain : list (R * R) := [(-3, 3); (-2, 2)].
Definition mf_sixhump_domain : list (R * R) := [(-2, 2); (-2, 2)].
Definition sixhump_optimum : R := -1.0316.
Definition sixhump_scheme : list (R * R) := [(0.0898, -0.7126); (-0.0898, 0.7126)].
(** 189-191 Sasena *)
Definition sasena_domain : list (R * R) := [(0, 5); (0, 5)].
Definition sasena_optimum : R := -1.4565.
Definition sasena_scheme : R * R := (2.5044, 2.5778).
(** 229-231 Hartman3, also mf_functions.py 150-153 *)
Definition hartman3_domain : list (R * R) := repeat (0, 1) 3.
Definition hartman3_optimum : R := -3.86278214782076.
Definition hartman3_scheme : list R := [0.1; 0.55592003; 0.85218259].
(** 284-302 Hartman6, also mf_functions.py 261-287 *)
Definition hartman6_domain : list (R * R) := repeat (0, 1) 6.
Definition hartman6_optimum : R := - ln 3.32236801141551.
Definition hartman6_scheme : list R := [0.20168952; 0.15001069; 0.47687398; 0.27533243; 0.31165162; 0.65730054].
(** 508-510 AckleyN2: the value and the place are exchanged *)
Inductive attribute := Number (r : R) | Numbers (l : list R).
Definition ackley_n2_domain : list (R * R) := [(-32, 32); (-32, 32)].
Definition ackley_n2_optimum : attribute := Numbers [0; 0].
Definition ackley_n2_scheme : attribute := Number (-200).

(** *** class attributes of Ackley and Thevenot: 405-414 and 484-500 [__update_parameters] *)
Record attributes := Attributes { at_dim : nat; at_domain : list (R * R); at_optimum : option R; at_scheme : list R }.
(** an object: the parameters given and the instance attributes num_dim and input_domain *)
Record instance P := Instance { in_params : P; in_dim : nat; in_domain : list (R * R) }.
Arguments Instance {P} _ _ _.
Arguments in_params {P} _.
Arguments in_dim {P} _.
Arguments in_domain {P} _.
(** one class with the objects made so far; [cl_attr] is what the class holds *)
Record class P := Class { cl_attr : option attributes; cl_objects : list (instance P) }.
Arguments Class {P} _ _.
Arguments cl_attr {P} _.
Arguments cl_objects {P} _.
(** 359-384, 427-457 [Thevenot.__init__], [Ackley.__init__]: [is_dim_compatible] asserts that the dimension is not negative *)
Definition construct {P} (f : P -> list R -> option R) (bound : R) (num_dim : Z) (params : P) (c : class P) : class P * result (instance P) :=
  if Z.ltb num_dim 0 then (c, Raise AssertionError)
  else
    let n := Z.to_nat num_dim in
    let domain := repeat (- bound, bound) n in
    let o := Instance params n domain in
    (Class (Some (Attributes n domain (f params (repeat 0 n)) (repeat 0 n))) (cl_objects c ++ [o]), Ok o).
Definition ackley_construct := construct (fun p => ackley (fst (fst p)) (snd (fst p)) (snd p)) 32.
Definition thevenot_construct := construct (fun p x => Some (thevenot (fst p) (snd p) x)) (2 * PI).
(** a program that makes objects one after the other, whatever they raise *)
Fixpoint constructs {P} (make : Z -> P -> class P -> class P * result (instance P)) (calls : list (Z * P)) (c : class P) : class P :=
  match calls with
  | [] => c
  | (d, p) :: cs => constructs make cs (fst (make d p c))
  end.
(** functions.py 220-277: [_get_dimension], [_input_domain], [_optimum], [_optimum_variable] of an object
    read the class *)
Definition get_dimension {P} (c : class P) (_ : instance P) : option nat := option_map at_dim (cl_attr c).
Definition get_domain {P} (c : class P) (_ : instance P) : option (list (R * R)) := option_map at_domain (cl_attr c).
Definition get_optimum {P} (c : class P) (_ : instance P) : option (option R) := option_map at_optimum (cl_attr c).
Definition get_scheme {P} (c : class P) (_ : instance P) : option (list R) := option_map at_scheme (cl_attr c).

(** ** sf_cons_functions.py: 34-45 [Branin_1.f] and 81-92 [Branin_2.f] *)
Definition branin_cons (u v : R) : R :=
  let x1 := 15 * u - 5 in let x2 := 15 * v in
  (x2 - (5.1 / (4 * PI ^ 2)) * x1 ^ 2 + (5 / PI) * x1 - 6) ^ 2 + 10 * (1 - 1 / (8 * PI)) * cos x1 + 10 + 5 * u.
(** 14-16 Branin_1 and 61-63 Branin_2 *)
Definition branin_cons_domain : list (R * R) := [(0, 1); (0, 1)].
Definition branin1_optimum : R := 5.5757.
Definition branin1_scheme : R * R := (0.96773, 0.20667).
Definition branin2_optimum : R := 12.001.
Definition branin2_scheme : R * R := (0.941, 0.317).
(** 47-53 [Branin_1.f_cons] *)
Definition branin1_constraint (u v : R) : R := - u * v + 0.2.
(** 94-104 [Branin_2.f_cons] *)
Definition branin2_constraint (u v : R) : R :=
  let x1 := 2 * u - 1 in let x2 := 2 * v - 1 in
  6 - ((4 - 2.1 * x1 ^ 2 + x1 ^ 4 / 3) * x1 ^ 2 + x1 * x2 + (-4 + 4 * x2 ^ 2) * x2 ^ 2 + 3 * sin (6 * (1 - x1)) + 3 * sin (6 * (1 - x2))).

(** ** mf_functions.py *)

(** 20-29 [MultiFidelityFunctions.__call__] *)
Definition mf_call {A B} (hf lf : A -> B) (X : list A) : list B :=
  concat (map (fun i => (if Nat.eqb i 0 then match nth_error X i with Some a => [hf a] | None => [] end else []) ++
                        (if Nat.eqb i 1 then match nth_error X i with Some a => [lf a] | None => [] end else [])) (seq 0 (length X))).
(** 47, 81, 117, 160, 222, 294 [self.cr = round(cost[0] / cost[1])]: ties go to the even integer *)
Definition cost_ratio (cost0 cost1 : R) : result Z := if Req_EM_T cost1 0 then Raise ZeroDivisionError else Ok (ZnearestE (cost0 / cost1)).
(** 56-60 [Forrester_1a.lf], 90-96 [Forrester_1b.lf], 126-130 [Forrester_1c.lf] *)
Definition forrester_1a_lf (x : R) : R := (6 * x - 2) ^ 2 * sin (12 * x - 4) - 5.
Definition forrester_1b_lf (x : R) : R := 0.5 * ((6 * x - 2) ^ 2 * sin (12 * x - 4)) + 10 * (x - 0.5) - 5.
Definition forrester_1c_lf (x : R) : R := (6 * (x + 0.2) - 2) ^ 2 * sin (12 * (x + 0.2) - 4).
(** 190-204 [mf_Hartman3.lf] *)
Definition hartman3_lf (x1 x2 x3 : R) : R :=
  0.585 - 0.324 * x1 - 0.379 * x2 - 0.431 * x3 - 0.208 * x1 * x2 + 0.326 * x1 * x3 + 0.193 * x2 * x3 + 0.225 * x1 ^ 2 + 0.263 * x2 ^ 2 + 0.274 * x3 ^ 2.
(** 239-253 [mf_Sixhump.lf] *)
Definition sixhump_lf (x1 x2 : R) : R :=
  (4 - 2.1 * (0.7 * x1) ^ 2 + (0.7 * x1) ^ 4 / 3) * (0.7 * x1) ^ 2 + 0.7 * x1 * 0.7 * x2 + (-4 + 4 * (0.7 * x2) ^ 2) * (0.7 * x2) ^ 2
  + (- x1 * x2 - 15).
(** 327-358 [mf_Hartman6.lf] *)
Definition hartman6_lf (x : list R) : option R :=
  let l_array := [0.75; 1; 0.8; 1.3; 0.7; 1.1] in
  l <-- oln (- - hartman_sum [1.1; 0.8; 2.5; 3] hartman6_a hartman6_p (map (fun t => fst t * snd t) (combine l_array x))) ;; Some (- l).
(** 384-397 [mf_Discontinuous.lf], 399-414 [mf_Discontinuous.hf] *)
Definition discontinuous_lf (x : R) : R :=
  if Rle_dec x 0.5 then 0.5 * (6 * x - 2) ^ 2 * sin (12 * x - 4) + 10 * (x - 0.5) - 5
  else 3 + 0.5 * (6 * x - 2) ^ 2 * sin (12 * x - 4) + 10 * (x - 0.5) - 5.
Definition discontinuous_hf (x : R) : R :=
  if Rle_dec x 0.5 then 2 * (0.5 * (6 * x - 2) ^ 2 * sin (12 * x - 4) + 10 * (x - 0.5) - 5) - 20 * x + 20
  else 4 + 2 * (3 + 0.5 * (6 * x - 2) ^ 2 * sin (12 * x - 4) + 10 * (x - 0.5) - 5) - 20 * x + 20.
(** 440-451 [ContinuousNonlinearCorrelation1D.lf/hf], 478-488 [PhaseShiftedOscillations.lf/hf] *)
Definition nonlinear_lf (x : R) : R := sin (8 * PI * x).
Definition nonlinear_hf (x : R) : R := sin (8 * PI * x) ^ 2 * (x - sqrt 2).
Definition phase_lf (x : R) : R := sin (8 * PI * x).
Definition phase_hf (x : R) : R := x ^ 2 + sin (8 * PI * x + PI / 10) ^ 2.
(** 523-543 [mf_Bohachevsky.lf], 545-560 [mf_Bohachevsky.hf] *)
Definition bohachevsky_lf (x1 x2 : R) : R :=
  let x11 := 0.7 * x1 in
  (x11 ^ 2 + 2 * x2 ^ 2) - 0.3 * cos (3 * PI * x11) - 0.4 * cos (4 * PI * x2) + 0.7 + (x1 * x2 - 12).
Definition bohachevsky_hf (x1 x2 : R) : R :=
  (x1 ^ 2 + 2 * x2 ^ 2) - 0.3 * cos (3 * PI * x1) - 0.4 * cos (4 * PI * x2) + 0.7.
(** 503-514 mf_Bohachevsky, 576-587 mf_Booth: declared attributes *)
Definition bohachevsky_domain : list (R * R) := [(-5, 5); (-5, 5)].
Definition bohachevsky_optimum : R := 0.
Definition bohachevsky_scheme : R * R := (0, 0).
Definition booth_domain : list (R * R) := [(-10, 10); (-10, 10)].
Definition booth_optimum : R := 0.
Definition booth_scheme : R * R := (1, 3).
(** 596-615 [mf_Booth.lf], 617-631 [mf_Booth.hf] *)
Definition booth_lf (x1 x2 : R) : R :=
  let x11 := 0.4 * x1 in
  (x11 + 2 * x2 - 7) ^ 2 + (2 * x11 + x2 - 5) ^ 2 + (1.7 * x1 * x2 - x1 + 2 * x2).
Definition booth_hf (x1 x2 : R) : R := (x1 + 2 * x2 - 7) ^ 2 + (2 * x1 + x2 - 5) ^ 2.
(** 679-703 [mf_Borehole.base], 705-710 [mf_Borehole.lf], 712-717 [mf_Borehole.hf] *)
Definition borehole_base (a b : R) (rw r Tu Hu Tl Hl L Kw : R) : option R :=
  let term1 := a * Tu * (Hu - Hl) in
  q <-- odiv r rw ;; term2 <-- oln q ;;
  u <-- odiv (2 * L * Tu) (term2 * rw ^ 2 * Kw) ;; w <-- odiv Tu Tl ;;
  odiv term1 (term2 * (b + u + w)).
Definition borehole_lf := borehole_base 5 1.5.
Definition borehole_hf := borehole_base (2 * PI) 1.
(** 647-658 mf_Borehole, 733-738 mf_CurrinExp, 823-828 mf_Himmelblau, 895-902 mf_Park91A and 974-981
    mf_Park91B: declared domains *)
Definition borehole_domain : list (R * R) :=
  [(0.05, 0.15); (100, 50000); (63070, 115600); (990, 1110); (63.1, 116); (700, 820); (1120, 1680); (9855, 12045)].
Definition currin_domain : list (R * R) := [(0, 1); (0, 1)].
Definition himmelblau_domain : list (R * R) := [(-4, 4); (-4, 4)].
Definition park_domain : list (R * R) := repeat (0, 1) 4.
(** 786-808 [mf_CurrinExp.hf], 753-784 [mf_CurrinExp.lf] for arrays of floats (in an array of integers the
    assignments of 766-767 and 772-773 would truncate) *)
Definition currin_hf (x1 x2 : R) : option R :=
  term1 <-- (if Rle_dec x2 (/ 10 ^ 8) then Some 1 else q <-- odiv (-1) (2 * x2) ;; Some (1 - exp q)) ;;
  odiv (term1 * (2300 * x1 ^ 3 + 1900 * x1 ^ 2 + 2092 * x1 + 60)) (100 * x1 ^ 3 + 500 * x1 ^ 2 + 4 * x1 + 20).
Definition currin_lf (x1 x2 : R) : option R :=
  t1 <-- currin_hf (x1 + 0.05) (x2 + 0.05) ;; t2 <-- currin_hf (x1 + 0.05) (x2 - 0.05) ;;
  t3 <-- currin_hf (x1 - 0.05) (x2 + 0.05) ;; t4 <-- currin_hf (x1 - 0.05) (x2 - 0.05) ;;
  Some ((t1 + t2 + t3 + t4) / 4).
(** 843-863 [mf_Himmelblau.lf], 865-879 [mf_Himmelblau.hf] *)
Definition himmelblau_lf (x1 x2 : R) : R :=
  let x11 := 0.5 * x1 in let x22 := 0.8 * x2 in
  (x11 ^ 2 + x22 - 11) ^ 2 + (x11 + x22 ^ 2 - 7) ^ 2 + (x2 ^ 3 - (x1 + 1) ^ 2).
Definition himmelblau_hf (x1 x2 : R) : R := (x1 ^ 2 + x2 - 11) ^ 2 + (x1 + x2 ^ 2 - 7) ^ 2.
(** 941-959 [mf_Park91A.hf], 919-939 [mf_Park91A.lf] *)
Definition park_a_hf (x1 x2 x3 x4 : R) : option R :=
  q <-- odiv ((x2 + x3 ^ 2) * x4) (x1 ^ 2) ;; s <-- osqrt (1 + q) ;;
  Some (x1 / 2 * (s - 1) + (x1 + 3 * x4) * exp (1 + sin x3)).
Definition park_a_lf (x1 x2 x3 x4 : R) : option R :=
  h <-- park_a_hf x1 x2 x3 x4 ;; Some ((1 + sin x1 / 10) * h + (-2 * x1 + x2 ^ 2 + x3 ^ 2 + 0.5)).
(** 1011-1028 [mf_Park91B.hf], 998-1009 [mf_Park91B.lf] *)
Definition park_b_hf (x1 x2 x3 x4 : R) : R := 2 / 3 * exp (x1 + x2) - x4 * sin x3 + x3.
Definition park_b_lf (x1 x2 x3 x4 : R) : R := 1.2 * park_b_hf x1 x2 x3 x4 - 1.
