(** The value of a problem at one point, to state what its functions return for arrays of points. *)
From Coq Require Import Reals List.
From Verif Require Import Problems ProblemArrays.
Import ListNotations.

(** the objective, or the high fidelity, at a point *)
Definition point_value (p : problem) (x : list R) : option R :=
  match p, x with
  | (Forrester | Forrester_1a | Forrester_1b | Forrester_1c), [t] => Some (forrester t)
  | MfDiscontinuous, [t] => Some (discontinuous_hf t)
  | Nonlinear1D, [t] => Some (nonlinear_hf t)
  | PhaseShifted, [t] => Some (phase_hf t)
  | Branin, [x1; x2] => Some (branin x1 x2)
  | GoldPrice, [x1; x2] => Some (goldprice x1 x2)
  | (Sixhump | MfSixhump), [x1; x2] => Some (sixhump x1 x2)
  | Sasena, [x1; x2] => Some (sasena x1 x2)
  | AckleyN2, [x1; x2] => Some (ackley_n2 x1 x2)
  | (Branin_1 | Branin_2), [u; v] => Some (branin_cons u v)
  | MfBohachevsky, [x1; x2] => Some (bohachevsky_hf x1 x2)
  | MfBooth, [x1; x2] => Some (booth_hf x1 x2)
  | MfHimmelblau, [x1; x2] => Some (himmelblau_hf x1 x2)
  | MfCurrinExp, [x1; x2] => currin_hf x1 x2
  | (Hartman3 | MfHartman3), [_; _; _] => Some (hartman3 x)
  | (Hartman6 | MfHartman6), [_; _; _; _; _; _] => hartman6 x
  | MfPark91A, [x1; x2; x3; x4] => park_a_hf x1 x2 x3 x4
  | MfPark91B, [x1; x2; x3; x4] => Some (park_b_hf x1 x2 x3 x4)
  | MfBorehole, [rw; r; Tu; Hu; Tl; Hl; L; Kw] => borehole_hf rw r Tu Hu Tl Hl L Kw
  | _, _ => None
  end.
(** the low fidelity at a point *)
Definition low_value (p : problem) (x : list R) : option R :=
  match p, x with
  | Forrester_1a, [t] => Some (forrester_1a_lf t)
  | Forrester_1b, [t] => Some (forrester_1b_lf t)
  | Forrester_1c, [t] => Some (forrester_1c_lf t)
  | MfDiscontinuous, [t] => Some (discontinuous_lf t)
  | Nonlinear1D, [t] => Some (nonlinear_lf t)
  | PhaseShifted, [t] => Some (phase_lf t)
  | MfSixhump, [x1; x2] => Some (sixhump_lf x1 x2)
  | MfBohachevsky, [x1; x2] => Some (bohachevsky_lf x1 x2)
  | MfBooth, [x1; x2] => Some (booth_lf x1 x2)
  | MfHimmelblau, [x1; x2] => Some (himmelblau_lf x1 x2)
  | MfCurrinExp, [x1; x2] => currin_lf x1 x2
  | MfHartman3, [x1; x2; x3] => Some (hartman3_lf x1 x2 x3)
  | MfHartman6, [_; _; _; _; _; _] => hartman6_lf x
  | MfPark91A, [x1; x2; x3; x4] => park_a_lf x1 x2 x3 x4
  | MfPark91B, [x1; x2; x3; x4] => Some (park_b_lf x1 x2 x3 x4)
  | MfBorehole, [rw; r; Tu; Hu; Tl; Hl; L; Kw] => borehole_lf rw r Tu Hu Tl Hl L Kw
  | _, _ => None
  end.
Definition single_fidelity : list problem :=
  [Forrester; Branin; GoldPrice; Sixhump; Sasena; Hartman3; Hartman6; AckleyN2; Branin_1; Branin_2].
(** the problems with a cost argument *)
Definition with_cost : list problem := [Forrester_1a; Forrester_1b; Forrester_1c; MfHartman3; MfSixhump; MfHartman6].
(** problems written with columns of the argument, first those that accept a single point *)
Definition accept_points : list problem := [MfBohachevsky; MfBooth; MfBorehole; MfCurrinExp; MfHimmelblau; MfPark91A; MfPark91B].
Definition need_matrix : list problem := [Branin; GoldPrice; Sixhump; Sasena; Branin_1; Branin_2; MfSixhump].
Definition hartmans : list problem := [Hartman3; Hartman6; MfHartman3; MfHartman6].
Definition forresters : list problem := [Forrester; Forrester_1a; Forrester_1b; Forrester_1c].
(** the mean of four numbers, none when one of them is missing *)
Definition mean4 (a b c e : option R) : option R :=
  match a, b, c, e with Some a, Some b, Some c, Some e => Some ((a + b + c + e) / 4)%R | _, _, _, _ => None end.
