(** Model of the array interface of the test problems: which arrays the functions of problems/*.py accept
    and how the batches are laid out, and the checks of the constructors.
    An array of one dimension is a list, an array of shape (n, k) a list of n rows of length k.  The entries
    are real numbers (floats without rounding); [np.reshape(obj, (n, 1))] makes a column. *)
From Coq Require Import Reals List ZArith Lra.
From Flocq Require Import Core.
From Verif Require Import Fl Problems.
Import ListNotations.
Local Open Scope R_scope.

Inductive array := Vec (v : list R) | Mat (k : nat) (rows : list (list R)).
Inductive value := Scalar (v : option R) | Column (l : list (option R)).
Definition at_ (j : nat) (r : list R) : R := nth j r 0.

(** ** the layouts *)
(** an expression of the whole array, then [np.reshape(obj, (x.shape[0], 1))]: sf_functions.py 36-41 and
    mf_functions.py 49-60, 83-96, 119-130 *)
Definition whole_rows (f : R -> R) (x : array) : result value :=
  match x with
  | Vec v => Ok (Column (map (fun t => Some (f t)) v))
  | Mat k rows =>
      if Nat.eqb (length rows * k) (length rows) then Ok (Column (map (fun t => Some (f t)) (concat rows))) else Raise ValueError
  end.
(** an expression of the whole array, then [y.reshape((-1, 1))]: mf_functions.py 440-451, 478-488 *)
Definition whole_flat (f : R -> R) (x : array) : result value :=
  Ok (Column (map (fun t => Some (f t)) (match x with Vec v => v | Mat _ rows => concat rows end))).
(** columns [x[:, 0]] to [x[:, q - 1]] *)
Definition columns (q : nat) (f : list R -> option R) (x : array) : result value :=
  match x with
  | Vec _ => Raise IndexError
  | Mat k rows => if Nat.ltb k q then Raise IndexError else Ok (Column (map f rows))
  end.
(** [np.atleast_2d(x)] *)
Definition atleast_2d (x : array) : array := match x with Vec v => Mat (length v) [v] | Mat k rows => Mat k rows end.
Definition columns_2d (q : nat) (f : list R -> option R) (x : array) : result value := columns q f (atleast_2d x).
(** a loop over [x[ii, 0]]: mf_functions.py 384-414 *)
Definition first_column (f : R -> R) (x : array) : result value :=
  match x with
  | Vec [] => Ok (Column [])
  | Vec _ => Raise IndexError
  | Mat _ [] => Ok (Column [])
  | Mat 0 _ => Raise IndexError
  | Mat _ rows => Ok (Column (map (fun r => Some (f (at_ 0 r))) rows))
  end.
(** a loop over [x[i, :] - p] with [p] of shape (4, d): sf_functions.py 249-275, 320-346 and mf_functions.py
    162-188, 297-358.  A row of length one is repeated d times by broadcasting. *)
Definition broadcast_rows (d : nat) (f : list R -> option R) (x : array) : result value :=
  match x with
  | Vec [] => Ok (Column [])
  | Vec _ => Raise IndexError
  | Mat _ [] => Ok (Column [])
  | Mat k rows =>
      if Nat.eqb k d then Ok (Column (map f rows))
      else if Nat.eqb k 1 then Ok (Column (map (fun r => f (repeat (at_ 0 r) d)) rows))
      else Raise ValueError
  end.
(** 386-403 [Thevenot.f] and 462-482 [Ackley.f] of sf_functions.py: a vector gives a number *)
Definition any_rows (f : list R -> option R) (x : array) : result value :=
  match x with
  | Vec v => Ok (Scalar (f v))
  | Mat _ rows => Ok (Column (map f rows))
  end.
(** 523-537 [AckleyN2.f]: [x1, x2 = x] *)
Definition pair_rows (f : R -> R -> R) (x : array) : result value :=
  match x with
  | Vec [x1; x2] => Ok (Scalar (Some (f x1 x2)))
  | Vec _ => Raise ValueError
  | Mat _ [] => Ok (Column [])
  | Mat 2 rows => Ok (Column (map (fun r => Some (f (at_ 0 r) (at_ 1 r))) rows))
  | Mat _ _ => Raise ValueError
  end.

Definition row2 (f : R -> R -> R) (r : list R) : option R := Some (f (at_ 0 r) (at_ 1 r)).
Definition row3 (f : R -> R -> R -> R) (r : list R) : option R := Some (f (at_ 0 r) (at_ 1 r) (at_ 2 r)).

(** ** the classes with a fixed dimension, and their functions *)
Inductive problem :=
  | Forrester | Branin | GoldPrice | Sixhump | Sasena | Hartman3 | Hartman6 | AckleyN2
  | Branin_1 | Branin_2
  | Forrester_1a | Forrester_1b | Forrester_1c | MfHartman3 | MfSixhump | MfHartman6 | MfDiscontinuous
  | Nonlinear1D | PhaseShifted | MfBohachevsky | MfBooth | MfBorehole | MfCurrinExp | MfHimmelblau | MfPark91A | MfPark91B.
(** sf_functions.py 15, 46, 91, 147, 186, 226, 280, 505, sf_cons_functions.py 11, 58, mf_functions.py 34, 68, 104,
    147, 209, 258, 370, 426, 463, 500, 573, 644, 730, 820, 892, 971 [num_dim] *)
Definition num_dim (p : problem) : nat :=
  match p with
  | Forrester | Forrester_1a | Forrester_1b | Forrester_1c | MfDiscontinuous | Nonlinear1D | PhaseShifted => 1
  | Branin | GoldPrice | Sixhump | Sasena | AckleyN2 | Branin_1 | Branin_2 | MfSixhump | MfBohachevsky | MfBooth
  | MfCurrinExp | MfHimmelblau => 2
  | Hartman3 | MfHartman3 => 3
  | MfPark91A | MfPark91B => 4
  | Hartman6 | MfHartman6 => 6
  | MfBorehole => 8
  end%nat.
(** the class attribute [input_domain]: sf_functions.py 18, 49, 94, 150, 189, 229, 284-293, 508,
    sf_cons_functions.py 14, 61, mf_functions.py 37, 71, 107, 150, 212, 261-270, 373, 429, 466, 503-508, 576-581,
    647-658, 733-738, 823-828, 895-902, 974-981 *)
Definition input_domain (p : problem) : list (R * R) :=
  match p with
  | Forrester | Forrester_1a | Forrester_1b | Forrester_1c => forrester_domain
  | MfDiscontinuous | Nonlinear1D | PhaseShifted => [(0, 1)]
  | Branin => branin_domain | GoldPrice => goldprice_domain | Sixhump => sixhump_domain | MfSixhump => mf_sixhump_domain
  | Sasena => sasena_domain | AckleyN2 => ackley_n2_domain | Branin_1 | Branin_2 => branin_cons_domain
  | MfBohachevsky => bohachevsky_domain | MfBooth => booth_domain | MfCurrinExp => currin_domain
  | MfHimmelblau => himmelblau_domain | Hartman3 | MfHartman3 => hartman3_domain | MfPark91A | MfPark91B => park_domain
  | Hartman6 | MfHartman6 => hartman6_domain | MfBorehole => borehole_domain
  end.
(** [hf] of a multi-fidelity problem, [f] of the others *)
Definition evaluate (p : problem) : array -> result value :=
  match p with
  | Forrester | Forrester_1a | Forrester_1b | Forrester_1c => whole_rows forrester
  | Branin => columns 2 (row2 branin)
  | GoldPrice => columns 2 (row2 goldprice)
  | Sixhump | MfSixhump => columns 2 (row2 sixhump)
  | Sasena => columns 2 (row2 sasena)
  | Hartman3 | MfHartman3 => broadcast_rows 3 (fun r => Some (hartman3 r))
  | Hartman6 | MfHartman6 => broadcast_rows 6 hartman6
  | AckleyN2 => pair_rows ackley_n2
  | Branin_1 | Branin_2 => columns 2 (row2 branin_cons)
  | MfDiscontinuous => first_column discontinuous_hf
  | Nonlinear1D => whole_flat nonlinear_hf
  | PhaseShifted => whole_flat phase_hf
  | MfBohachevsky => columns_2d 2 (row2 bohachevsky_hf)
  | MfBooth => columns_2d 2 (row2 booth_hf)
  | MfBorehole => columns_2d 8 (fun r => borehole_hf (at_ 0 r) (at_ 1 r) (at_ 2 r) (at_ 3 r) (at_ 4 r) (at_ 5 r) (at_ 6 r) (at_ 7 r))
  | MfCurrinExp => columns_2d 2 (fun r => currin_hf (at_ 0 r) (at_ 1 r))
  | MfHimmelblau => columns_2d 2 (row2 himmelblau_hf)
  | MfPark91A => columns_2d 4 (fun r => park_a_hf (at_ 0 r) (at_ 1 r) (at_ 2 r) (at_ 3 r))
  | MfPark91B => columns_2d 4 (fun r => Some (park_b_hf (at_ 0 r) (at_ 1 r) (at_ 2 r) (at_ 3 r)))
  end.
(** [lf] of a multi-fidelity problem; the others inherit functions.py 83-106, which raises.
    [mf_Park91A.lf] uses three columns itself and a fourth through [hf]. *)
Definition evaluate_lf (p : problem) : array -> result value :=
  match p with
  | Forrester | Branin | GoldPrice | Sixhump | Sasena | Hartman3 | Hartman6 | AckleyN2 | Branin_1 | Branin_2 => fun _ => Raise NotImplementedError
  | Forrester_1a => whole_rows forrester_1a_lf
  | Forrester_1b => whole_rows forrester_1b_lf
  | Forrester_1c => whole_rows forrester_1c_lf
  | MfHartman3 => columns 3 (row3 hartman3_lf)
  | MfSixhump => columns 2 (row2 sixhump_lf)
  | MfHartman6 => broadcast_rows 6 hartman6_lf
  | MfDiscontinuous => first_column discontinuous_lf
  | Nonlinear1D => whole_flat nonlinear_lf
  | PhaseShifted => whole_flat phase_lf
  | MfBohachevsky => columns_2d 2 (row2 bohachevsky_lf)
  | MfBooth => columns_2d 2 (row2 booth_lf)
  | MfBorehole => columns_2d 8 (fun r => borehole_lf (at_ 0 r) (at_ 1 r) (at_ 2 r) (at_ 3 r) (at_ 4 r) (at_ 5 r) (at_ 6 r) (at_ 7 r))
  | MfCurrinExp => columns_2d 2 (fun r => currin_lf (at_ 0 r) (at_ 1 r))
  | MfHimmelblau => columns_2d 2 (row2 himmelblau_lf)
  | MfPark91A => columns_2d 4 (fun r => park_a_lf (at_ 0 r) (at_ 1 r) (at_ 2 r) (at_ 3 r))
  | MfPark91B => columns_2d 4 (fun r => Some (park_b_lf (at_ 0 r) (at_ 1 r) (at_ 2 r) (at_ 3 r)))
  end.
(** [f_cons] of Branin_1 (sf_cons_functions.py 47-53) and Branin_2 (94-104); functions.py 154-174 raises *)
Definition evaluate_cons (p : problem) : array -> result value :=
  match p with
  | Branin_1 => columns 2 (row2 branin1_constraint)
  | Branin_2 => columns 2 (row2 branin2_constraint)
  | _ => fun _ => Raise NotImplementedError
  end.
(** mf_functions.py 753-784 [mf_CurrinExp.lf] for an array of integers: the results of 766-767 and 772-773 are
    stored in an array of integers, which drops the fraction; 761 and 778 make arrays of floats *)
Definition currin_lf_int (x1 x2 : Z) : option R :=
  t1 <-- currin_hf (IZR x1 + 0.05) (IZR x2 + 0.05) ;;
  t2 <-- currin_hf (IZR (Ztrunc (IZR x1 + 0.05))) (IZR (Ztrunc (IZR x2 - 0.05))) ;;
  t3 <-- currin_hf (IZR (Ztrunc (IZR x1 - 0.05))) (IZR (Ztrunc (IZR x2 + 0.05))) ;;
  t4 <-- currin_hf (IZR x1 - 0.05) (IZR x2 - 0.05) ;;
  Some ((t1 + t2 + t3 + t4) / 4).

(** ** the constructors *)
(** [is_dim_compatible]: sf_functions.py 24-30 and so on, mf_functions.py 12-18; AckleyN2 (513-521) has its own,
    which only asserts that the dimension is not negative; [d == 2] is returned and not used *)
Definition check_dim (p : problem) (d : Z) : result unit :=
  if match p with AckleyN2 => Z.leb 0 d | _ => Z.eqb d (Z.of_nat (num_dim p)) end then Ok tt else Raise AssertionError.
(** the constructor and the attribute [cr]: none without a cost argument.  Forrester_1a to 1c (43-47, 77-81,
    113-117) and mf_Hartman3 (156-160) check the dimension first, mf_Sixhump (218-223) and mf_Hartman6 (290-295)
    compute the ratio first. *)
Definition new_problem (p : problem) (d : Z) (cost : R * R) : result (option Z) :=
  match p with
  | Forrester_1a | Forrester_1b | Forrester_1c | MfHartman3 =>
      match check_dim p d with
      | Ok _ => match cost_ratio (fst cost) (snd cost) with Ok k => Ok (Some k) | Raise e => Raise e end
      | Raise e => Raise e
      end
  | MfSixhump | MfHartman6 =>
      match cost_ratio (fst cost) (snd cost) with
      | Ok k => match check_dim p d with Ok _ => Ok (Some k) | Raise e => Raise e end
      | Raise e => Raise e
      end
  | _ => match check_dim p d with Ok _ => Ok None | Raise e => Raise e end
  end.
