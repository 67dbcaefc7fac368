(** NumPy-style helpers on lists used by several models. *)
From Coq Require Import ZArith Bool List.
From Verif Require Import Fl.
Import ListNotations.

(** One row (a point) and a two-dimensional array as a list of rows. *)
Definition row := list b64.
Definition mat := list row.
(** A design space: one (lower, upper) pair per dimension. *)
Definition box := list (b64 * b64).

(** Elementwise binary operation on equally long lists. *)
Fixpoint map2 {A B C} (f : A -> B -> C) (l : list A) (m : list B) : list C :=
  match l, m with
  | a :: l', b :: m' => f a b :: map2 f l' m'
  | _, _ => []
  end.

(** [a[i] = v] on a list; out-of-range indices leave the list unchanged. *)
Fixpoint upd {A} (i : nat) (v : A) (l : list A) : list A :=
  match l, i with
  | [], _ => []
  | _ :: l', O => v :: l'
  | x :: l', S i' => x :: upd i' v l'
  end.

(** [np.argmin]: index of the first NaN if there is one, otherwise of the first smallest entry. *)
Fixpoint argmin_from (i bi : nat) (best : b64) (l : list b64) : nat :=
  match l with
  | [] => bi
  | x :: l' =>
      if isnan best then bi
      else if isnan x || flt x best then argmin_from (S i) i x l'
      else argmin_from (S i) bi best l'
  end.
Definition np_argmin (l : list b64) : result nat :=
  match l with
  | [] => Raise ValueError
  | x :: l' => Ok (argmin_from 1 0 x l')
  end.
(** [np.min]: NaN if there is a NaN, ValueError on an empty array.  Simplification: between equal
    zeros of different sign NumPy may return either; the model returns the first. *)
Definition np_min (l : list b64) : result b64 :=
  i <- np_argmin l ;; Ok (nth i l f0).
