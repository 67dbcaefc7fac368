(** Vocabulary of the statements about the kernel in binary64.  Nothing here refers to the model. *)
From Coq Require Import ZArith Bool List Reals.
From Verif Require Import Fl Spec NpList.
Import ListNotations.
Local Open Scope R_scope.

(** a scaled point: [d] finite coordinates between -1 and 1 (normalised samples lie in [0, 1]) *)
Definition scaled_row (d : nat) (x : row) : Prop :=
  length x = d /\ Forall (fun v => isfin v = true /\ Rabs (val v) <= 1) x.
(** length-scale parameters: positive, finite and at most [W] *)
Definition param_row (d : nat) (W : R) (w : row) : Prop :=
  length w = d /\ Forall (fun v => isfin v = true /\ 0 < val v <= W) w.
(** the weighted squared distance sum_k w_k (x_k - y_k)^2 of the represented reals *)
Fixpoint wdist64 (w x y : row) : R :=
  match w, x, y with
  | wk :: w', xk :: x', yk :: y' => val wk * (val xk - val yk) ^ 2 + wdist64 w' x' y'
  | _, _, _ => 0
  end.
(** an exponential function accurate to one unit in the last place, the result being finite *)
Definition exp_ok (e : b64 -> b64) : Prop :=
  forall x, isfin x = true -> val x <= 1 -> isfin (e x) = true /\
    Rabs (val (e x) - exp (val x)) <= / 2 ^ 52 * exp (val x) + / 2 ^ 1000.
(** the rounding error allowed for one entry: a number of units 2^-53 *)
Definition entry_units (d : nat) (W : R) : R := INR d * W * (4 * INR d + 21) + 4.
(** data sets of [n] points in [d] dimensions, with parameters up to [W], on which rounding cannot spoil positive
    definiteness: 900000 units 2^-53 are just below 10^-10, the constant added to the diagonal *)
Definition safe_size (n d : nat) (W : R) : Prop :=
  INR n * (entry_units d W + 2) + 2.2 * (INR n + 2) * (INR n + 6) <= 900000.
(** f 0 + ... + f (n-1) *)
Definition total (n : nat) (f : nat -> R) : R := fold_right Rplus 0 (map f (seq 0 n)).
(** the quadratic form of the symmetric matrix of size [n] whose lower triangle is that of [M] *)
Definition lower_form (n : nat) (M : nat -> nat -> b64) (x : nat -> R) : R :=
  total n (fun i => total n (fun j => x i * x j * val (M (Nat.max i j) (Nat.min i j)))).
