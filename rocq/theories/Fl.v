(** binary64 numbers as NumPy's float64 (all NaNs identified), Python exceptions as values. *)
From Coq Require Import ZArith Bool List.
From Flocq Require Import IEEE754.BinarySingleNaN Core.FLX.
Import ListNotations.

(** ** binary64 *)

(** NumPy float64: IEEE-754 binary64.  Simplification: NaN payloads are not distinguished. *)
Definition b64 := binary_float 53 1024.

Definition prec53 : Prec_gt_0 53 := eq_refl.
Definition prec53_lt : Prec_lt_emax 53 1024 := eq_refl.
#[global] Existing Instance prec53.
#[global] Existing Instance prec53_lt.

(** float64 arithmetic, round to nearest even. *)
Definition fadd (x y : b64) : b64 := Bplus mode_NE x y.
Definition fsub (x y : b64) : b64 := Bminus mode_NE x y.
Definition fmul (x y : b64) : b64 := Bmult mode_NE x y.
Definition fdiv (x y : b64) : b64 := Bdiv mode_NE x y.
Definition fabs (x : b64) : b64 := Babs x.

(** Python comparisons: false as soon as one side is NaN. *)
Definition flt (x y : b64) : bool := Bltb x y.
Definition fle (x y : b64) : bool := Bleb x y.
Definition feq (x y : b64) : bool := Beqb x y.
Definition fgt (x y : b64) : bool := flt y x.
Definition fge (x y : b64) : bool := fle y x.

Definition fnan : b64 := B754_nan.
Definition finf : b64 := B754_infinity false.
Definition fninf : b64 := B754_infinity true.
Definition f0 : b64 := B754_zero false.

(** The float nearest to [m * 2^e]. *)
Definition fbin (m e : Z) : b64 := binary_normalize 53 1024 _ _ mode_NE m e false.
(** The float nearest to the integer [z]. *)
Definition fz (z : Z) : b64 := fbin z 0.
Definition f1 : b64 := fz 1.

Definition isnan (x : b64) : bool := is_nan x.
Definition isfin (x : b64) : bool := is_finite x.

(** ** Python exceptions *)

Inductive exn :=
| UnboundLocalError | ValueError | AssertionError | IndexError
| TypeError | AttributeError | LinAlgError | ZeroDivisionError | NotImplementedError
| ExternalError.   (* anything raised inside user or library code *)

Inductive result (A : Type) := Ok (a : A) | Raise (e : exn).
Arguments Ok {A} _.
Arguments Raise {A} _.

Definition bind {A B} (r : result A) (f : A -> result B) : result B :=
  match r with Ok a => f a | Raise e => Raise e end.
Notation "x <- r ;; k" := (bind r (fun x => k)) (at level 100, r at next level, right associativity).
