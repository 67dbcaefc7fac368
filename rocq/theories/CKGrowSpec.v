(** Specification of growing a low-fidelity model. *)
From Coq Require Import Reals.
From Verif Require Import Fl.
From mathcomp Require Import all_ssreflect all_algebra.
From Verif Require Import RStruct LinAlg Kernel Krig GP CoKrig GPState CKState CKGrow.
Set Implicit Arguments.
Unset Strict Implicit.
Unset Printing Implicit Defensive.
Import GRing.Theory.
Local Open Scope ring_scope.

Section Grow.
Variable d : nat.
(** samples with their responses, in order *)
Definition points n (X : 'M[R]_(n, d)) (Y : 'cV[R]_n) : seq ('rV[R]_d * R) := [seq (row i X, Y i 0) | i <- enum 'I_n].
Definition points_of (b : batch d) := points (b_x b) (b_y b).
(** the samples an object holds *)
Definition held (o : attrs d 1) : seq ('rV[R]_d * R) := if a_data o is Some D then points (ds_x D) (ds_y D) else [::].
(** an object after calls of [update_model] whose exceptions are caught *)
Definition grown (o : attrs d 1) (bs : seq (batch d)) : attrs d 1 := foldl (fun o b => (lgp_update_model o b).1) o bs.
End Grow.
