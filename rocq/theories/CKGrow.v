(** Model of models/co_kriging.py 280-305: adding samples to the low-fidelity model of Co-Kriging, at the
    level of single attributes (CKState.v).  [update_optimizer] (270-278) needs no model: every call comes
    with the search it uses.  Exact real arithmetic. *)
From Coq Require Import Reals.
From Verif Require Import Fl.
From mathcomp Require Import all_ssreflect all_algebra.
From Verif Require Import RStruct LinAlg Kernel Krig GP CoKrig GPState CKState.
Set Implicit Arguments.
Unset Strict Implicit.
Unset Printing Implicit Defensive.
Import GRing.Theory.
Local Open Scope ring_scope.

Section Grow.
Variable d : nat.
Local Notation attrs := (attrs d 1).
(** the arguments of one call of [update_model] and the search that the call runs *)
Record batch := Batch { b_n : nat; b_x : 'M[R]_(b_n, d); b_y : 'cV[R]_b_n; b_search : search (hyper d) }.
(** 280-294 [update_model]; sample_x is missing before the first training *)
Definition lgp_update_model (o : attrs) (b : batch) : attrs * result unit :=
  match a_data o with
  | None => (o, Raise AttributeError)
  | Some D => lgp_train_attrs o (col_mx (ds_x D) (b_x b)) (col_mx (ds_y D) (b_y b)) (b_search b)
  end.
(** 296-305 [_num_samples] *)
Definition lgp_num_samples (o : attrs) : result nat := bind (attr (a_data o)) (fun D => Ok (ds_n D)).
End Grow.
