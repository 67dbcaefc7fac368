(** Vocabulary of the statements about objectives that rank points alike. *)
From Coq Require Import Bool List.
From Verif Require Import Fl NpList EA EASpec.
Import ListNotations.

(** [h] keeps every comparison between values satisfying [D] (it takes NaN, and only NaN, to NaN, and equal
    values to equal values). *)
Definition increasing_on (D : b64 -> Prop) (h : b64 -> b64) : Prop :=
  forall x y, D x -> D y -> flt (h x) (h y) = flt x y /\ fle (h x) (h y) = fle x y.
(** The objective that applies [h] to every response of [func]; exceptions stay as they are. *)
Definition then_apply (h : b64 -> b64) (r : result (list b64)) : result (list b64) :=
  match r with Ok y => Ok (map h y) | Raise e => Raise e end.
Definition transformed (h : b64 -> b64) (func : objective) : objective := fun k x => then_apply h (func k x).
Definition responses_in (D : b64 -> Prop) (func : objective) : Prop := forall k x y, func k x = Ok y -> Forall D y.
Definition stop_in (D : b64 -> Prop) (stop : option b64) : Prop := forall t, stop = Some t -> D t.

(** Two results of runs with [n] calls agree in every location, and the values of the second are the values of
    the first after [h].  Entries that no call has filled are zeros in both. *)
Definition same_search (h : b64 -> b64) (n : nat) (out out' : ea_out) : Prop :=
  o_location out' = o_location out /\ o_value out' = h (o_value out) /\
  o_best_x out' = o_best_x out /\ o_best_x_hist out' = o_best_x_hist out /\
  o_samples out' = o_samples out /\ o_pop_best_x out' = o_pop_best_x out /\
  o_pop_best out' = map h (o_pop_best out) /\
  length (o_best_y_hist out') = length (o_best_y_hist out) /\ length (o_responses out') = length (o_responses out) /\
  (forall g, g < n -> entry g (o_best_y_hist out') = h (entry g (o_best_y_hist out)) /\
                      nth g (o_responses out') [] = map h (nth g (o_responses out) [])) /\
  (forall g, n <= g -> nth_error (o_best_y_hist out') g = nth_error (o_best_y_hist out) g /\
                       nth_error (o_responses out') g = nth_error (o_responses out) g).
