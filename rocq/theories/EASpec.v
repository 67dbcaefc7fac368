(** Vocabulary for the statements about PSO and DE. *)
From Coq Require Import ZArith Reals Bool List.
From Verif Require Import Fl NpList Spec SamplersSpec EA.
Import ListNotations.

(** An array of [n] rows of [d] draws from [0,1). *)
Definition draw_array (n d : nat) (m : mat) : Prop := length m = n /\ Forall (unit_row unit_open d) m.
Definition pso_draws_ok (cfg : pso_config) (b : box) (r : pso_draws) : Prop :=
  draw_array (p_pop cfg) (length b) (pd_loc r) /\
  draw_array (p_pop cfg) (length b) (pd_vel r) /\
  forall g j, draw_array (p_pop cfg) (length b) (pd_rep r g j).
(** np.random.choice(num_pop, k, replace=False): [k] distinct indices, when that is possible. *)
Definition de_draws_ok (cfg : de_config) (b : box) (r : de_draws) : Prop :=
  draw_array (d_pop cfg) (length b) (dd_loc r) /\
  (forall g j, draw_array (d_pop cfg) (length b) (dd_rep r g j)) /\
  (forall g i, donors_needed cfg <= d_pop cfg ->
     length (dd_donors r g i) = donors_needed cfg /\ NoDup (dd_donors r g i) /\
     Forall (fun k => k < d_pop cfg) (dd_donors r g i)) /\
  (forall g i, 0 < length b -> dd_dim r g i < length b) /\
  (forall g i j, unit_open (dd_cr r g i j)).

(** Population [x] was evaluated in call [k], and answered with [y]. *)
Definition called (tr : trace) (k : nat) (x : mat) (y : list b64) : Prop := nth_error tr k = Some (x, Ok y).
(** Location [p] was evaluated as individual [i] of call [k] and answered with [v]. *)
Definition observed (tr : trace) (k i : nat) (p : row) (v : b64) : Prop :=
  exists x y, called tr k x y /\ nth_error x i = Some p /\ nth_error y i = Some v.
Definition nan_free_call (tr : trace) (k : nat) : Prop := forall i p v, observed tr k i p v -> isnan v = false.
Definition nan_free (tr : trace) : Prop := forall k, nan_free_call tr k.
(** [v] is the smallest of the responses observed in the calls satisfying [K] by individuals
    satisfying [I] (NaN responses aside), and is the response observed at [p]. *)
Definition best_observed (tr : trace) (K I : nat -> Prop) (p : row) (v : b64) : Prop :=
  (forall k i q w, K k -> I i -> observed tr k i q w -> isnan w = false -> fle v w = true) /\
  (exists k i w, K k /\ I i /\ observed tr k i p w /\ feq w v = true).
(** Entry [g] of a history. *)
Definition entry (g : nat) (l : list b64) : b64 := nth g l fnan.

(** The trace lists the calls in order: call [k] got [x] and the objective answered [func k x]. *)
Definition true_trace (func : objective) (tr : trace) : Prop := forall k x y, nth_error tr k = Some (x, y) -> y = func k x.
(** The objective always returns one response per individual. *)
Definition well_behaved (func : objective) (pop : nat) : Prop :=
  forall k x, length x = pop -> exists y, func k x = Ok y /\ length y = pop.

(** Finite and at most [2^e] in absolute value. *)
Definition size_le (e : Z) (x : b64) : Prop := isfin x = true /\ (Rabs (val x) <= Flocq.Core.Raux.bpow Flocq.Core.Zaux.radix2 e)%R.
(** The velocity clamp in exact arithmetic. *)
Definition clampR : R -> R -> R := clamp (fun x y => if Rlt_dec x y then true else false) Rmult Rdiv Rabs.
(** PSO settings moderate enough for no overflow: bounds up to 2^M, rates up to 2^Q *)
Definition pso_moderate (cfg : pso_config) (b : box) : Prop := exists M Q : Z,
  (0 <= M)%Z /\ (0 <= Q)%Z /\ (2 * M + 3 * Q + 4 <= 1023)%Z /\
  Forall (fun lh => size_le M (fst lh) /\ size_le M (snd lh)) b /\
  size_le Q (p_c1 cfg) /\ size_le Q (p_c2 cfg) /\ size_le Q (p_w cfg) /\ size_le Q (p_vrate cfg) /\ (0 <= val (p_vrate cfg))%R.
