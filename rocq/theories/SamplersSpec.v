(** Contracts on the sampling oracles and well-formedness of samplers, used in theorem statements. *)
From Coq Require Import ZArith NArith Reals List.
From Verif Require Import Fl NpList Spec Samplers.
Import ListNotations.

(** A row of [d] numbers satisfying [P]. *)
Definition unit_row (P : b64 -> Prop) (d : nat) (r : row) : Prop := length r = d /\ Forall P r.

(** scipy's LatinHypercube: [n] rows of [d] numbers in [0,1]. *)
Definition lhs_ok (eng : lhs_engine) : Prop :=
  forall d s n, length (eng d s n) = n /\ Forall (unit_row unit_closed d) (eng d s n).
(** scipy's Sobol: points of [d] numbers in [0,1). *)
Definition stream_ok (st : sobol_stream) : Prop := forall d s i, unit_row unit_open d (st d s i).
(** np.random.choice without replacement: distinct valid indices, as many as asked for. *)
Definition choice_ok (c : nat -> nat -> nat -> list nat) : Prop :=
  forall k n size, size <= n ->
    length (c k n size) = size /\ NoDup (c k n size) /\ Forall (fun i => i < n) (c k n size).
(** np.random.random((n, d)): [n] rows of [d] numbers in [0,1). *)
Definition np_random_ok {G} (np_random : G -> nat -> nat -> mat * G) : Prop :=
  forall g n d, length (fst (np_random g n d)) = n /\ Forall (unit_row unit_open d) (fst (np_random g n d)).

(** Every level has the sampler's dimension and sane bounds. *)
Definition spaces_ok (s : mf_sampler) : Prop :=
  Forall (fun b => length b = mfs_dim s /\ box_ok b) (mfs_spaces s).
(** Latin hypercube draws may equal 1, so the boxes must also be tight. *)
Definition kind_tight (s : mf_sampler) : Prop :=
  match mfs_kind s with KLhs => Forall box_tight (mfs_spaces s) | KSobol _ => True end.
(** SciPy's Sobol engine stops at 2^30 points. *)
Definition kind_budget (s : mf_sampler) (n : nat) : Prop :=
  match mfs_kind s with KLhs => True | KSobol skip => (skip + N.of_nat n <= N.pow 2 30)%N end.

(** The scaling formulas in exact arithmetic. *)
Definition scale_lbR := scale_lb Rplus Rminus Rmult.
Definition scale_mulR := scale_mul Rplus Rminus Rmult.

(** One array per requested count, with that many rows, all in the box. *)
Definition levels_ok (b : box) (ns : list nat) (data : list mat) : Prop :=
  length data = length ns /\
  forall i, i < length ns -> length (nth i data []) = nth i ns 0 /\ Forall (in_box b) (nth i data []).

