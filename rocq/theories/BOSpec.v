(** Vocabulary for the statements about Bayesian optimisation. *)
From Coq Require Import ZArith Bool List.
From Verif Require Import Fl NpList Spec EA BO.
Import ListNotations.

(** An objective that returns one response per point; constraints that return one row of [nc]
    values per point; an acquisition that proposes one point at a time. *)
Definition one_per_point (func : objective) : Prop := forall k x y, func k x = Ok y -> length y = length x.
Definition cons_per_point (nc : nat) (cons : nat -> mat -> result mat) : Prop :=
  forall k x g, cons k x = Ok g -> length g = length x /\ Forall (fun r => length r = nc) g.
Definition one_point (query : nat -> result mat) : Prop := forall k x, query k = Ok x -> length x = 1.
Definition one_point_mf (query : nat -> result (mat * Z)) : Prop := forall k x f, query k = Ok (x, f) -> length x = 1.

Definition no_nan (l : list b64) : Prop := forall v, In v l -> isnan v = false.
(** Every call returned normally. *)
Definition all_ok (es : list (option exn)) : Prop := Forall (fun e => e = None) es.

(** [v] is the smallest of the responses [y], and [p] is the first of the points [x] with that
    response. *)
Definition first_min (x : mat) (y : list b64) (p : row) (v : b64) : Prop :=
  (forall w, In w y -> fle v w = true) /\
  exists i w, nth_error x i = Some p /\ nth_error y i = Some w /\ feq w v = true /\
    forall j u, j < i -> nth_error y j = Some u -> flt v u = true.
(** [v] is the smallest of the responses [y], and [p] is one of the points [x] with that response. *)
Definition some_min (x : mat) (y : list b64) (p : row) (v : b64) : Prop :=
  (forall w, In w y -> fle v w = true) /\
  exists i w, nth_error x i = Some p /\ nth_error y i = Some w /\ feq w v = true.
(** A history in which no later entry is larger than an earlier one. *)
Definition non_increasing (l : list b64) : Prop :=
  forall i j, i <= j < length l -> fle (nth j l fnan) (nth i l fnan) = true.

(** The distance from the known optimum that is compared with [stopping_error]: relative, absolute
    if the optimum is 0, and 1 if no optimum is known. *)
Definition gap (optimum : option b64) (best : b64) : b64 :=
  match optimum with
  | None => f1
  | Some o => if feq o f0 then fabs (fsub best o) else fabs (fdiv (fsub best o) o)
  end.
Definition attr (optimum : option b64) : optimum_attr :=
  match optimum with None => NoOptimum | Some o => Optimum o end.

(** Sample [i] satisfies all constraints. *)
Definition feasible (g : mat) (i : nat) : Prop :=
  exists r, nth_error g i = Some r /\ Forall (fun c => fle c f0 = true) r.
(** The single point a value of [best_x] stands for. *)
Definition point_is (p : point) (r : row) : Prop := p = Vec r \/ p = Rows [r].

(** The answers an objective gave, in order, if it never raised. *)
Definition answers (tr : trace) (ys : list (list b64)) : Prop := map snd tr = map Ok ys.

(** The arrays a multi-fidelity optimizer shows to its user. *)
Definition hf_x (s : mf_state) : mat := deref (m_xs s) (m_sample s) 0 [].
Definition lf_x (s : mf_state) : mat := deref (m_xs s) (m_sample s) 1 [].
Definition hf_y (s : mf_state) : list b64 := deref (m_ys s) (m_response s) 0 [].
Definition lf_y (s : mf_state) : list b64 := deref (m_ys s) (m_response s) 1 [].
Definition init_hf_x (s : mf_state) : mat := deref (m_xs s) (m_init_sample s) 0 [].
Definition init_lf_x (s : mf_state) : mat := deref (m_xs s) (m_init_sample s) 1 [].
Definition init_hf_y (s : mf_state) : list b64 := deref (m_ys s) (m_init_response s) 0 [].
Definition init_lf_y (s : mf_state) : list b64 := deref (m_ys s) (m_init_response s) 1 [].
(** How often a query chose the high (0) or the low fidelity. *)
Definition count_hf (order : list Z) : nat := length (filter (fun f => Z.eqb f 0) order).
Definition count_lf (order : list Z) : nat := length (filter (fun f => negb (Z.eqb f 0)) order).

(** [v] is the smallest objective value among the feasible samples. *)
Definition min_feasible (y : list b64) (g : mat) (v : b64) : Prop :=
  (forall i w, feasible g i -> nth_error y i = Some w -> fle v w = true) /\
  (exists i w, feasible g i /\ nth_error y i = Some w /\ feq w v = true).
(** The value reported for these data: the smallest feasible objective value, or +inf if no sample
    is feasible. *)
Definition feasible_best (y : list b64) (g : mat) (v : b64) : Prop :=
  ((forall i, ~ feasible g i) /\ v = finf) \/ min_feasible y g v.

(** Nothing fails: every query gives points with [dim] coordinates, every objective one response per
    point, the constraints one row of [nc] values per point, and no training raises. *)
Definition points_of (dim : nat) (x : mat) : Prop := Forall (fun r => length r = dim) x.
Definition query_works (dim : nat) (query : nat -> result mat) : Prop := forall k, exists x, query k = Ok x /\ points_of dim x.
Definition query_works_mf (dim : nat) (query : nat -> result (mat * Z)) : Prop :=
  forall k, exists x fid, query k = Ok (x, fid) /\ points_of dim x /\ (fid = 0%Z -> x <> []).
Definition objective_works (func : objective) : Prop := forall k x, exists y, func k x = Ok y /\ length y = length x.
Definition cons_work (nc : nat) (cons : nat -> mat -> result mat) : Prop :=
  forall k x, exists g, cons k x = Ok g /\ length g = length x /\ Forall (fun r => length r = nc) g.
Definition train_works (train : nat -> option exn) : Prop := forall k, train k = None.
