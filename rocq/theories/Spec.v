(** Vocabulary shared by the statements of the properties. *)
From Coq Require Import ZArith Reals Bool List.
From Flocq Require Import IEEE754.BinarySingleNaN.
From Verif Require Import Fl NpList.
Import ListNotations.
Local Open Scope R_scope.

(** The real number a finite float denotes. *)
Definition val (x : b64) : R := B2R x.

(** A draw from [0,1), as produced by np.random.random and by scipy's Sobol engine. *)
Definition unit_open (u : b64) : Prop := isfin u = true /\ 0 <= val u < 1.
(** A draw from [0,1]: scipy's Latin hypercube can return exactly 1. *)
Definition unit_closed (u : b64) : Prop := isfin u = true /\ 0 <= val u <= 1.

(** An interval whose bounds are finite, ordered, and whose width does not overflow. *)
Definition bounds_ok (lh : b64 * b64) : Prop :=
  let '(lo, hi) := lh in
  isfin lo = true /\ isfin hi = true /\ fle lo hi = true /\ isfin (fsub hi lo) = true.
Definition box_ok (b : box) : Prop := Forall bounds_ok b.
(** ... and whose upper end is not overshot when it is recomputed as [lo + (hi - lo)]. *)
Definition bounds_tight (lh : b64 * b64) : Prop :=
  let '(lo, hi) := lh in fle (fadd lo (fsub hi lo)) hi = true.
Definition box_tight (b : box) : Prop := Forall bounds_tight b.

(** Every coordinate is between its bounds (float comparison; in particular not NaN). *)
Definition in_bounds (lh : b64 * b64) (x : b64) : Prop :=
  let '(lo, hi) := lh in fle lo x = true /\ fle x hi = true.
Definition in_box (b : box) (r : row) : Prop := Forall2 in_bounds b r.

(** No coordinate is strictly outside its bounds (a NaN coordinate passes). *)
Definition not_outside (lh : b64 * b64) (x : b64) : Prop :=
  let '(lo, hi) := lh in flt x lo = false /\ flt hi x = false.
Definition not_outside_box (b : box) (r : row) : Prop := Forall2 not_outside b r.

(** [A] consists of [n] rows of [B] with pairwise different row numbers. *)
Definition distinct_rows_of {X} (A B : list X) (n : nat) : Prop :=
  exists idx, NoDup idx /\ length idx = n /\ Forall (fun i => (i < length B)%nat) idx /\
    Forall2 (fun i a => nth_error B i = Some a) idx A.

(** [A] is the list of the first [length A] elements of [B]. *)
Definition prefix_of {X} (A B : list X) : Prop := exists C, B = A ++ C.

(** Exactly one entry of [l] lies in each of the [n] strata of [lo,hi] (right-closed, as in scipy). *)
Definition in_stratum (lo hi : R) (n k : nat) (x : R) : Prop :=
  lo + INR k / INR n * (hi - lo) < x <= lo + INR (S k) / INR n * (hi - lo).
Definition one_per_stratum (lo hi : R) (n : nat) (l : list R) : Prop :=
  length l = n /\
  forall k, (k < n)%nat -> exists i, (i < n)%nat /\ in_stratum lo hi n k (nth i l 0) /\
     forall i', (i' < n)%nat -> in_stratum lo hi n k (nth i' l 0) -> i' = i.
(** Column [j] of an array. *)
Definition column (j : nat) (m : list (list R)) : list R := map (fun r => nth j r 0) m.
