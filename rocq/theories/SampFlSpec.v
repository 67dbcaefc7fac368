(** What rounding may do to scaled samples. *)
From Coq Require Import ZArith Reals Bool List.
From Flocq Require Import Core.
From Verif Require Import Fl NpList Spec Samplers.
Import ListNotations.
Local Open Scope R_scope.

(** The bounds of axis [j], as real numbers. *)
Definition lower (b : box) (j : nat) : R := val (fst (nth j b (f0, f0))).
Definition upper (b : box) (j : nat) : R := val (snd (nth j b (f0, f0))).
(** Entry [j] of row [i]. *)
Definition entry (m : mat) (i j : nat) : b64 := nth j (nth i m []) f0.
(** All entries as real numbers. *)
Definition reals (m : mat) : list (list R) := map (map val) m.
(** A design space whose bounds are ordered and at most 2^1000 in absolute value. *)
Definition moderate_box (b : box) : Prop :=
  Forall (fun lh => isfin (fst lh) = true /\ isfin (snd lh) = true /\ val (fst lh) <= val (snd lh) /\
                    Rabs (val (fst lh)) <= bpow radix2 1000 /\ Rabs (val (snd lh)) <= bpow radix2 1000) b.
(** The sample that belongs to the draw [u]. *)
Definition ideal (lo hi u : R) : R := lo + u * (hi - lo).
(** How far rounding may move it: six units in the last place of the larger bound, and one underflow unit. *)
Definition slack (lo hi : R) : R := 6 * bpow radix2 (-53) * Rmax (Rabs lo) (Rabs hi) + bpow radix2 (-1074).
(** Stratum [k] of [n], widened by [e] on both sides (narrowed if [e] is negative). *)
Definition in_stratum_by (e lo hi : R) (n k : nat) (x : R) : Prop :=
  lo + INR k / INR n * (hi - lo) - e < x <= lo + INR (S k) / INR n * (hi - lo) + e.
(** One sample per stratum, up to rounding: every widened stratum holds a sample, no narrowed one holds two. *)
Definition nearly_one_per_stratum (lo hi : R) (n : nat) (l : list R) : Prop :=
  length l = n /\
  (forall k, (k < n)%nat -> exists i, (i < n)%nat /\ in_stratum_by (slack lo hi) lo hi n k (nth i l 0)) /\
  (forall k i i', (k < n)%nat -> (i < n)%nat -> (i' < n)%nat -> in_stratum_by (- slack lo hi) lo hi n k (nth i l 0) ->
     in_stratum_by (- slack lo hi) lo hi n k (nth i' l 0) -> i = i').
(** A Latin hypercube of [n] points: one in every stratum of every axis. *)
Definition stratifies (eng : lhs_engine) (n : nat) : Prop :=
  forall d s j, (j < d)%nat -> one_per_stratum 0 1 n (column j (reals (eng d s n))).
