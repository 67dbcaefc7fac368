(** Words used to state the properties of the test problems. *)
From Coq Require Import Reals List ZArith.
Import ListNotations.
Local Open Scope R_scope.

(** a point of a box *)
Definition in_box (domain : list (R * R)) (x : list R) : Prop := Forall2 (fun b t => fst b <= t <= snd b) domain x.
(** [a] and [b] differ by at most [tol] *)
Definition within (tol a b : R) : Prop := Rabs (a - b) <= tol.
(** a constructor call is a dimension and the other parameters; it is valid when the dimension is not
    negative *)
Definition valid_calls {P} (calls : list (Z * P)) : list (Z * P) := filter (fun c => Z.leb 0 (fst c)) calls.
Definition last_valid {P} (calls : list (Z * P)) : option (Z * P) := find (fun c => Z.leb 0 (fst c)) (rev calls).
