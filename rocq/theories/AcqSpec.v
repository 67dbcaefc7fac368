(** Vocabulary of the statements about acquisition functions: the normal distribution and the expected
    improvement below a threshold, as integrals. *)
From Coq Require Import Reals.
From Coquelicot Require Import Coquelicot.
Local Open Scope R_scope.

(** density of the normal distribution with mean [m] and standard deviation [s] *)
Definition gauss (m s y : R) : R := exp (- ((y - m) / s) ^ 2 / 2) / (s * sqrt (2 * PI)).
(** [p] is the probability that a normal variable is at most [c] *)
Definition prob_below (m s c p : R) : Prop := is_RInt_gen (gauss m s) (Rbar_locally m_infty) (at_point c) p.
(** [v] is the expectation of max(f - Y, 0) for Y normal with mean [m] and standard deviation [s]; for
    [s = 0] the variable is the constant [m] *)
Definition expected_improvement (f m s v : R) : Prop :=
  (0 < s /\ is_RInt_gen (fun y => Rmax (f - y) 0 * gauss m s y) (Rbar_locally m_infty) (Rbar_locally p_infty) v) \/
  (s = 0 /\ v = Rmax (f - m) 0).
