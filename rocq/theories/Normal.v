(** The standard normal distribution, as [scipy.stats.norm.pdf] and [norm.cdf] (exact real values). *)
From Coq Require Import Reals.
From Coquelicot Require Import Coquelicot.
Local Open Scope R_scope.

(** [norm.pdf] *)
Definition norm_pdf (x : R) : R := exp (- (x ^ 2 / 2)) / sqrt (2 * PI).
(** [norm.cdf]: the integral of the density up to [x] *)
Definition norm_cdf (x : R) : R := RInt_gen norm_pdf (Rbar_locally m_infty) (at_point x).
