(** Vocabulary of the statements about standard deviations and noise in binary64.  Nothing here refers to the model. *)
From Coq Require Import Reals.
From Verif Require Import Fl Spec KernelFlSpec.
Local Open Scope R_scope.

(** a standard deviation: a NaN, plus infinity, or a number that is not negative *)
Definition deviation (v : b64) : Prop := isnan v = true \/ v = finf \/ (isfin v = true /\ 0 <= val v).
(** [v] accounts for the noise: a NaN, plus infinity, or at least |noise|, up to rounding *)
Definition covers (noise v : b64) : Prop := isnan v = true \/ v = finf \/ (isfin v = true /\ Rabs (val noise) * (1 - / 2 ^ 50) <= val v).
