(** Vocabulary of the statements about acquisition functions in binary64. *)
From Coq Require Import ZArith Reals Bool List Permutation.
From Verif Require Import Fl NpList KernelFl Spec Normal AcqFl.
Import ListNotations.
Local Open Scope R_scope.

(** a number that, if it is finite, is far from overflow *)
Definition moderate (x : b64) : Prop := isfin x = true -> Rabs (val x) <= 2 ^ 300.
Definition moderate_finite (x : b64) : Prop := isfin x = true /\ Rabs (val x) <= 2 ^ 300.
(** a standard deviation: NaN, infinite, or not negative *)
Definition deviation (s : b64) : Prop := isnan s = true \/ fle f0 s = true.
(** What is assumed about [norm.cdf] and [norm.pdf]: NaN for NaN only, otherwise numbers between 0 and 1, the limits at
    the infinities, and a positive density at 0. *)
Definition normal_kind (cdf pdf : b64 -> b64) : Prop :=
  (forall z, isnan z = true -> isnan (cdf z) = true /\ isnan (pdf z) = true) /\
  (forall z, isnan z = false -> unit_closed (cdf z) /\ unit_closed (pdf z)) /\
  val (cdf fninf) = 0 /\ val (cdf finf) = 1 /\ val (pdf fninf) = 0 /\ val (pdf finf) = 0 /\
  (forall z, isfin z = true -> val z = 0 -> 0 < val (pdf z)).
(** larger arguments do not get smaller probabilities *)
Definition cdf_ordered (cdf : b64 -> b64) : Prop := forall z w, fle z w = true -> fle (cdf z) (cdf w) = true.
(** within [e] of the exact functions *)
Definition normal_near (e : R) (cdf pdf : b64 -> b64) : Prop :=
  forall z, isfin z = true -> Rabs (val (cdf z) - norm_cdf (val z)) <= e /\ Rabs (val (pdf z) - norm_pdf (val z)) <= e.
(** [s] is a product of [l], the multiplications being done in some order *)
Inductive prod_of : list b64 -> b64 -> Prop :=
| prod_nil : prod_of [] f1
| prod_one x : prod_of [x] x
| prod_mul l l1 l2 s1 s2 : l1 <> [] -> l2 <> [] -> Permutation l (l1 ++ l2) ->
    prod_of l1 s1 -> prod_of l2 s2 -> prod_of l (fmul s1 s2).
(** the least of some responses without NaN *)
Definition least64 (y : list b64) (v : b64) : Prop := In v y /\ forall w, In w y -> fle v w = true.
(** predictions as a surrogate may give them, NaN and infinities included, and such without NaN and infinities *)
Definition predicted (mu sd : list b64) : Prop := Forall moderate mu /\ Forall (fun s => moderate s /\ deviation s) sd.
Definition predicted_finite (mu sd : list b64) : Prop := Forall moderate_finite mu /\ Forall (fun s => moderate_finite s /\ 0 <= val s) sd.
(** [predict] answers with one mean and one deviation at [x] *)
Definition answer (x : mat) (predict : predictor64) (p : b64 * b64) : Prop := predict x = Ok ([fst p], [snd p]).
(** a surrogate whose plain predictions are finite, one per point *)
Definition steady (s : surrogate64) : Prop := forall x ys, u_predict s x = Ok ys -> length ys = length x /\ Forall moderate_finite ys.
(** a surrogate whose correlations have finite products *)
Definition crowds (np_prod : list b64 -> b64) (s : surrogate64) : Prop :=
  forall x X f c, u_corr s x X f = Some c -> Forall (fun r => moderate_finite (np_prod r)) c.
