(** More vectors than dimensions are linearly dependent. *)
From Coq Require Import Reals.
From mathcomp Require Import all_ssreflect all_algebra.
From Verif Require Import RStruct RSum.
Set Implicit Arguments.
Unset Strict Implicit.
Unset Printing Implicit Defensive.
Import GRing.Theory.
Local Open Scope ring_scope.

Lemma rsE n (f : nat -> R) : rs n f = \sum_(i < n) f i.
Proof. elim: n => [|n IH] /=; first by rewrite big_ord0. by rewrite big_ord_recr /= IH. Qed.
Lemma dependent m (N : nat -> nat -> R) : exists v : nat -> R, (exists r, (r < m.+1)%coq_nat /\ v r <> 0%Re) /\
  forall k, (k < m)%coq_nat -> rs m.+1 (fun r => (v r * N r k)%Re) = 0%Re.
Proof.
pose M : 'M[R]_(m.+1, m) := \matrix_(r, k) N r k.
have K : kermx M != 0.
  rewrite -mxrank_eq0 mxrank_ker subn_eq0 -ltnNge ltnS. exact: rank_leq_col.
have [i Hi] : exists i, row i (kermx M) != 0.
  apply/existsP; rewrite -negb_forall; apply: contra K => /forallP H; apply/eqP/row_matrixP => i. by rewrite row0; apply/eqP.
pose v := row i (kermx M).
exists (fun r => if insub r is Some r' then v 0 r' else 0); split.
  have [r Hr] : exists r, v 0 r != 0.
    apply/existsP; rewrite -negb_forall; apply: contra Hi => /forallP H; apply/eqP/rowP => r. by rewrite (eqP (H r)) mxE.
  exists (nat_of_ord r); split; first by apply/ltP; exact: ltn_ord. rewrite valK. exact/eqP.
move=> k /ltP Hk; rewrite rsE.
have E : v *m M = 0 by apply/sub_kermxP; exact: row_sub.
have H := congr1 (fun B : 'rV_m => B 0 (Ordinal Hk)) E; rewrite !mxE in H.
rewrite -[RHS]H. by apply: eq_bigr => r _; rewrite valK !mxE.
Qed.
