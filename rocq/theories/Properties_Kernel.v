(** Theorems about models/basis_functions.py and models/kernels.py (C35 to C39).
    The vocabulary (posdef, upper_pairs) is in LinSpec.v. *)
From Coq Require Import Reals Lra.
From Verif Require Import Fl.
From mathcomp Require Import all_ssreflect all_algebra.
From Verif Require Import RStruct LinAlg LinSpec LinAlgFacts Kernel KernelFacts.
Set Implicit Arguments.
Unset Strict Implicit.
Unset Printing Implicit Defensive.
Import GRing.Theory.
Local Open Scope ring_scope.

(** ** C35 the bases, row by row *)
Theorem C35_bases : forall d n (X : 'M[R]_(n, d)) i, let x := row_seq (row i X) in
  row_seq (row i (regr_matrix (@Ordinary d) X)) = [:: 1] /\
  row_seq (row i (regr_matrix (@Linear d) X)) = 1 :: x /\
  row_seq (row i (regr_matrix (@Quadratic d) X)) =
    1 :: x ++ [seq Rmult (nth 0 x ij.1) (nth 0 x ij.2) | ij <- upper_pairs d].
Proof. exact bases_rows. Qed.
Print Assumptions C35_bases.
(** [upper_pairs d] has every pair i <= j < d exactly once: d(d+1)/2 pairs, so (d+1)(d+2)/2 columns. *)
Theorem C35_pairs : forall d, (forall i j, ((i, j) \in upper_pairs d) = (i <= j < d)%N) /\ uniq (upper_pairs d) /\
  (1 + d + size (upper_pairs d) = ((d + 1) * (d + 2)) %/ 2)%N.
Proof. exact pairs_once. Qed.
Print Assumptions C35_pairs.
(** and in lexicographic order *)
Theorem C35_order : forall d, sorted (fun a b : nat * nat => (a.1 < b.1)%N || ((a.1 == b.1) && (a.2 < b.2)%N)) (upper_pairs d).
Proof. exact pairs_sorted. Qed.
Print Assumptions C35_order.
Example C35_three : upper_pairs 3 = [:: (0, 0); (0, 1); (0, 2); (1, 1); (1, 2); (2, 2)]%N. Proof. reflexivity. Qed.
Example C35_row (a b c : R) : quadratic_row 1 Rmult [:: a; b; c] =
  [:: 1; a; b; c; Rmult a a; Rmult a b; Rmult a c; Rmult b b; Rmult b c; Rmult c c].
Proof. reflexivity. Qed.

(** ** C36 the kernel matrix *)
Theorem C36_correlation : forall d n (theta : 'rV[R]_d) (X : 'M[R]_(n, d)),
  let K := get_kernel_matrix (rbf_new theta) X X in
  K^T = K /\ (forall i, K i i = Rplus 1 (Rinv (10 ^ 10))) /\ (forall i j, i != j -> (0 < K i j <= 1)%Re).
Proof. exact kernel_correlation. Qed.
Print Assumptions C36_correlation.
Theorem C36_formula : forall d n m (theta : 'rV[R]_d) (X : 'M[R]_(n, d)) (Y : 'M[R]_(m, d)) i j,
  get_kernel_matrix (rbf_new theta) X Y i j =
  Rplus (exp (Ropp (\sum_k Rmult (Rpower 10 (theta 0 k)) (Rmult (Rminus (X i k) (Y j k)) (Rminus (X i k) (Y j k))))))
    (if (i : nat) == (j : nat) then Rinv (10 ^ 10) else 0).
Proof. exact kernel_entry. Qed.
Print Assumptions C36_formula.
Theorem C36_translation : forall d n m (theta c : 'rV[R]_d) (X : 'M[R]_(n, d)) (Y : 'M[R]_(m, d)),
  get_kernel_matrix (rbf_new theta) (\matrix_(i, k) Rplus (X i k) (c 0 k)) (\matrix_(i, k) Rplus (Y i k) (c 0 k)) =
  get_kernel_matrix (rbf_new theta) X Y.
Proof. exact kernel_translation. Qed.
Print Assumptions C36_translation.

(** ** C37 positive definite, for any points, also with duplicates *)
Theorem C37_positive_definite : forall d n (theta : 'rV[R]_d) (X : 'M[R]_(n, d)) s, (0 <= s)%Re ->
  let A := get_kernel_matrix (rbf_new theta) X X + s%:M in
  posdef A /\ exists L, chol A = Ok L /\ L *m L^T = A /\ is_trig_mx L /\ forall i, (0 < L i i)%Re.
Proof. exact kernel_cholesky. Qed.
Print Assumptions C37_positive_definite.
Example C37_ok : (0 <= 0)%Re /\ exists X : 'M[R]_(3, 2), row 0 X = row 1 X.
Proof. split; [exact: Rle_refl|exists 0; by rewrite !row0]. Qed.

(** ** C38 the two ways of evaluating *)
Theorem C38_call : forall d n m (k : rbf d) (history : seq 'rV[R]_d) (X : 'M[R]_(n, d)) (Y : 'M[R]_(m, d)) (p : 'rV[R]_d),
  let k' := foldl (@set_params d) k history in
  kernel_call k' X Y p = get_kernel_matrix (set_params k' p) X Y /\
  get_kernel_matrix (set_params k' p) X Y = get_kernel_matrix (rbf_new p) X Y.
Proof. exact kernel_call_history. Qed.
Print Assumptions C38_call.

(** ** C39 the jitter sits on the main diagonal of the array, not on equal points *)
Theorem C39_jitter : forall d n m (theta : 'rV[R]_d) (X : 'M[R]_(n, d)) (Y : 'M[R]_(m, d)) i j i' j',
  row i X = row i' X -> row j Y = row j' Y -> (i : nat) = j -> (i' : nat) <> j' ->
  get_kernel_matrix (rbf_new theta) X Y i j = Rplus (get_kernel_matrix (rbf_new theta) X Y i' j') (Rinv (10 ^ 10)).
Proof. exact kernel_jitter. Qed.
Print Assumptions C39_jitter.
Example C39_ok : exists (X : 'M[R]_(2, 1)) (Y : 'M[R]_(3, 1)) (i i' : 'I_2) (j j' : 'I_3),
  row i X = row i' X /\ row j Y = row j' Y /\ (i : nat) = j /\ (i' : nat) <> j' /\ X i 0 <> Y j 0.
Proof.
exists 0, (const_mx 1), 0, 0, 0, (inord 2); split; first by [].
split; first by apply/matrixP => a b; rewrite !mxE.
split; first by []. split; first by rewrite inordK.
rewrite !mxE => E; exact: (R1_neq_R0 (esym E)).
Qed.
