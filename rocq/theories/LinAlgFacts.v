(** Positive definite matrices over R: Cholesky factorisation, inverses, generalised least squares. *)
From Coq Require Import Reals Lra.
From Verif Require Import Fl.
From mathcomp Require Import all_ssreflect all_algebra.
From Verif Require Import RStruct LinAlg LinSpec.
Set Implicit Arguments.
Unset Strict Implicit.
Unset Printing Implicit Defensive.
Import GRing.Theory.
Local Open Scope ring_scope.

Lemma mx11_eq (A B : 'M[R]_1) : A 0 0 = B 0 0 -> A = B.
Proof. by move=> H; apply/matrixP => i j; rewrite !ord1. Qed.
Lemma qf0 n (A : 'M[R]_n) : qf A 0 = 0. Proof. by rewrite /qf mulmx0 mxE. Qed.
Lemma qfD n (A B : 'M[R]_n) x : qf (A + B) x = qf A x + qf B x.
Proof. by rewrite /qf mulmxDr mulmxDl mxE. Qed.
Lemma qfZ n a (A : 'M[R]_n) x : qf (a *: A) x = a * qf A x.
Proof. by rewrite /qf -scalemxAr -scalemxAl mxE. Qed.
Lemma qf_scal n (x : 'cV[R]_n) : qf 1%:M x = \sum_i x i 0 * x i 0.
Proof. by rewrite /qf mulmx1 mxE; apply: eq_bigr => i _; rewrite mxE. Qed.

Lemma sumR_ge0 (I : finType) (F : I -> R) : (forall i, (0 <= F i)%Re) -> (0 <= \sum_i F i)%Re.
Proof. by move=> H; elim/big_ind: _ => //; [exact: Rle_refl|move=> x y Hx Hy; exact: Rplus_le_le_0_compat]. Qed.
Lemma sumR_gt0 (I : finType) (F : I -> R) : (forall i, (0 <= F i)%Re) -> (exists i, (0 < F i)%Re) -> (0 < \sum_i F i)%Re.
Proof.
move=> H [i Hi]; rewrite (bigD1 i) //=.
suff: (0 <= \sum_(j | j != i) F j)%Re by move=> ?; exact: Rplus_lt_le_0_compat.
by elim/big_ind: _ => //; [exact: Rle_refl|move=> x y Hx Hy; exact: Rplus_le_le_0_compat].
Qed.
Lemma cV_neq0 n (x : 'cV[R]_n) : x != 0 -> exists i, x i 0 <> 0.
Proof.
move=> Hx; case: (pickP (fun i => x i 0 != 0)) => [i /eqP Hi|H]; first by exists i.
case/eqP: Hx; apply/matrixP => i j; rewrite ord1 mxE. by apply/eqP; move: (H i) => /= /negbT; rewrite negbK.
Qed.
Lemma sq_sum_pos n (x : 'cV[R]_n) : x != 0 -> (0 < qf 1%:M x)%Re.
Proof.
move=> /cV_neq0 [i Hi]; rewrite qf_scal; apply: sumR_gt0 => [j|]; first exact: Rle_0_sqr.
by exists i; apply: Rlt_0_sqr.
Qed.
Lemma sq_sum_ge0 n (x : 'cV[R]_n) : (0 <= qf 1%:M x)%Re.
Proof. by rewrite qf_scal; apply: sumR_ge0 => j; exact: Rle_0_sqr. Qed.

Lemma posdef_semi n (A : 'M[R]_n) : posdef A -> possemi A.
Proof.
move=> [S P]; split=> // x; case: (eqVneq x 0) => [->|/P]; [rewrite qf0; exact: Rle_refl|lra].
Qed.
Lemma semi_pos n (A : 'M[R]_n) c : possemi A -> (0 < c)%Re -> posdef (A + c%:M).
Proof.
move=> [S P] Hc; split; first by rewrite linearD /= S tr_scalar_mx.
move=> x Hx; rewrite qfD -scalemx1 qfZ. apply: Rplus_le_lt_0_compat; first exact: P.
apply: Rmult_lt_0_compat => //; exact: sq_sum_pos.
Qed.
Lemma semi_add n (A B : 'M[R]_n) : possemi A -> possemi B -> possemi (A + B).
Proof.
move=> [S P] [T Q]; split; first by rewrite linearD /= S T.
move=> x; rewrite qfD; exact: Rplus_le_le_0_compat.
Qed.
Lemma pos_add n (A B : 'M[R]_n) : posdef A -> possemi B -> posdef (A + B).
Proof.
move=> [S P] [T Q]; split; first by rewrite linearD /= S T.
move=> x /P ?; rewrite qfD; exact: Rplus_lt_le_0_compat.
Qed.
Lemma semi_scalar n c : (0 <= c)%Re -> possemi (c%:M : 'M[R]_n).
Proof.
move=> Hc; split; first by rewrite tr_scalar_mx.
move=> x; rewrite -scalemx1 qfZ; apply: Rmult_le_pos => //; exact: sq_sum_ge0.
Qed.
Lemma semi_scale n c (A : 'M[R]_n) : (0 <= c)%Re -> possemi A -> possemi (c *: A).
Proof.
move=> Hc [S P]; split; first by rewrite linearZ /= S.
move=> x; rewrite qfZ; apply: Rmult_le_pos => //.
Qed.
Lemma pos_scale n c (A : 'M[R]_n) : (0 < c)%Re -> posdef A -> posdef (c *: A).
Proof.
move=> Hc [S P]; split; first by rewrite linearZ /= S.
move=> x Hx; rewrite qfZ; apply: Rmult_lt_0_compat => //; exact: P.
Qed.
(** congruence *)
Lemma qf_congr n m (A : 'M[R]_n) (B : 'M[R]_(n, m)) x : qf (B^T *m A *m B) x = qf A (B *m x).
Proof. by rewrite /qf trmx_mul !mulmxA. Qed.
Lemma congr_sym n m (A : 'M[R]_n) (B : 'M[R]_(n, m)) : A^T = A -> (B^T *m A *m B)^T = B^T *m A *m B.
Proof. by move=> S; rewrite !trmx_mul trmxK S mulmxA. Qed.
Lemma semi_congr n m (A : 'M[R]_n) (B : 'M[R]_(n, m)) : possemi A -> possemi (B^T *m A *m B).
Proof. by move=> [S P]; split; [exact: congr_sym|move=> x; rewrite qf_congr]. Qed.
Lemma pos_congr n m (A : 'M[R]_n) (B : 'M[R]_(n, m)) : posdef A -> (forall x : 'cV_m, B *m x = 0 -> x = 0) ->
  posdef (B^T *m A *m B).
Proof.
move=> [S P] H; split; first exact: congr_sym.
move=> x Hx; rewrite qf_congr; apply: P; apply/eqP => /H E. by rewrite E eqxx in Hx.
Qed.
Lemma pos_ker n (A : 'M[R]_n) (x : 'cV_n) : posdef A -> A *m x = 0 -> x = 0.
Proof.
move=> [_ P] E; apply/eqP; apply/negPn/negP => /P. rewrite /qf -mulmxA E mulmx0 mxE. exact: Rlt_irrefl.
Qed.
Lemma pos_unit n (A : 'M[R]_n) : posdef A -> A \in unitmx.
Proof.
move=> PA; rewrite -row_free_unit; apply: inj_row_free => v H.
apply: trmx_inj; rewrite trmx0; apply: (pos_ker PA).
by apply: trmx_inj; rewrite trmx_mul trmxK trmx0 PA.1.
Qed.
Lemma pos_inv n (A : 'M[R]_n) : posdef A -> posdef (invmx A).
Proof.
move=> PA; have U := pos_unit PA.
have S : (invmx A)^T = invmx A by rewrite trmx_inv PA.1.
have -> : invmx A = (invmx A)^T *m A *m invmx A by rewrite S mulVmx // mul1mx.
apply: pos_congr => // x H. by rewrite -[x]mul1mx -(mulmxV U) -mulmxA H mulmx0.
Qed.

(** ** Cholesky *)

(** the Schur complement of a positive pivot *)
Definition schur n (A : 'M[R]_(1 + n)) : 'M[R]_n :=
  drsubmx A - Rinv (ulsubmx A 0 0) *: (dlsubmx A *m (dlsubmx A)^T).
Lemma ulE n (A : 'M[R]_(1 + n)) : ulsubmx A = (ulsubmx A 0 0)%:M.
Proof. exact: mx11_scalar. Qed.
Lemma sym_ur n (A : 'M[R]_(1 + n)) : A^T = A -> ursubmx A = (dlsubmx A)^T.
Proof. by move=> S; rewrite trmx_dlsub S. Qed.
Lemma sym_dr n (A : 'M[R]_(1 + n)) : A^T = A -> (drsubmx A)^T = drsubmx A.
Proof. by move=> S; rewrite trmx_drsub S. Qed.
Lemma sym_schur n (A : 'M[R]_(1 + n)) : A^T = A -> (schur A)^T = schur A.
Proof. by move=> S; rewrite /schur linearB /= linearZ /= trmx_mul trmxK sym_dr. Qed.
Lemma pivot_pos n (A : 'M[R]_(1 + n)) : posdef A -> (0 < ulsubmx A 0%R 0%R)%Re.
Proof.
move=> [S P]; pose x : 'cV[R]_(1 + n) := col_mx 1%:M 0.
have Hx : x != 0.
  apply/eqP => /matrixP /(_ (lshift n 0) 0); rewrite /x col_mxEu !mxE /=. exact: R1_neq_R0.
move: (P x Hx); rewrite /qf /x -[A]submxK tr_col_mx mul_row_block mul_row_col.
by rewrite !trmx1 !trmx0 !mul1mx !mul0mx !addr0 !mulmx1 !mulmx0 !addr0 submxK.
Qed.
Lemma schur_pos n (A : 'M[R]_(1 + n)) : posdef A -> posdef (schur A).
Proof.
move=> PA; have a0 := pivot_pos PA; have S := PA.1.
set a := ulsubmx A 0 0 in a0 *.
pose c : 'M[R]_(1, n) := - (Rinv a *: (dlsubmx A)^T).
pose B : 'M[R]_(1 + n, n) := col_mx c 1%:M.
have -> : schur A = B^T *m A *m B.
  rewrite -[A in RHS]submxK /B tr_col_mx mul_row_block mul_row_col trmx1 !mul1mx mulmx1.
  have -> : c^T *m ulsubmx A + dlsubmx A = 0.
    rewrite ulE -/a mul_mx_scalar /c linearN /= linearZ /= trmxK scalerN scalerA.
    have -> : a * Rinv a = 1 by apply: Rinv_r; lra.
    by rewrite scale1r addNr.
  rewrite mul0mx add0r sym_ur // /c linearN /= linearZ /= trmxK mulNmx -scalemxAl addrC //.
apply: pos_congr => // x.
rewrite /B mul_col_mx mul1mx => /eqP. by rewrite col_mx_eq0 => /andP [_ /eqP].
Qed.
Lemma chol_vv n (A : 'M[R]_(1 + n)) : (0 < ulsubmx A 0%R 0%R)%Re ->
  let v := Rinv (sqrt (ulsubmx A 0 0)) *: dlsubmx A in drsubmx A - v *m v^T = schur A.
Proof.
move=> a0 /=; rewrite /schur linearZ /= -scalemxAr -scalemxAl scalerA; congr (_ - _ *: _).
change (Rmult (Rinv (sqrt (ulsubmx A 0 0))) (Rinv (sqrt (ulsubmx A 0 0))) = Rinv (ulsubmx A 0 0)).
rewrite -Rinv_mult_distr ?sqrt_sqrt //; first by apply: Rlt_le.
all: by apply: Rgt_not_eq; apply: sqrt_lt_R0.
Qed.

(** what a successful factorisation gives *)
Definition chol_factor n (A L : 'M[R]_n) : Prop :=
  L *m L^T = A /\ L \in unitmx /\ (forall i, (0 < L i i)%Re) /\ is_trig_mx L.
Lemma chol_block n (A : 'M[R]_(1 + n)) (L' : 'M[R]_n) : A^T = A -> (0 < ulsubmx A 0%R 0%R)%Re -> chol_factor (schur A) L' ->
  chol_factor A (block_mx (sqrt (ulsubmx A 0 0))%:M 0 (Rinv (sqrt (ulsubmx A 0 0)) *: dlsubmx A) L').
Proof.
move=> S a0 [F [U [D T]]].
set l := sqrt _; set v := _ *: _.
have l0 : (0 < l)%Re by exact: sqrt_lt_R0.
split.
  rewrite tr_block_mx mulmx_block !trmx0 !mulmx0 !mul0mx !addr0 tr_scalar_mx F.
  rewrite -[RHS]submxK; congr block_mx.
  - rewrite -scalar_mxM ulE; congr (_%:M). by apply: sqrt_sqrt; exact: Rlt_le.
  - rewrite mul_scalar_mx /v linearZ /= scalerA sym_ur //.
    have -> : l * Rinv l = 1 by apply: Rinv_r; lra. by rewrite scale1r.
  - rewrite mul_mx_scalar /v scalerA.
    have -> : l * Rinv l = 1 by apply: Rinv_r; lra. by rewrite scale1r.
  - rewrite -(chol_vv a0) /= -/l -/v addrC subrK //.
split.
  rewrite unitmxE det_lblock det_scalar1 unitrM -unitmxE U andbT.
  by apply/eqP => E0; move: l0; rewrite E0; exact: Rlt_irrefl.
split.
  move=> i; case: (split_ordP i) => j ->.
  - by rewrite block_mxEul ord1 mxE eqxx mulr1n.
  - by rewrite block_mxEdr.
apply/is_trig_mxP => i j; case: (split_ordP i) => i' ->; case: (split_ordP j) => j' ->.
- by rewrite !ord1 ltnn.
- by rewrite block_mxEur mxE.
- by rewrite ord1.
- rewrite block_mxEdr /= ltn_add2l => H. by apply: (is_trig_mxP T).
Qed.
Lemma chol_ok n (A L : 'M[R]_n) : A^T = A -> chol A = Ok L -> chol_factor A L.
Proof.
elim: n A L => [|n IH] A L S.
  move=> _; split; first by rewrite [L *m L^T]flatmx0 [A]flatmx0.
  split; first by rewrite unitmxE det_mx00 unitr1.
  split; first by case. by apply/is_trig_mxP; case.
rewrite /=; case: Rlt_dec => // a0.
rewrite (chol_vv a0).
case E: (chol (schur (A : 'M_(1 + n)))) => [L'|] //= [<-].
apply: (@chol_block n) => //. exact: IH (sym_schur S) E.
Qed.
Lemma chol_pos n (A : 'M[R]_n) : posdef A -> exists L, chol A = Ok L.
Proof.
elim: n A => [|n IH] A PA; first by exists A.
rewrite /=; have a0 := pivot_pos (PA : posdef (A : 'M_(1 + n))).
case: Rlt_dec => a1 /=; last by case: (a1 a0).
rewrite (chol_vv a0).
have [L ->] := IH _ (schur_pos (PA : posdef (A : 'M_(1 + n)))).
by eexists.
Qed.
Lemma chol_is_pos n (A L : 'M[R]_n) : A^T = A -> chol A = Ok L -> posdef A.
Proof.
move=> S E; have [<- [U _]] := chol_ok S E.
have -> : L *m L^T = (L^T)^T *m 1%:M *m L^T by rewrite trmxK mulmx1.
apply: pos_congr; first by split; [rewrite trmx1|exact: sq_sum_pos].
move=> x H; have U' : L^T \in unitmx by rewrite unitmx_tr.
by rewrite -[x]mul1mx -(mulVmx U') -mulmxA H mulmx0.
Qed.
Lemma chol_solve_ok n m (A L : 'M[R]_n) (B : 'M[R]_(n, m)) : A^T = A -> chol A = Ok L ->
  chol_solve L B = Ok (invmx A *m B).
Proof.
move=> S E; have [F [U _]] := chol_ok S E.
rewrite /chol_solve /solve U /= unitmx_tr U mulmxA; congr (Ok (_ *m _)).
have UA : A \in unitmx by apply: pos_unit; apply: chol_is_pos E.
have H : A *m (invmx L^T *m invmx L) = 1%:M.
  rewrite -F -mulmxA [L^T *m _]mulmxA mulmxV ?unitmx_tr // mul1mx mulmxV //.
by rewrite -[LHS]mul1mx -(mulVmx UA) -mulmxA H mulmx1.
Qed.
