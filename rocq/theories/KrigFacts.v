(** Facts about the Kriging fit: generalised least squares. *)
From Coq Require Import Reals Lra.
From Verif Require Import Fl.
From mathcomp Require Import all_ssreflect all_algebra.
From Verif Require Import RStruct LinAlg LinSpec LinAlgFacts Kernel KernelFacts Krig.
Set Implicit Arguments.
Unset Strict Implicit.
Unset Printing Implicit Defensive.
Import GRing.Theory.
Local Open Scope ring_scope.

(** entries without unfolding products *)
Lemma addE m n (A B : 'M[R]_(m, n)) i j : (A + B) i j = A i j + B i j. Proof. by rewrite mxE. Qed.
Lemma oppE m n (A : 'M[R]_(m, n)) i j : (- A) i j = - A i j. Proof. by rewrite mxE. Qed.
Lemma scaleE m n c (A : 'M[R]_(m, n)) i j : (c *: A) i j = c * A i j. Proof. by rewrite mxE. Qed.
Lemma trE m n (A : 'M[R]_(m, n)) i j : A^T i j = A j i. Proof. by rewrite mxE. Qed.

(** the normal matrix and the residual in the metric of K *)
Definition normal_mx n p (K : 'M[R]_n) (F : 'M[R]_(n, p)) : 'M[R]_p := F^T *m (invmx K *m F).

Lemma inv_sym n (K : 'M[R]_n) : K^T = K -> (invmx K)^T = invmx K.
Proof. by move=> S; rewrite trmx_inv S. Qed.
Lemma normal_sym n p (K : 'M[R]_n) (F : 'M[R]_(n, p)) : K^T = K -> (normal_mx K F)^T = normal_mx K F.
Proof. by move=> S; rewrite /normal_mx !trmx_mul trmxK inv_sym // mulmxA. Qed.
Lemma normal_pos n p (K : 'M[R]_n) (F : 'M[R]_(n, p)) : posdef K -> full_rank F -> posdef (normal_mx K F).
Proof. by move=> PK HF; rewrite /normal_mx mulmxA; apply: pos_congr => //; exact: pos_inv. Qed.
Lemma normal_full n p (K : 'M[R]_n) (F : 'M[R]_(n, p)) : posdef (normal_mx K F) -> full_rank F.
Proof. by move=> P x E; apply: (pos_ker P); rewrite /normal_mx -!mulmxA E !mulmx0. Qed.

(** what a successful fit is *)
Record fit_spec n p (K : 'M[R]_n) (F : 'M[R]_(n, p)) (Y : 'cV[R]_n) (k : krig n p) : Prop := {
  fs_K : posdef K;
  fs_N : posdef (normal_mx K F);
  fs_L : chol K = Ok (kr_L k);
  fs_F : kr_F k = F;
  fs_ld : chol (normal_mx K F) = Ok (kr_ld k);
  fs_beta : kr_beta k = invmx (normal_mx K F) *m (F^T *m (invmx K *m Y));
  fs_gamma : kr_gamma k = invmx K *m (Y - F *m kr_beta k);
  fs_sigma2 : kr_sigma2 k = Rdiv (gls K F Y (kr_beta k)) (INR n) }.

Lemma krig_fit_spec n p (K : 'M[R]_n) (F : 'M[R]_(n, p)) (Y : 'cV[R]_n) k :
  K^T = K -> krig_fit K F Y = Ok k -> fit_spec K F Y k.
Proof.
move=> S; rewrite /krig_fit; case EL: (chol K) => [L|//] /=.
rewrite !(chol_solve_ok _ S EL) /= -/(normal_mx K F).
case El: (chol (normal_mx K F)) => [ld|//] /=.
rewrite (chol_solve_ok _ (normal_sym _ S) El) /= (chol_solve_ok _ S EL) /= => -[<-].
split=> //=; [exact: (chol_is_pos S EL)|exact: (chol_is_pos (normal_sym _ S) El)|].
by rewrite /gls /qf mulmxA.
Qed.
Lemma krig_fit_ok n p (K : 'M[R]_n) (F : 'M[R]_(n, p)) (Y : 'cV[R]_n) :
  posdef K -> full_rank F -> exists k, krig_fit K F Y = Ok k.
Proof.
move=> PK HF; have S := PK.1; have [L EL] := chol_pos PK; have [ld El] := chol_pos (normal_pos PK HF).
rewrite /krig_fit EL /= !(chol_solve_ok _ S EL) /= -/(normal_mx K F) El /=.
rewrite (chol_solve_ok _ (normal_sym _ S) El) /= (chol_solve_ok _ S EL) /=. by eexists.
Qed.

Section Fit.
Variables (n p : nat) (K : 'M[R]_n) (F : 'M[R]_(n, p)) (Y : 'cV[R]_n) (k : krig n p).
Hypothesis H : fit_spec K F Y k.
Let PK := fs_K H.
Let PN := fs_N H.
Let S := PK.1.
Let UK := pos_unit PK.
Let UN := pos_unit PN.

(** the normal equations *)
Lemma fit_normal : F^T *m kr_gamma k = 0.
Proof.
rewrite (fs_gamma H) !mulmxBr. rewrite {1}(fs_beta H).
have -> : F^T *m (invmx K *m (F *m (invmx (normal_mx K F) *m (F^T *m (invmx K *m Y))))) =
  normal_mx K F *m (invmx (normal_mx K F) *m (F^T *m (invmx K *m Y))) by rewrite /normal_mx !mulmxA.
by rewrite mulKVmx // subrr.
Qed.
Lemma qf_sum m (A : 'M[R]_m) (x y : 'cV[R]_m) : A^T = A ->
  qf A (x + y) = Rplus (Rplus (qf A x) (qf A y)) (Rmult 2 ((y^T *m A *m x) 0 0)).
Proof.
move=> SA; rewrite /qf [(x + y)^T]linearD /= !mulmxDl !mulmxDr !addE.
have -> : (x^T *m A *m y) 0 0 = (y^T *m A *m x) 0 0.
  have -> : x^T *m A *m y = (y^T *m A *m x)^T by rewrite !trmx_mul trmxK SA mulmxA. by rewrite trE.
toR; ring.
Qed.
Lemma fit_pythagoras b : gls K F Y b = gls K F Y (kr_beta k) + qf (normal_mx K F) (b - kr_beta k).
Proof.
rewrite /gls. have -> : Y - F *m b = (Y - F *m kr_beta k) + (- (F *m (b - kr_beta k))).
  by rewrite mulmxBr opprB addrA subrK.
rewrite qf_sum; last exact: inv_sym.
have -> : (- (F *m (b - kr_beta k)))^T *m invmx K *m (Y - F *m kr_beta k) = 0.
  rewrite -mulmxA -(fs_gamma H) linearN /= trmx_mul mulNmx -mulmxA fit_normal mulmx0 oppr0 //.
rewrite !mxE Rmult_0_r Rplus_0_r. congr (_ + _).
rewrite /qf [(- _)^T]linearN /= !mulNmx mulmxN opprK trmx_mul /normal_mx !mulmxA. by [].
Qed.
Lemma fit_minimal b : (gls K F Y (kr_beta k) <= gls K F Y b)%Re.
Proof.
rewrite (fit_pythagoras b). have := (posdef_semi PN).2 (b - kr_beta k). rewrite -RplusE. lra.
Qed.
Lemma fit_unique b : gls K F Y b = gls K F Y (kr_beta k) -> b = kr_beta k.
Proof.
move=> E; apply/eqP; rewrite -subr_eq0; apply/negPn/negP => /PN.2. move: E; rewrite (fit_pythagoras b) -RplusE. lra.
Qed.
Lemma gls_ge0 b : (0 <= gls K F Y b)%Re.
Proof. exact: (posdef_semi (pos_inv PK)).2. Qed.
Lemma fit_sigma2_ge0 : (0 <= kr_sigma2 k)%Re.
Proof.
rewrite (fs_sigma2 H); apply: Rmult_le_pos; first exact: gls_ge0.
case: (posnP n) => [->|P]; last by apply: Rlt_le; apply: Rinv_0_lt_compat; apply: lt_0_INR; apply/ltP.
rewrite /= Rinv_0. exact: Rle_refl.
Qed.
(** interpolation *)
Lemma fit_interpolates : krig_mean k F K = Y.
Proof. by rewrite /krig_mean S (fs_gamma H) mulKVmx // addrC subrK. Qed.

(** the mean squared error *)
Lemma fit_mse m (f : 'M[R]_(m, p)) (knew : 'M[R]_(n, m)) :
  krig_mse k f knew = Ok (\col_j (kr_sigma2 k *
     (1 - (knew^T *m (invmx K *m knew)) j j +
      ((f^T - F^T *m (invmx K *m knew))^T *m (invmx (normal_mx K F) *m (f^T - F^T *m (invmx K *m knew)))) j j))).
Proof.
rewrite /krig_mse (chol_solve_ok _ S (fs_L H)) /= (fs_F H) (chol_solve_ok _ (normal_sym _ S) (fs_ld H)) /=. by [].
Qed.
(** one entry, as quadratic forms *)
Lemma fit_mse_entry m (f : 'M[R]_(m, p)) (knew : 'M[R]_(n, m)) mse j :
  krig_mse k f knew = Ok mse ->
  mse j 0 = kr_sigma2 k * (1 - qf (invmx K) (col j knew) +
            qf (invmx (normal_mx K F)) ((row j f)^T - F^T *m (invmx K *m col j knew))).
Proof.
have D q (A : 'M[R]_(q, m)) (B : 'M[R]_q) : (A^T *m (B *m A)) j j = qf B (col j A).
  rewrite /qf -mulmxA !mxE; apply: eq_bigr => i _; rewrite !mxE; congr (_ * _).
  by apply: eq_bigr => l _; rewrite !mxE.
rewrite fit_mse => -[<-]; rewrite mxE !D; congr (_ * (_ + qf _ _)).
apply/matrixP => i l; rewrite !mxE. congr (_ - _); rewrite ?mxE //. apply: eq_bigr => q _; rewrite !mxE; congr (_ * _).
by apply: eq_bigr => t _; rewrite !mxE.
Qed.
(** at the training points, when the cross kernel is K itself *)
Lemma fit_mse_train : krig_mse k F K = Ok (\col_j (kr_sigma2 k * (1 - K j j))).
Proof.
rewrite fit_mse mulVmx // !mulmx1 subrr mulmx0 mulmx0. congr Ok; apply/matrixP => i j.
by rewrite !mxE addr0.
Qed.
End Fit.

(** ** the kernel seen from a new point *)
Lemma cross_bound d n (w : 'rV[R]_d) (X : 'M[R]_(n, d)) (x : 'rV[R]_d) c : positive_params w -> (0 < c)%Re ->
  (qf (invmx (kpure w X X + c%:M)) (kpure w X x) <= 1)%Re.
Proof.
move=> Hw Hc. set Kp := kpure w X X; set kx := kpure w X x.
have PK : posdef (Kp + c%:M) by apply: semi_pos => //; exact: kpure_semi.
set K := Kp + c%:M in PK *. have U := pos_unit PK.
set a := invmx K *m kx.
have P := (kpure_semi (col_mx X x) Hw).2 (col_mx (- a) 1%:M : 'cV_(n + 1)).
have E : kpure w (col_mx X x) (col_mx X x) = block_mx Kp kx kx^T 1%:M.
  apply/matrixP => i j; rewrite mxE. case: (splitP i) => i' Hi; case: (splitP j) => j' Hj.
  - have -> : i = lshift 1 i' by apply: val_inj. have -> : j = lshift 1 j' by apply: val_inj.
    by rewrite block_mxEul !mxE !rowKu.
  - have -> : i = lshift 1 i' by apply: val_inj. have -> : j = rshift n j' by apply: val_inj.
    by rewrite block_mxEur !mxE rowKu rowKd.
  - have -> : i = rshift n i' by apply: val_inj. have -> : j = lshift 1 j' by apply: val_inj.
    by rewrite block_mxEdl !mxE rowKu rowKd wdist_sym.
  - have -> : i = rshift n i' by apply: val_inj. have -> : j = rshift n j' by apply: val_inj.
    rewrite block_mxEdr !mxE !rowKd !ord1 wdist_self eqxx. rewrite RoppE oppr0. exact: exp_0.
move: P; rewrite E /qf tr_col_mx mul_row_block mul_row_col trmx1 [(- a)^T]linearN /= !mul1mx !mulmx1.
have KA : K *m a = kx by rewrite /a mulKVmx.
have Ek : a^T *m kx = kx^T *m a by rewrite /a trmx_mul inv_sym ?PK.1 // mulmxA.
have -> : (- a^T *m Kp + kx^T) *m - a = kx^T *m (- a) + a^T *m Kp *m a by rewrite mulmxDl !mulNmx !mulmxN opprK addrC.
have -> : a^T *m Kp *m a = a^T *m kx - c *: (a^T *m a).
  have -> : Kp = K - c%:M by rewrite /K addrK. by rewrite mulmxBr mulmxBl -mulmxA KA mul_mx_scalar -scalemxAl.
have -> : (kx^T *m invmx K *m kx) 0 0 = (kx^T *m a) 0 0 by rewrite /a mulmxA.
have N : (0 <= (a^T *m a) 0%R 0%R)%Re by have := sq_sum_ge0 a; rewrite /qf mulmx1.
rewrite !mulmxN !mulNmx Ek !addE !oppE !scaleE [1%:M 0 0]mxE eqxx /= mulr1n. toR.
move: N; set q := (_ *m _) 0 0; set t := (_ *m _) 0 0. nra.
Qed.
