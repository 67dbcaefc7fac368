(** Proofs about best linear unbiased prediction. *)
From Coq Require Import Reals Lra.
From Verif Require Import Fl.
From mathcomp Require Import all_ssreflect all_algebra.
From Verif Require Import RStruct LinAlg LinSpec LinAlgFacts Kernel KernelFacts Krig KrigFacts BlupSpec.
Set Implicit Arguments.
Unset Strict Implicit.
Unset Printing Implicit Defensive.
Import GRing.Theory.
Local Open Scope ring_scope.

Lemma sum_dot n (w c : 'cV[R]_n) : \sum_i Rmult (w i 0) (c i 0) = (w^T *m c) 0 0.
Proof. by rewrite mxE; apply: eq_bigr => i _; rewrite mxE. Qed.
Lemma dotC n (w c : 'cV[R]_n) : (w^T *m c) 0 0 = (c^T *m w) 0 0.
Proof. by rewrite -[in LHS](trmxK c) -trmx_mul trE. Qed.

Section Blup.
Variables (n p : nat) (K : 'M[R]_n) (F : 'M[R]_(n, p)) (c : 'cV[R]_n) (f : 'rV[R]_p) (v : R).
Hypotheses (PK : posdef K) (PN : posdef (normal_mx K F)).
Let UK := pos_unit PK.
Let UN := pos_unit PN.
Definition blup_r : 'cV[R]_p := f^T - F^T *m (invmx K *m c).
Definition blup_w : 'cV[R]_n := invmx K *m (c + F *m (invmx (normal_mx K F) *m blup_r)).

Lemma blup_K : K *m blup_w = c + F *m (invmx (normal_mx K F) *m blup_r).
Proof. by rewrite mulKVmx. Qed.
Lemma blup_tF : F^T *m blup_w = f^T.
Proof.
rewrite /blup_w mulmxDr mulmxDr.
have -> : F^T *m (invmx K *m (F *m (invmx (normal_mx K F) *m blup_r))) = normal_mx K F *m (invmx (normal_mx K F) *m blup_r).
  by rewrite /normal_mx !mulmxA.
by rewrite mulKVmx // /blup_r addrC subrK.
Qed.
Lemma blup_unbiased : unbiased F f blup_w.
Proof. by apply: trmx_inj; rewrite trmx_mul trmxK blup_tF. Qed.
Lemma blup_error w : unbiased F f w -> error_var v K c w = Rplus (error_var v K c blup_w) (qf K (w - blup_w)).
Proof.
move=> U; rewrite /error_var !sum_dot. set h := w - blup_w.
have Eh : w = blup_w + h by rewrite addrC subrK.
have HF : h^T *m F = 0 by rewrite /h [(_ - _)^T]linearB /= mulmxBl U blup_unbiased subrr.
rewrite {1 2}Eh (qf_sum _ _ PK.1) [(blup_w + h)^T]linearD /= mulmxDl addE.
have -> : (h^T *m K *m blup_w) 0 0 = (h^T *m c) 0 0.
  by rewrite -mulmxA blup_K mulmxDr [h^T *m (F *m _)]mulmxA HF mul0mx addr0.
toR. ring.
Qed.
Lemma blup_best : best_weights v K F c f blup_w.
Proof.
split; first exact: blup_unbiased. move=> w U; rewrite (blup_error U). split.
  have := (posdef_semi PK).2 (w - blup_w). lra.
move=> E; apply/eqP; rewrite -subr_eq0; apply/negPn/negP => /PK.2. lra.
Qed.
Lemma best_is w : best_weights v K F c f w -> w = blup_w.
Proof.
case=> U H; have [H1 _] := H _ blup_unbiased; have [H2 H3] := blup_best.2 _ U. apply: H3.
by apply: Rle_antisym.
Qed.
(** the value of the minimum *)
Lemma blup_value : error_var v K c blup_w = Rplus (Rminus v 1) (blup_var K F c f).
Proof.
rewrite /error_var sum_dot /blup_var /qf -/(normal_mx K F) -/blup_r.
have -> : (blup_w^T *m K *m blup_w) 0 0 = Rplus ((blup_w^T *m c) 0 0) ((f *m (invmx (normal_mx K F) *m blup_r)) 0 0).
  by rewrite -mulmxA blup_K mulmxDr addE [blup_w^T *m (F *m _)]mulmxA blup_unbiased.
have -> : (blup_w^T *m c) 0 0 = Rplus ((c^T *m invmx K *m c) 0 0) ((c^T *m (invmx K *m (F *m (invmx (normal_mx K F) *m blup_r)))) 0 0).
  by rewrite dotC /blup_w mulmxDr mulmxDr addE !mulmxA.
have -> : (f *m (invmx (normal_mx K F) *m blup_r)) 0 0 =
  Rplus ((blup_r^T *m invmx (normal_mx K F) *m blup_r) 0 0) ((c^T *m (invmx K *m (F *m (invmx (normal_mx K F) *m blup_r)))) 0 0).
  rewrite -[f](trmxK f) -[f^T](subrK (F^T *m (invmx K *m c))) -/blup_r [(_ + _)^T]linearD /= mulmxDl addE.
  by rewrite -!mulmxA !trmx_mul trmxK (inv_sym PK.1) -!mulmxA.
toR. ring.
Qed.
(** the predictor *)
Lemma blup_predicts (Y : 'cV[R]_n) b : b = invmx (normal_mx K F) *m (F^T *m (invmx K *m Y)) ->
  (blup_w^T *m Y) 0 0 = blup_mean K F Y b c f.
Proof.
move=> ->; rewrite /blup_mean. set b' := _ *m (F^T *m _).
rewrite dotC /blup_w mulmxDr mulmxDr addE.
have -> : (Y^T *m (invmx K *m (F *m (invmx (normal_mx K F) *m blup_r)))) 0 0 = (blup_r^T *m b') 0 0.
  by rewrite dotC !trmx_mul (inv_sym PK.1) (inv_sym (normal_sym _ PK.1)) /b' !mulmxA.
rewrite /blup_r [(_ - _)^T]linearB /= mulmxBl trmxK !trmx_mul trmxK (inv_sym PK.1) !mulmxBr !addE !oppE.
rewrite -[Y^T *m (_ *m c)]trmxK trE !trmx_mul trmxK (inv_sym PK.1) !mulmxA. by rewrite addrCA.
Qed.
End Blup.

(** ** more data *)
Lemma error_pad n m v (K : 'M[R]_n) (B : 'M[R]_(n, m)) (C : 'M[R]_(m, n)) (D : 'M[R]_m) (c w : 'cV[R]_n) (c2 : 'cV[R]_m) :
  error_var v (block_mx K B C D) (col_mx c c2) (col_mx w 0) = error_var v K c w.
Proof.
rewrite /error_var !sum_dot /qf tr_col_mx mul_row_block mul_row_col mul_row_col !trmx0 !mul0mx !mulmx0 !addr0. by [].
Qed.
Lemma unbiased_pad n m p (F : 'M[R]_(n, p)) (F2 : 'M[R]_(m, p)) f w : unbiased F f w -> unbiased (col_mx F F2) f (col_mx w 0).
Proof. by rewrite /unbiased tr_col_mx mul_row_col trmx0 mul0mx addr0. Qed.
Lemma best_more n m p v (K : 'M[R]_n) (B : 'M[R]_(n, m)) C (D : 'M[R]_m) (F : 'M[R]_(n, p)) F2 c c2 f w w' :
  best_weights v K F c f w -> best_weights v (block_mx K B C D) (col_mx F F2) (col_mx c c2) f w' ->
  (error_var v (block_mx K B C D) (col_mx c c2) w' <= error_var v K c w)%Re.
Proof. case=> U _ [_ H]; have [H1 _] := H _ (unbiased_pad F2 U). by rewrite error_pad in H1. Qed.

(** ** the equations of the fit *)
Lemma saddle n p (K : 'M[R]_n) (F : 'M[R]_(n, p)) Y k : fit_spec K F Y k ->
  K *m kr_gamma k + F *m kr_beta k = Y /\ F^T *m kr_gamma k = 0.
Proof.
move=> H; split; last exact: (fit_normal H).
by rewrite (fs_gamma H) mulKVmx ?subrK // (pos_unit (fs_K H)).
Qed.
Lemma saddle_unique n p (K : 'M[R]_n) (F : 'M[R]_(n, p)) (g g' : 'cV[R]_n) (b b' : 'cV[R]_p) : posdef K -> posdef (normal_mx K F) ->
  K *m g + F *m b = K *m g' + F *m b' -> F^T *m g = 0 -> F^T *m g' = 0 -> g = g' /\ b = b'.
Proof.
move=> PK PN E Z Z'. have UK := pos_unit PK.
have D : K *m (g - g') = F *m (b' - b).
  by rewrite !mulmxBr; apply/eqP; rewrite subr_eq addrAC -subr_eq opprK; apply/eqP; rewrite E addrC.
have Eg : g - g' = invmx K *m (F *m (b' - b)) by rewrite -D mulKmx.
have Eb : b' - b = 0.
  apply: (pos_ker PN). rewrite /normal_mx -!mulmxA -Eg mulmxBr Z Z' subrr. by [].
have Eb' : b' = b by apply/eqP; rewrite -subr_eq0 Eb.
split=> //. by apply/eqP; rewrite -subr_eq0 Eg Eb !mulmx0.
Qed.
