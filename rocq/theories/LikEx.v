(** Proofs: with a learned noise the search does not rank parameters by the likelihood of the model they give. *)
From Coq Require Import Reals Lra.
From Interval Require Import Tactic.
From Verif Require Import Fl.
From mathcomp Require Import all_ssreflect all_algebra.
From Verif Require Import RStruct LinAlg LinSpec LinAlgFacts Kernel KernelFacts Krig KrigFacts GP GPSpec GPFacts GPMain MF MFMain CoKrig CoKrigMain MFUnits LikSpec LikFacts LikMain.
Set Implicit Arguments.
Unset Strict Implicit.
Unset Printing Implicit Defensive.
Import GRing.Theory.
Local Open Scope ring_scope.
Local Arguments chol : simpl never.

Section Two.
Variables (K : 'M[R]_2) (a r : R) (k : krig 2 1).
Hypothesis (A0 : K 0 0 = a) (A1 : K 1 0 = r) (A2 : K 1 1 = a) (Har : (0 < a - r)%Re).
Hypothesis Hf : fit_spec K (regr_matrix (@Ordinary 1) cu_X) cu_Y k.

Lemma two_eigen : K *m cu_Y = Rminus a r *: cu_Y.
Proof.
have S i j : K i j = K j i by rewrite -{1}(fs_K Hf).1 mxE.
have L1 : lift ord0 ord0 = 1 :> 'I_2 by exact: val_inj.
apply/matrixP => i j; rewrite [j]ord1 scaleE mxE !big_ord_recl big_ord0 addr0 L1.
have -> : cu_Y ord0 0 = (-1)%Re by rewrite mxE.
have -> : cu_Y 1 0 = 1%Re by rewrite mxE.
have O : i = 0 \/ i = 1.
  by case: i => -[|[|//]] p; [left|right]; exact: val_inj.
case: O => ->; rewrite ?A0 ?A1 ?A2 ?[K 0 1]S ?A1 !mxE /=; toR; rewrite ?A0 ?A1 ?A2; ring.
Qed.
Lemma two_inv : invmx K *m cu_Y = Rinv (Rminus a r) *: cu_Y.
Proof.
have U := pos_unit (fs_K Hf); apply: (can_inj (mulKmx U)); rewrite mulKVmx // -scalemxAr two_eigen scalerA.
have -> : Rinv (Rminus a r) * Rminus a r = 1 by toR; field; lra. by rewrite scale1r.
Qed.
Lemma two_beta : kr_beta k = 0.
Proof.
rewrite (fs_beta Hf) two_inv -scalemxAr.
have -> : (regr_matrix (@Ordinary 1) cu_X)^T *m cu_Y = 0.
  apply: mx11_eq; rewrite !mxE !big_ord_recl big_ord0 !mxE /=; toR; ring.
by rewrite scaler0 mulmx0.
Qed.
Lemma two_sigma2 : kr_sigma2 k = Rinv (Rminus a r).
Proof.
rewrite (fs_sigma2 Hf) /gls two_beta mulmx0 subr0 /qf -mulmxA two_inv -scalemxAr scaleE.
have -> : (cu_Y^T *m cu_Y) 0 0 = 2%Re by rewrite !mxE !big_ord_recl big_ord0 !mxE /=; toR; ring.
rewrite -RmultE /=; field; lra.
Qed.
Lemma two_logdet : (0 < a)%Re -> (r * r < a * a)%Re -> sum_log_diag (kr_L k) = Rdiv (ln (Rminus (Rmult a a) (Rmult r r))) 2.
Proof.
move=> a0 H; have [p0 q0 E0 E1] := factor2 (fs_K Hf).1 (fs_L Hf) A0 A1 A2.
have P : Rminus (Rmult a a) (Rmult r r) = Rmult (Rmult (kr_L k 0 0) (kr_L k 0 0)) (Rmult (kr_L k 1 1) (kr_L k 1 1)) by rewrite E0 E1.
rewrite P !ln_mult //; try exact: Rmult_lt_0_compat.
rewrite /sum_log_diag !big_ord_recl big_ord0 addr0 (_ : lift ord0 ord0 = 1); last exact: val_inj.
rewrite -RplusE; set x := ln _; set y := ln (_ 1 1); field.
Qed.
End Two.

(** correlations of the two points 0 and 1 *)
Lemma corr_two c (K := corr_mx (0 : 'rV[R]_1) cu_X c) : [/\ K 0 0 = Rplus 1 c, K 1 0 = exp (-(1)) & K 1 1 = Rplus 1 c].
Proof.
have D i j : wdist (\row_k Rpower 10 ((0 : 'rV[R]_1) 0 k)) (row i cu_X) (row j cu_X) = Rmult (Rminus (cu_X i 0) (cu_X j 0)) (Rminus (cu_X i 0) (cu_X j 0)).
  rewrite /wdist big_ord_recl big_ord0 addr0 !mxE Rpower_O; last lra. by rewrite mul1r expr2.
rewrite /K /corr_mx; split; rewrite addE mxE D /cu_X !mxE /=.
- by rewrite Rminus_0_r Rmult_0_l Ropp_0 exp_0 mulr1n.
- rewrite mulr0n addr0; congr exp; ring.
- by rewrite Rminus_diag_eq // Rmult_0_l Ropp_0 exp_0 mulr1n.
Qed.
Lemma two_objective sg (a := Rplus 1 (Rplus jitter (Rmult sg sg))) (r := exp (-(1))) :
  exists k : krig 2 1, fit_spec (corr_mx (0 : 'rV[R]_1) cu_X (Rplus jitter (Rmult sg sg))) (regr_matrix (@Ordinary 1) cu_X) cu_Y k /\
    loglik (@Ordinary 1) None cu_X cu_Y 1 (rbf_new 0) (Hyper 0 sg) = Ok (Rplus (Rinv (Rminus a r)) (Rdiv (ln (Rminus (Rmult a a) (Rmult r r))) 2)) /\
    (0 < kr_sigma2 k)%Re /\
    profile k = Rplus (ln (Rinv (Rminus a r))) (Rdiv (ln (Rminus (Rmult a a) (Rmult r r))) 2).
Proof.
have [v E] := loglik_ok None cu_Y 1 (rbf_new 0) (Hyper 0 sg) (@ordinary_full 1 2 cu_X isT).
have [k [Hf Ev]] := loglik_inv E; exists k; split; first exact: Hf.
have [A0 A1 A2] := corr_two (Rplus jitter (Rmult sg sg)).
have J := jitter_pos; have X1 := exp_pos (-(1)); have X2 : (exp (-(1)) < 1)%Re by rewrite -{2}exp_0; apply: exp_increasing; lra.
have Q : (0 <= sg * sg)%Re by exact: Rle_0_sqr.
have Har : (0 < a - r)%Re by rewrite /a /r; lra.
have a0 : (0 < a)%Re by rewrite /a; lra.
have H2 : (r * r < a * a)%Re by rewrite /a /r in Har a0 *; nra.
have Es := two_sigma2 A0 A1 A2 Har Hf. have El := two_logdet A0 A1 A2 Hf a0 H2. rewrite -/a -/r in Es El.
split; first by rewrite E Ev /objective_of Es El /=; congr Ok; field; lra.
split; first by rewrite Es; exact: Rinv_0_lt_compat.
rewrite /profile Es El /=. field.
Qed.
Lemma ranking_differs : exists h1 h2 v1 v2,
  loglik (@Ordinary 1) None cu_X cu_Y 1 (rbf_new 0) h1 = Ok v1 /\ loglik (@Ordinary 1) None cu_X cu_Y 1 (rbf_new 0) h2 = Ok v2 /\ (v1 < v2)%Re /\
  let K h := corr_mx (h_theta h) cu_X (Rplus (Rinv (pow 10 10)) (Rmult (h_sigma h) (h_sigma h))) in
  let F := regr_matrix (@Ordinary 1) cu_X in
  exists s2 b, (0 < s2)%Re /\ forall s2' b', (0 < s2')%Re -> (gauss_nll (s2 *: K h2) (F *m b) cu_Y < gauss_nll (s2' *: K h1) (F *m b') cu_Y)%Re.
Proof.
have [k1 [Hf1 [E1 [P1 V1]]]] := two_objective 0. have [k2 [Hf2 [E2 [P2 V2]]]] := two_objective 3.
exists (Hyper 0 0%Re), (Hyper 0 3%Re); do 2 eexists; split; first exact: E1. split; first exact: E2.
split; first by rewrite /jitter; interval with (i_prec 60).
move=> K F; exists (kr_sigma2 k2), (kr_beta k2); split=> // s2' b' H0.
apply: Rlt_le_trans (proj1 (mle_minimal (n := 2) isT Hf1 b' P1 H0)).
rewrite (mle_value (n := 2) isT Hf1 P1) (mle_value (n := 2) isT Hf2 P2) V1 V2 /jitter; apply: Rplus_lt_compat_r.
interval with (i_prec 60).
Qed.
Lemma ranking_refuted : exists (X : 'M[R]_(2, 1)) (Y : 'cV[R]_2) h1 h2 v1 v2,
  normalize_output Y = Y /\ stdev Y = 1%Re /\
  loglik (@Ordinary 1) None X Y 1 (rbf_new 0) h1 = Ok v1 /\ loglik (@Ordinary 1) None X Y 1 (rbf_new 0) h2 = Ok v2 /\ (v1 < v2)%Re /\
  let K h := corr_mx (h_theta h) X (Rplus (Rinv (pow 10 10)) (Rmult (h_sigma h) (h_sigma h))) in
  let F := regr_matrix (@Ordinary 1) X in
  exists s2 b, (0 < s2)%Re /\ forall s2' b', (0 < s2')%Re -> (gauss_nll (s2 *: K h2) (F *m b) Y < gauss_nll (s2' *: K h1) (F *m b') Y)%Re.
Proof.
have [h1 [h2 [v1 [v2 H]]]] := ranking_differs; exists cu_X, cu_Y, h1, h2, v1, v2.
split; first exact: cu_norm. split; first exact: cu_stdev. exact: H.
Qed.
