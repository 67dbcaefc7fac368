(** Proofs: the objectives of the hyper-parameter searches are likelihoods. *)
From Coq Require Import Reals Lra.
From Verif Require Import Fl.
From mathcomp Require Import all_ssreflect all_algebra.
From Verif Require Import RStruct LinAlg LinSpec LinAlgFacts Kernel KernelFacts Krig KrigFacts GP GPSpec GPFacts GPMain MF CoKrig MFFacts CoKrigMain LikSpec.
Set Implicit Arguments.
Unset Strict Implicit.
Unset Printing Implicit Defensive.
Import GRing.Theory.
Local Open Scope ring_scope.
Local Arguments chol : simpl never.

(** ** determinants *)
Lemma ln_prod n (a : 'I_n -> R) : (forall i, (0 < a i)%Re) -> (0 < \prod_i a i)%Re /\ ln (\prod_i a i) = \sum_i ln (a i).
Proof.
elim: n a => [|n IH] a H; first by rewrite !big_ord0 ln_1; split=> //; exact: Rlt_0_1.
rewrite !big_ord_recl; have [P E] := IH (fun i => a (lift ord0 i)) (fun i => H _).
split; first exact: Rmult_lt_0_compat. by rewrite -E ln_mult.
Qed.
Lemma chol_det n (K L : 'M[R]_n) : K^T = K -> chol K = Ok L -> (0 < \det K)%Re /\ sum_log_diag L = Rdiv (ln (\det K)) 2.
Proof.
move=> S E; have [F [_ [D T]]] := chol_ok S E; have [P EP] := ln_prod D.
have DL : \det L = \prod_i L i i by exact: det_trig.
have DK : \det K = Rmult (\prod_i L i i) (\prod_i L i i) by rewrite -F det_mulmx det_tr DL.
rewrite DK; split; first exact: Rmult_lt_0_compat. rewrite ln_mult // EP /sum_log_diag. toR. lra.
Qed.
Lemma det_pos n (K : 'M[R]_n) : posdef K -> (0 < \det K)%Re.
Proof. by move=> P; have [L E] := chol_pos P; case: (chol_det P.1 E). Qed.

Section Profile.
Variables (n p : nat) (K : 'M[R]_n) (F : 'M[R]_(n, p)) (Y : 'cV[R]_n) (k : krig n p).
Hypothesis (Hn : (0 < n)%N) (H : fit_spec K F Y k).
Let c := Rmult (Rdiv (INR n) 2) (ln (Rmult 2 PI)).

Lemma INRn : (0 < INR n)%Re. Proof. by apply: lt_0_INR; apply/ltP. Qed.
Lemma nllE s2 b : (0 < s2)%Re -> gauss_nll (s2 *: K) (F *m b) Y =
  Rplus (Rplus c (Rplus (Rmult (Rdiv (INR n) 2) (ln s2)) (sum_log_diag (kr_L k)))) (Rdiv (gls K F Y b) (Rmult 2 s2)).
Proof.
move=> s0; rewrite /gauss_nll -/c detZ invmxZ; last first.
  by rewrite unitmxZ; [exact: (pos_unit (fs_K H)) | apply/eqP => E; rewrite E in s0; exact: (Rlt_irrefl _ s0)].
have [D0 ->] := chol_det (fs_K H).1 (fs_L H).
have -> : ln (s2 ^+ n * \det K) = Rplus (Rmult (INR n) (ln s2)) (ln (\det K)).
  rewrite -powE; change (ln (Rmult (pow s2 n) (\det K)) = Rplus (Rmult (INR n) (ln s2)) (ln (\det K))).
  by rewrite ln_mult //; [rewrite ln_pow | exact: pow_lt].
rewrite qfZ -/(gls K F Y b).
have -> : s2^-1 * gls K F Y b = Rdiv (gls K F Y b) s2.
  rewrite /Rdiv Rmult_comm RmultE. congr (_ * _).
  apply: (@mulfI _ s2); first by apply/eqP => E; rewrite E in s0; exact: (Rlt_irrefl _ s0).
  rewrite mulfV; last by apply/eqP => E; rewrite E in s0; exact: (Rlt_irrefl _ s0).
  toR. field. lra.
field. lra.
Qed.
Lemma gls_fit : gls K F Y (kr_beta k) = Rmult (INR n) (kr_sigma2 k).
Proof. rewrite (fs_sigma2 H); have := INRn => *; field; lra. Qed.
Lemma span_sigma2 : ~ in_span F Y -> (0 < kr_sigma2 k)%Re.
Proof.
move=> NS; have := INRn => n0. rewrite (fs_sigma2 H); apply: Rdiv_lt_0_compat => //.
apply: (pos_inv (fs_K H)).2; apply/eqP => E; apply: NS; exists (kr_beta k). by apply/eqP; rewrite -subr_eq0 E.
Qed.
Lemma ln_tangent x : (0 < x)%Re -> (ln x <= x - 1)%Re.
Proof. move=> x0; have := exp_ineq1_le (ln x). rewrite exp_ln //. lra. Qed.
Lemma ln_tangent_eq x : (0 < x)%Re -> ln x = Rminus x 1 -> x = R1.
Proof.
move=> x0 E; case: (Req_dec (ln x) 0) => [Z|N]; first by move: E; rewrite Z; lra.
have := exp_ineq1 _ N. rewrite exp_ln //. lra.
Qed.

(** the fitted coefficients and variance maximise the likelihood *)
Definition profile : R := Rplus (Rmult (Rdiv (INR n) 2) (ln (kr_sigma2 k))) (sum_log_diag (kr_L k)).
Lemma mle_value : (0 < kr_sigma2 k)%Re ->
  gauss_nll (kr_sigma2 k *: K) (F *m kr_beta k) Y = Rplus profile (Rmult (Rdiv (INR n) 2) (Rplus 1 (ln (Rmult 2 PI)))).
Proof. move=> s0; rewrite (nllE _ s0) gls_fit /profile /c. field. lra. Qed.
Lemma mle_minimal s2 b : (0 < kr_sigma2 k)%Re -> (0 < s2)%Re ->
  (gauss_nll (kr_sigma2 k *: K) (F *m kr_beta k) Y <= gauss_nll (s2 *: K) (F *m b) Y)%Re /\
  (gauss_nll (s2 *: K) (F *m b) Y = gauss_nll (kr_sigma2 k *: K) (F *m kr_beta k) Y -> s2 = kr_sigma2 k /\ b = kr_beta k).
Proof.
move=> k0 s0; rewrite (nllE _ k0) (nllE _ s0) gls_fit.
have G := fit_minimal H b; have U := fit_unique H (b := b); rewrite gls_fit in G U.
have n0 := INRn. set s := kr_sigma2 k in k0 G U *. set g := gls K F Y b in G U *. set N := INR n in n0 G U *.
have r0 : (0 < s / s2)%Re by exact: Rdiv_lt_0_compat.
have T := ln_tangent r0; have TE := ln_tangent_eq r0.
have LE : ln (Rdiv s s2) = Rminus (ln s) (ln s2) by rewrite /Rdiv ln_mult ?ln_Rinv //; exact: Rinv_0_lt_compat.
rewrite LE in T TE.
have D1 : (N * s / (2 * s) = N / 2)%Re by field; lra.
have D2 : (g / (2 * s2) = N / 2 * (s / s2) + (g - N * s) / (2 * s2))%Re by field; lra.
have D3 : (0 <= (g - N * s) / (2 * s2))%Re.
  apply: Rmult_le_pos; [lra | apply: Rlt_le; apply: Rinv_0_lt_compat; lra].
have P : (N / 2 * (ln s - ln s2) <= N / 2 * (s / s2 - 1))%Re by apply: Rmult_le_compat_l; lra.
rewrite D1 D2; split; first lra.
move=> E.
have E1 : (N / 2 * (ln s - ln s2) = N / 2 * (s / s2 - 1))%Re by lra.
have E2 : ((g - N * s) / (2 * s2) = 0)%Re by lra.
have Q : (ln s - ln s2 = s / s2 - 1)%Re by apply: (Rmult_eq_reg_l (N / 2)%Re); lra.
have Q1 := TE Q. have Q2 : s2 = s by apply: (Rmult_eq_reg_r (/ s2)%Re); [rewrite Rinv_r; [rewrite -/(Rdiv s s2) Q1 |]; lra | apply: Rinv_neq_0_compat; lra].
split=> //; apply: U. have Z : (g - N * s = (g - N * s) / (2 * s2) * (2 * s2))%Re by field; lra.
rewrite E2 in Z. lra.
Qed.
(** with the variance fixed at 1 *)
Definition unit_value : R := Rplus (Rmult (Rdiv (INR n) 2) (kr_sigma2 k)) (sum_log_diag (kr_L k)).
Lemma unit_nll b : gauss_nll K (F *m b) Y = Rplus (Rplus c (sum_log_diag (kr_L k))) (Rdiv (gls K F Y b) 2).
Proof. by rewrite /gauss_nll -/c; have [_ ->] := chol_det (fs_K H).1 (fs_L H). Qed.
Lemma unit_fit : gauss_nll K (F *m kr_beta k) Y = Rplus unit_value c.
Proof. rewrite unit_nll gls_fit /unit_value. toR. field. Qed.
Lemma unit_minimal b : (gauss_nll K (F *m kr_beta k) Y <= gauss_nll K (F *m b) Y)%Re /\
  (gauss_nll K (F *m b) Y = gauss_nll K (F *m kr_beta k) Y -> b = kr_beta k).
Proof.
rewrite !unit_nll; have G := fit_minimal H b; have U := fit_unique H (b := b); split; first lra. move=> E; apply: U; lra.
Qed.
End Profile.
