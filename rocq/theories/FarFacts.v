(** Limits far from all samples. *)
From Coq Require Import Reals Lra.
From mathcomp Require Import all_ssreflect all_algebra.
From Verif Require Import RStruct LinSpec LinAlgFacts KrigFacts BlupSpec BlupFacts FarSpec.
Set Implicit Arguments.
Unset Strict Implicit.
Unset Printing Implicit Defensive.
Import GRing.Theory.
Local Open Scope ring_scope.

Section Lim.
Variables (Q : Type) (far : R -> Q -> Prop).
Hypothesis mono : forall r r' q, (r <= r')%Re -> far r' q -> far r q.
Definition lim (u : Q -> R) (l : R) : Prop := forall e, (0 < e)%Re -> exists r, forall q, far r q -> (Rabs (u q - l) < e)%Re.

Lemma lim_ext u v l : (forall q, u q = v q) -> lim u l -> lim v l.
Proof. by move=> E H e He; have [r Hr] := H e He; exists r => q Hq; rewrite -E; exact: Hr. Qed.
Lemma lim_const a : lim (fun _ => a) a.
Proof. by move=> e He; exists 0 => q _; rewrite Rminus_diag_eq // Rabs_R0. Qed.
Lemma lim_both u l v k e : lim u l -> lim v k -> (0 < e)%Re -> exists r, forall q, far r q -> (Rabs (u q - l) < e)%Re /\ (Rabs (v q - k) < e)%Re.
Proof.
move=> Hu Hv He; have [r1 H1] := Hu e He; have [r2 H2] := Hv e He. exists (Rmax r1 r2) => q Hq; split.
  by apply: H1; apply: mono Hq; exact: Rmax_l.
by apply: H2; apply: mono Hq; exact: Rmax_r.
Qed.
Lemma lim_plus u l v k : lim u l -> lim v k -> lim (fun q => u q + v q)%Re (l + k)%Re.
Proof.
move=> Hu Hv e He; have [r Hr] := lim_both Hu Hv (Rlt_mult_inv_pos _ _ He Rlt_0_2). exists r => q /Hr [H1 H2].
have -> : (u q + v q - (l + k) = (u q - l) + (v q - k))%Re by ring.
apply: Rle_lt_trans; first exact: Rabs_triang. lra.
Qed.
Lemma lim_comp u l f : lim u l -> continuity_pt f l -> lim (fun q => f (u q)) (f l).
Proof.
move=> Hu Hf e He; have [a [Ha H]] := Hf e He. have [r Hr] := Hu a Ha. exists r => q /Hr Hq.
case: (Req_dec (u q) l) => [->|N]; first by rewrite Rminus_diag_eq // Rabs_R0.
apply: H; split; last exact: Hq. split; first by []. by move=> E; apply: N.
Qed.
Lemma lim_mult u l v k : lim u l -> lim v k -> lim (fun q => u q * v q)%Re (l * k)%Re.
Proof.
(* uv = ((u+v)^2 - (u-v)^2)/4 by continuity of the square *)
move=> Hu Hv.
have S w x : lim w x -> lim (fun q => Rsqr (w q)) (Rsqr x) by move=> H; apply: (@lim_comp w x Rsqr H); apply: derivable_continuous_pt; exact: derivable_pt_Rsqr.
have N w x a : lim w x -> lim (fun q => a * w q)%Re (a * x)%Re.
  move=> H; apply: (@lim_comp w x (fun y => (a * y)%Re) H). apply: derivable_continuous_pt. apply: derivable_pt_scal. exact: derivable_pt_id.
have H := lim_plus (N _ _ (/4)%Re (S _ _ (lim_plus Hu Hv))) (N _ _ (-/4)%Re (S _ _ (lim_plus Hu (N _ _ (-1)%Re Hv)))).
have -> : (l * k = / 4 * Rsqr (l + k) + - / 4 * Rsqr (l + -1 * k))%Re by rewrite /Rsqr; field.
apply: lim_ext H => q; rewrite /Rsqr; by field.
Qed.
Lemma lim_opp u l : lim u l -> lim (fun q => - u q)%Re (- l)%Re.
Proof. move=> H; have := lim_mult (lim_const (-1)%Re) H; rewrite (_ : (-1 * l = - l)%Re); last by ring. by apply: lim_ext => q; ring. Qed.
Lemma lim_minus u l v k : lim u l -> lim v k -> lim (fun q => u q - v q)%Re (l - k)%Re.
Proof. move=> Hu Hv; exact: (lim_plus Hu (lim_opp Hv)). Qed.
Lemma lim_sqrt u l : lim u l -> (0 <= l)%Re -> lim (fun q => sqrt (u q)) (sqrt l).
Proof. move=> H L; exact: lim_comp H (continuity_pt_sqrt _ L). Qed.
Lemma lim_max u l a : lim u l -> lim (fun q => Rmax (u q) a) (Rmax l a).
Proof.
move=> H e He; have [r Hr] := H e He; exists r => q /Hr Hq. apply: Rle_lt_trans Hq.
rewrite /Rmax; case: (Rle_dec (u q) a) => A; case: (Rle_dec l a) => B; rewrite /Rabs; repeat (case: Rcase_abs => ?); lra.
Qed.
Lemma lim_sum (I : Type) (s : seq I) (u : I -> Q -> R) l : (forall i, lim (u i) (l i)) -> lim (fun q => \sum_(i <- s) u i q) (\sum_(i <- s) l i).
Proof.
move=> H; elim: s => [|i s IH]; first by apply: (@lim_ext (fun _ => 0)) => [q|]; rewrite big_nil //; exact: lim_const.
rewrite big_cons; apply: (@lim_ext (fun q => u i q + \sum_(k <- s) u k q)%Re) => [q|]; first by rewrite big_cons.
exact: lim_plus.
Qed.

(** matrices *)
Definition limm a b (U : Q -> 'M[R]_(a, b)) (L : 'M[R]_(a, b)) : Prop := forall i j, lim (fun q => U q i j) (L i j).
Lemma limm_const a b (A : 'M[R]_(a, b)) : limm (fun _ => A) A.
Proof. move=> i j; exact: lim_const. Qed.
Lemma limm_add a b U (L : 'M[R]_(a, b)) V M : limm U L -> limm V M -> limm (fun q => U q + V q) (L + M).
Proof. move=> HU HV i j; rewrite mxE; apply: (@lim_ext (fun q => U q i j + V q i j)%Re) => [q|]; [by rewrite mxE|exact: lim_plus]. Qed.
Lemma limm_opp a b U (L : 'M[R]_(a, b)) : limm U L -> limm (fun q => - U q) (- L).
Proof. move=> HU i j; rewrite mxE; apply: (@lim_ext (fun q => - U q i j)%Re) => [q|]; [by rewrite mxE|exact: lim_opp]. Qed.
Lemma limm_sub a b U (L : 'M[R]_(a, b)) V M : limm U L -> limm V M -> limm (fun q => U q - V q) (L - M).
Proof. move=> HU HV; exact: (limm_add HU (limm_opp HV)). Qed.
Lemma limm_tr a b U (L : 'M[R]_(a, b)) : limm U L -> limm (fun q => (U q)^T) L^T.
Proof. move=> HU i j; rewrite mxE; apply: (@lim_ext (fun q => U q j i)) => [q|]; [by rewrite mxE|exact: HU]. Qed.
Lemma limm_scale a b U (L : 'M[R]_(a, b)) k : limm U L -> limm (fun q => k *: U q) (k *: L).
Proof. move=> HU i j; rewrite mxE; apply: (@lim_ext (fun q => k * U q i j)%Re) => [q|]; [by rewrite mxE|apply: lim_mult; [exact: lim_const|exact: HU]]. Qed.
Lemma limm_mul a b c U (L : 'M[R]_(a, b)) V (M : 'M[R]_(b, c)) : limm U L -> limm V M -> limm (fun q => U q *m V q) (L *m M).
Proof.
move=> HU HV i j; rewrite mxE; apply: (@lim_ext (fun q => \sum_k U q i k * V q k j)) => [q|]; first by rewrite mxE.
apply: lim_sum => k; exact: (lim_mult (HU i k) (HV k j)).
Qed.
Lemma limm_col_mx a a' b U (L : 'M[R]_(a, b)) V (M : 'M[R]_(a', b)) : limm U L -> limm V M -> limm (fun q => col_mx (U q) (V q)) (col_mx L M).
Proof.
move=> HU HV i j; rewrite mxE. apply: (@lim_ext (fun q => match fintype.split i with inl i1 => U q i1 j | inr i2 => V q i2 j end)) => [q|]; first by rewrite mxE.
by case: (fintype.split i).
Qed.

(** best linear unbiased predictions *)
Lemma lim_weights n p (K : 'M[R]_n) (F : 'M[R]_(n, p)) c c0 f f0 : limm c c0 -> limm f f0 ->
  limm (fun q => blup_w K F (c q) (f q)) (blup_w K F c0 f0).
Proof.
move=> Hc Hf; rewrite /blup_w /blup_r. apply: limm_mul; first exact: limm_const. apply: limm_add; first exact: Hc.
apply: limm_mul; first exact: limm_const. apply: limm_mul; first exact: limm_const.
apply: limm_sub; first exact: limm_tr. apply: limm_mul; first exact: limm_const.
by apply: limm_mul; first exact: limm_const.
Qed.
Lemma lim_error n v (K : 'M[R]_n) c c0 w w0 : limm c c0 -> limm w w0 -> lim (fun q => error_var v K (c q) (w q)) (error_var v K c0 w0).
Proof.
move=> Hc Hw; apply: lim_plus.
  apply: lim_minus; first exact: lim_const. apply: lim_mult; first exact: lim_const. apply: lim_sum => i; exact: lim_mult.
apply: (@limm_mul _ _ _ (fun q => (w q)^T *m K) (w0^T *m K) w w0) => //. apply: limm_mul; [exact: limm_tr|exact: limm_const].
Qed.
Lemma lim_combine n (Y : 'cV[R]_n) (w : Q -> 'cV[R]_n) (w0 : 'cV[R]_n) : limm w w0 -> lim (fun q => \sum_i Rmult (w q i 0) (Y i 0)) (\sum_i Rmult (w0 i 0) (Y i 0)).
Proof. by move=> Hw; apply: lim_sum => i; apply: lim_mult; [exact: Hw|exact: lim_const]. Qed.
End Lim.
