(** Quadratic forms of a factored matrix and vectors that nearly solve linear systems, in the reals. *)
From Coq Require Import Reals Lra Lia Psatz.
From Flocq Require Import Core.
From Verif Require Import RSum.
Local Open Scope R_scope.

Lemma rs_cs n f g : rs n (fun k => f k * g k) * rs n (fun k => f k * g k) <= rs n (fun k => f k * f k) * rs n (fun k => g k * g k).
Proof.
  induction n as [|n IH]; [cbn; lra|]. cbn [rs]. set (c := rs n (fun k => f k * g k)) in *.
  assert (A : 0 <= rs n (fun k => f k * f k)) by (apply rs_ge0; intros; nra). assert (B : 0 <= rs n (fun k => g k * g k)) by (apply rs_ge0; intros; nra).
  set (a := rs n (fun k => f k * f k)) in *. set (b := rs n (fun k => g k * g k)) in *. set (u := f n). set (v := g n).
  assert (H : 2 * (c * u * v) <= a * (v * v) + b * (u * u)).
  { assert (P : 0 <= a * (v * v) + b * (u * u)) by (apply Rplus_le_le_0_compat; apply Rmult_le_pos; nra).
    apply Rsqr_incr_0_var; [|exact P]. unfold Rsqr.
    assert (Q : (c * c) * ((u * v) * (u * v)) <= (a * b) * ((u * v) * (u * v))) by (apply Rmult_le_compat_r; [apply Rle_0_sqr|exact IH]).
    pose proof (Rle_0_sqr (a * (v * v) - b * (u * u))) as Z. unfold Rsqr in Z. lra. }
  lra.
Qed.
Definition l1 (n : nat) (x : nat -> R) : R := rs n (fun k => Rabs (x k)).
Lemma l1_ge0 n x : 0 <= l1 n x. Proof. apply rs_ge0. intros. apply Rabs_pos. Qed.
Lemma l1_sq n x : l1 n x * l1 n x <= INR n * norm2 n x.
Proof.
  pose proof (rs_cs n (fun k => Rabs (x k)) (fun _ => 1)) as H. cbv beta in H. rewrite rs_const in H.
  rewrite (rs_ext n (fun k => Rabs (x k) * 1) (fun k => Rabs (x k))) in H by (intros; ring).
  rewrite (rs_ext n (fun k => Rabs (x k) * Rabs (x k)) (fun k => x k * x k)) in H by (intros k _; rewrite <- Rabs_mult; apply Rabs_pos_eq; nra).
  unfold l1, norm2. lra.
Qed.
Lemma rs_weigh n x y c : (forall k, (k < n)%nat -> Rabs (y k) <= c) -> Rabs (rs n (fun k => x k * y k)) <= l1 n x * c.
Proof.
  intros H. eapply Rle_trans; [apply rs_abs|]. unfold l1. rewrite Rmult_comm, <- rs_scal. apply rs_le. intros k Hk. rewrite Rabs_mult, (Rmult_comm c).
  apply Rmult_le_compat_l; [apply Rabs_pos|now apply H].
Qed.

Section Energy.
Variables (n : nat) (L : nat -> nat -> R).
Definition hh (i j : nat) : R := rs n (fun k => L i k * L j k).
Definition act (x : nat -> R) (i : nat) : R := rs n (fun j => hh i j * x j).
Definition en (x y : nat -> R) : R := rs n (fun i => x i * act y i).
Lemma hh_sym i j : hh i j = hh j i. Proof. apply rs_ext. intros; ring. Qed.
Lemma en_factor x y : en x y = rs n (fun k => rs n (fun i => L i k * x i) * rs n (fun j => L j k * y j)).
Proof.
  unfold en, act, hh.
  transitivity (rs n (fun i => rs n (fun k => (L i k * x i) * rs n (fun j => L j k * y j)))).
  - apply rs_ext. intros i _. rewrite <- rs_scal.
    transitivity (rs n (fun j => rs n (fun k => L i k * x i * (L j k * y j)))).
    + apply rs_ext. intros j _. rewrite Rmult_comm, Rmult_assoc, Rmult_comm, <- rs_scal. apply rs_ext. intros; ring.
    + rewrite rs_swap. apply rs_ext. intros k _. rewrite <- rs_scal. reflexivity.
  - rewrite rs_swap. apply rs_ext. intros k _. rewrite Rmult_comm, <- rs_scal. apply rs_ext. intros; ring.
Qed.
Lemma en_cs x y : en x y * en x y <= en x x * en y y.
Proof. rewrite !en_factor. apply rs_cs. Qed.
Lemma en_sym x y : en x y = en y x. Proof. rewrite !en_factor. apply rs_ext. intros; ring. Qed.
Lemma en_ge0 x : 0 <= en x x. Proof. rewrite en_factor. apply rs_ge0. intros; nra. Qed.
Lemma en_quad x : quad n hh x = en x x.
Proof. unfold quad, en, act. apply rs_ext. intros i _. rewrite <- rs_scal. apply rs_ext. intros; ring. Qed.

Variables (lam c0 ca t : R).
Hypotheses (lam0 : 0 < lam <= / 10000000000) (N1 : 1 <= INR n) (Low : forall x, lam * norm2 n x <= en x x) (C0 : 0 <= c0) (T0 : 0 <= t) (CA : c0 + t <= ca) (NC : INR n * ca <= 0.2 * lam) (NT : INR n * t <= 0.0001 * lam).
Lemma l1_en x : lam * (l1 n x * l1 n x) <= INR n * en x x.
Proof.
  pose proof (l1_sq n x) as H. pose proof (Low x) as Q. apply Rle_trans with (lam * (INR n * norm2 n x)); [apply Rmult_le_compat_l; lra|].
  replace (lam * (INR n * norm2 n x)) with (INR n * (lam * norm2 n x)) by ring. apply Rmult_le_compat_l; lra.
Qed.
Lemma ca_small : ca <= 0.2 * lam.
Proof. nra. Qed.
(** a vector with small image is small *)
Lemma small_vector e : (forall i, (i < n)%nat -> Rabs (act e i) <= ca + c0 * l1 n e) -> l1 n e <= 0.25 /\ en e e <= 0.32 * ca.
Proof.
  intros H. pose proof (l1_en e) as Q. pose proof (l1_ge0 n e) as S0. set (s := l1 n e) in *.
  assert (B : en e e <= s * (ca + c0 * s)). { eapply Rle_trans; [apply Rle_abs|]. exact (rs_weigh n e (act e) _ H). }
  assert (A1 : INR n * c0 <= 0.2 * lam) by nra.
  assert (K : lam * (s * s) <= 0.2 * lam * s + 0.2 * lam * (s * s)).
  { apply Rle_trans with (1 := Q). apply Rle_trans with (INR n * (s * (ca + c0 * s))); [apply Rmult_le_compat_l; lra|].
    replace (INR n * (s * (ca + c0 * s))) with (INR n * ca * s + INR n * c0 * (s * s)) by ring. apply Rplus_le_compat; apply Rmult_le_compat_r; nra. }
  assert (S1 : s <= 0.25).
  { destruct (Rle_lt_dec s 0.25) as [h|h]; [exact h|]. exfalso. assert (P : 0 < lam * s) by (apply Rmult_lt_0_compat; lra). assert (lam * s * 0.25 < lam * s * s) by (apply Rmult_lt_compat_l; lra). lra. }
  split; [exact S1|]. apply Rle_trans with (1 := B). assert (c0 * s <= ca * 0.25) by (apply Rmult_le_compat; lra).
  assert (s * (ca + c0 * s) <= 0.25 * (ca + ca * 0.25)) by (apply Rmult_le_compat; try lra; apply Rplus_le_le_0_compat; [lra|apply Rmult_le_pos; lra]). lra.
Qed.
(** a vector whose image is nearly constant *)
Section Trend.
Variable x : nat -> R.
Hypotheses (H1 : forall i j, (i < n)%nat -> (j < n)%nat -> hh i j <= 1.01) (HX : forall i, (i < n)%nat -> Rabs (act x i - 1) <= c0 * l1 n x + t).
Local Notation w := (l1 n x).
Local Notation q := (en x x).
Lemma c0w : c0 * (w * w) <= 0.2 * q.
Proof.
  pose proof (l1_en x) as Q. pose proof (en_ge0 x) as Q0. apply (Rmult_le_reg_l lam); [lra|]. apply Rle_trans with (c0 * (INR n * q)).
  - replace (lam * (c0 * (w * w))) with (c0 * (lam * (w * w))) by ring. apply Rmult_le_compat_l; lra.
  - replace (c0 * (INR n * q)) with (INR n * c0 * q) by ring. replace (lam * (0.2 * q)) with (0.2 * lam * q) by ring. apply Rmult_le_compat_r; [exact Q0|]. nra.
Qed.
Lemma tw : t * w <= t + 0.0001 * q.
Proof.
  pose proof (l1_en x) as Q. pose proof (en_ge0 x) as Q0. pose proof (l1_ge0 n x) as W0.
  assert (A : t * (w * w) <= 0.0001 * q).
  { apply (Rmult_le_reg_l lam); [lra|]. apply Rle_trans with (t * (INR n * q)).
    - replace (lam * (t * (w * w))) with (t * (lam * (w * w))) by ring. apply Rmult_le_compat_l; lra.
    - replace (t * (INR n * q)) with (INR n * t * q) by ring. replace (lam * (0.0001 * q)) with (0.0001 * lam * q) by ring. apply Rmult_le_compat_r; [exact Q0|exact NT]. }
  assert (B : w <= 1 + w * w) by nra. assert (t * w <= t * (1 + w * w)) by (apply Rmult_le_compat_l; lra). lra.
Qed.
Lemma trend_sum : Rabs (q - rs n x) <= 0.2001 * q + t.
Proof.
  assert (E : q - rs n x = rs n (fun i => x i * (act x i - 1))). { unfold en. rewrite <- rs_minus. apply rs_ext. intros; ring. }
  rewrite E. eapply Rle_trans; [exact (rs_weigh n x (fun i => act x i - 1) _ HX)|]. pose proof c0w. pose proof tw. lra.
Qed.
Lemma trend_low : 0.5 <= q.
Proof.
  destruct (Rle_lt_dec 0.5 q) as [h|h]; [exact h|exfalso].
  pose proof (en_cs (fun _ => 1) x) as CS. pose proof (en_ge0 x) as Q0. pose proof c0w as CW. pose proof (l1_ge0 n x) as W0.
  assert (F : en (fun _ => 1) (fun _ => 1) <= 1.01 * (INR n * INR n)).
  { unfold en, act. apply Rle_trans with (rs n (fun _ => INR n * 1.01)); [|rewrite rs_const; lra]. apply rs_le. intros i Hi. rewrite Rmult_1_l, <- rs_const. apply rs_le. intros j Hj. rewrite Rmult_1_r. now apply H1. }
  assert (W1 : c0 * w <= c0 + 0.2 * q). { assert (w <= 1 + w * w) by nra. assert (c0 * w <= c0 * (1 + w * w)) by (apply Rmult_le_compat_l; lra). lra. }
  pose proof ca_small as CS'.
  assert (S : 0.89 * INR n <= en (fun _ => 1) x).
  { unfold en. apply Rle_trans with (rs n (fun _ => 0.89)); [rewrite rs_const; lra|]. apply rs_le. intros i Hi. pose proof (HX i Hi) as P. apply Rabs_le_inv in P. lra. }
  assert (S2 : (0.89 * INR n) * (0.89 * INR n) <= en (fun _ => 1) x * en (fun _ => 1) x) by (apply Rmult_le_compat; lra).
  assert (S3 : en (fun _ => 1) (fun _ => 1) * q <= 1.01 * (INR n * INR n) * 0.5) by (apply Rmult_le_compat; try lra; apply en_ge0).
  assert (1 <= INR n * INR n) by nra. lra.
Qed.
Lemma trend_room : lam * w <= 3 * INR n + 1.
Proof.
  pose proof trend_sum as S. pose proof (l1_en x) as Q. pose proof (l1_ge0 n x) as W0. pose proof ca_small as CS'.
  assert (G : Rabs (rs n x) <= w) by apply rs_abs. apply Rabs_le_inv in S. pose proof (Rle_abs (rs n x)) as A.
  assert (q <= 1.26 * (w + t)) by lra.
  destruct (Rle_lt_dec w 1) as [h|h]; [assert (lam * w <= 1 * 1) by (apply Rmult_le_compat; lra); lra|].
  assert (B : lam * w * w <= 2.6 * INR n * w).
  { rewrite Rmult_assoc. apply Rle_trans with (1 := Q). replace (2.6 * INR n * w) with (INR n * (2.6 * w)) by ring. apply Rmult_le_compat_l; lra. }
  apply Rmult_le_reg_r in B; lra.
Qed.
(** the sum of a small vector, against the trend *)
Lemma cross_sum e : (forall i, (i < n)%nat -> Rabs (act e i) <= ca + c0 * l1 n e) -> exists z, Rabs (rs n e) <= z + t /\ 0 <= z /\ z * z <= 1.44 * (q * en e e).
Proof.
  intros He. destruct (small_vector e He) as [S1 _]. pose proof (en_cs e x) as CS. pose proof (l1_en x) as QX. pose proof (l1_en e) as QE. pose proof (en_ge0 x) as X0. pose proof (en_ge0 e) as E0.
  pose proof (l1_ge0 n e) as s0. pose proof (l1_ge0 n x) as w0. set (s := l1 n e) in *. set (A := Rabs (en e x)). set (B := c0 * w * s).
  assert (A0 : 0 <= A) by apply Rabs_pos. assert (B0 : 0 <= B) by (unfold B; repeat apply Rmult_le_pos; lra).
  assert (AA : A * A <= q * en e e). { unfold A. rewrite <- Rabs_mult, Rabs_pos_eq by nra. lra. }
  assert (NC0 : INR n * c0 <= 0.2 * lam) by nra.
  assert (BB : B * B <= 0.04 * (q * en e e)).
  { apply (Rmult_le_reg_l (lam * lam)); [nra|].
    replace (lam * lam * (B * B)) with ((c0 * c0) * ((lam * (w * w)) * (lam * (s * s)))) by (unfold B; ring).
    apply Rle_trans with ((c0 * c0) * ((INR n * q) * (INR n * en e e))).
    - apply Rmult_le_compat_l; [nra|]. apply Rmult_le_compat; try assumption; repeat apply Rmult_le_pos; lra.
    - replace ((c0 * c0) * ((INR n * q) * (INR n * en e e))) with ((INR n * c0) * (INR n * c0) * (q * en e e)) by ring.
      replace (lam * lam * (0.04 * (q * en e e))) with ((0.2 * lam) * (0.2 * lam) * (q * en e e)) by lra.
      apply Rmult_le_compat_r; [apply Rmult_le_pos; lra|]. assert (0 <= INR n * c0) by (apply Rmult_le_pos; lra). apply Rmult_le_compat; lra. }
  exists (A + B). split; [|split; [lra|]].
  - assert (E : rs n e = en e x - rs n (fun i => e i * (act x i - 1))). { unfold en. rewrite <- rs_minus. apply rs_ext. intros; ring. }
    rewrite E. unfold Rminus at 1. eapply Rle_trans; [apply Rabs_triang|]. rewrite Rabs_Ropp. pose proof (rs_weigh n e (fun i => act x i - 1) _ HX) as P. cbv beta in P.
    fold s A in P |- *. replace (s * (c0 * w + t)) with (B + s * t) in P by (unfold B; ring). assert (s * t <= 1 * t) by (apply Rmult_le_compat_r; lra). lra.
  - pose proof (Rle_0_sqr (A - 5 * B)) as Z. unfold Rsqr in Z. lra.
Qed.
End Trend.
End Energy.
