(** Finite sums of reals indexed by natural numbers. *)
From Coq Require Import Reals Lra Lia Psatz Arith.
Local Open Scope R_scope.

(** f 0 + ... + f (n-1) *)
Fixpoint rs (n : nat) (f : nat -> R) : R :=
  match n with O => 0 | S m => rs m f + f m end.
(** the quadratic form of a matrix of size [n] *)
Definition quad (n : nat) (A : nat -> nat -> R) (x : nat -> R) : R := rs n (fun i => rs n (fun j => x i * x j * A i j)).
Definition norm2 (n : nat) (x : nat -> R) : R := rs n (fun i => x i * x i).

Lemma rs_ext n f g : (forall k, (k < n)%nat -> f k = g k) -> rs n f = rs n g.
Proof. induction n as [|n IH]; intros H; [easy|]. cbn. rewrite IH, (H n) by (intros; try apply H; lia). easy. Qed.
Lemma rs_plus n f g : rs n (fun k => f k + g k) = rs n f + rs n g.
Proof. induction n as [|n IH]; cbn; [lra|]. rewrite IH. lra. Qed.
Lemma rs_minus n f g : rs n (fun k => f k - g k) = rs n f - rs n g.
Proof. induction n as [|n IH]; cbn; [lra|]. rewrite IH. lra. Qed.
Lemma rs_scal n c f : rs n (fun k => c * f k) = c * rs n f.
Proof. induction n as [|n IH]; cbn; [lra|]. rewrite IH. lra. Qed.
Lemma rs_const n c : rs n (fun _ => c) = INR n * c.
Proof. induction n as [|n IH]; [cbn; lra|]. rewrite S_INR. cbn. rewrite IH. lra. Qed.
Lemma rs_zero n f : (forall k, (k < n)%nat -> f k = 0) -> rs n f = 0.
Proof. intros H. rewrite (rs_ext n f (fun _ => 0) H), rs_const. lra. Qed.
Lemma rs_le n f g : (forall k, (k < n)%nat -> f k <= g k) -> rs n f <= rs n g.
Proof. induction n as [|n IH]; intros H; cbn; [lra|]. pose proof (H n ltac:(lia)). assert (rs n f <= rs n g) by (apply IH; intros; apply H; lia). lra. Qed.
Lemma rs_ge0 n f : (forall k, (k < n)%nat -> 0 <= f k) -> 0 <= rs n f.
Proof. intros H. replace 0 with (rs n (fun _ => 0)) by (rewrite rs_const; lra). now apply rs_le. Qed.
Lemma rs_swap n m f : rs n (fun i => rs m (fun j => f i j)) = rs m (fun j => rs n (fun i => f i j)).
Proof. induction n as [|n IH]; cbn; [now rewrite rs_const, Rmult_0_r|]. rewrite rs_plus, IH. easy. Qed.
Lemma rs_mono n m f : (n <= m)%nat -> (forall k, (k < m)%nat -> 0 <= f k) -> rs n f <= rs m f.
Proof. induction 1 as [|m H IH]; intros P; [lra|]. cbn. pose proof (P m ltac:(lia)). assert (rs n f <= rs m f) by (apply IH; intros; apply P; lia). lra. Qed.
Lemma rs_term n f i : (i < n)%nat -> (forall k, (k < n)%nat -> 0 <= f k) -> f i <= rs n f.
Proof.
  intros Hi P. pose proof (rs_mono (S i) n f ltac:(lia) P) as M. cbn in M. assert (0 <= rs i f) by (apply rs_ge0; intros; apply P; lia). lra.
Qed.
Lemma rs_abs n f : Rabs (rs n f) <= rs n (fun k => Rabs (f k)).
Proof. induction n as [|n IH]; cbn; [rewrite Rabs_R0; lra|]. pose proof (Rabs_triang (rs n f) (f n)). lra. Qed.
Lemma rs_sup m n i f : (m <= i < n)%nat -> (forall k, (m <= k < n)%nat -> k <> i -> f k = 0) -> rs n f = rs m f + f i.
Proof.
  induction n as [|n IH]; intros [H1 H2] Z; [lia|]. cbn. destruct (Nat.eq_dec i n) as [->|N].
  - assert (E : rs n f = rs m f); [|lra]. clear IH H2.
    assert (G : forall q, (m <= q <= n)%nat -> rs q f = rs m f).
    { induction q as [|q IH]; intros [Q1 Q2]; [replace m with 0%nat by lia; easy|]. destruct (Nat.eq_dec m (S q)) as [->|Nq]; [easy|].
      cbn. rewrite IH, (Z q) by lia. lra. }
    apply G. lia.
  - rewrite (Z n) by lia. rewrite IH; [lra|lia|]. intros k K1 K2. apply Z; lia.
Qed.
(** Cauchy-Schwarz, in the form used here *)
Lemma rs_prod n f g a b : 0 < a -> 0 < b -> rs n (fun k => f k * f k) <= a -> rs n (fun k => g k * g k) <= b ->
  rs n (fun k => Rabs (f k * g k)) <= sqrt a * sqrt b.
Proof.
  intros Ha Hb F G. pose proof (sqrt_lt_R0 a Ha) as sa. pose proof (sqrt_lt_R0 b Hb) as sb. pose proof (sqrt_sqrt a (Rlt_le _ _ Ha)) as qa. pose proof (sqrt_sqrt b (Rlt_le _ _ Hb)) as qb.
  set (s := sqrt a) in *. set (t := sqrt b) in *.
  (* |f g| <= (t/s f^2 + s/t g^2) / 2 *)
  apply Rle_trans with (rs n (fun k => / 2 * (t / s) * (f k * f k) + / 2 * (s / t) * (g k * g k))).
  - apply rs_le. intros k _. rewrite Rabs_mult. pose proof (Rabs_pos (f k)) as P1. pose proof (Rabs_pos (g k)) as P2.
    replace (f k * f k) with (Rabs (f k) * Rabs (f k)) by (rewrite <- Rabs_mult; apply Rabs_pos_eq; nra).
    replace (g k * g k) with (Rabs (g k) * Rabs (g k)) by (rewrite <- Rabs_mult; apply Rabs_pos_eq; nra).
    set (x := Rabs (f k)) in *. set (y := Rabs (g k)) in *.
    apply (Rmult_le_reg_l (2 * (s * t))); [nra|].
    replace (2 * (s * t) * (/ 2 * (t / s) * (x * x) + / 2 * (s / t) * (y * y))) with ((t * x) * (t * x) + (s * y) * (s * y)) by (field; lra).
    pose proof (Rle_0_sqr (t * x - s * y)) as Q. unfold Rsqr in Q. lra.
  - rewrite rs_plus, !rs_scal. assert (0 < t / s) by (apply Rdiv_lt_0_compat; lra). assert (0 < s / t) by (apply Rdiv_lt_0_compat; lra).
    apply Rle_trans with (/ 2 * (t / s) * (s * s) + / 2 * (s / t) * (t * t)); [|right; field; lra].
    apply Rplus_le_compat; apply Rmult_le_compat_l; lra.
Qed.

Lemma quad_ext n A B x : (forall i j, (i < n)%nat -> (j < n)%nat -> A i j = B i j) -> quad n A x = quad n B x.
Proof. intros H. apply rs_ext. intros i Hi. apply rs_ext. intros j Hj. now rewrite H. Qed.
Lemma norm2_ge0 n x : 0 <= norm2 n x.
Proof. apply rs_ge0. intros k _. nra. Qed.
Lemma norm2_pos n x i : (i < n)%nat -> x i <> 0 -> 0 < norm2 n x.
Proof.
  intros Hi N. apply Rlt_le_trans with (x i * x i); [nra|]. unfold norm2. apply (rs_term n (fun k => x k * x k) i Hi). intros k _. nra.
Qed.
(** pairs *)
Lemma rs_pairs n x : rs n (fun i => rs n (fun j => (x i * x i + x j * x j) / 2)) = INR n * norm2 n x.
Proof.
  rewrite (rs_ext n _ (fun i => INR n * (x i * x i / 2) + norm2 n x / 2)).
  - rewrite rs_plus, rs_const, rs_scal. unfold norm2. replace (rs n (fun k => x k * x k / 2)) with (/ 2 * rs n (fun k => x k * x k)); [field|].
    rewrite <- rs_scal. apply rs_ext. intros; lra.
  - intros i _. rewrite (rs_ext n _ (fun j => x i * x i / 2 + / 2 * (x j * x j))) by (intros; lra). rewrite rs_plus, rs_const, rs_scal. unfold norm2. lra.
Qed.
(** a symmetric perturbation of a matrix *)
Lemma quad_near n (A B : nat -> nat -> R) c e x : 0 <= e ->
  (forall i j, (i < n)%nat -> (j < n)%nat -> i <> j -> Rabs (B i j - A i j) <= e) ->
  (forall i, (i < n)%nat -> A i i + c - e <= B i i) ->
  quad n A x + (c - INR n * e) * norm2 n x <= quad n B x.
Proof.
  intros E0 O D. unfold quad.
  apply Rle_trans with (rs n (fun i => rs n (fun j => x i * x j * A i j + (- e) * ((x i * x i + x j * x j) / 2)) + c * (x i * x i))).
  - right. rewrite rs_plus, rs_scal.
    assert (H : rs n (fun i => rs n (fun j => x i * x j * A i j + - e * ((x i * x i + x j * x j) / 2))) =
                rs n (fun i => rs n (fun j => x i * x j * A i j)) + - e * (INR n * norm2 n x)).
    { rewrite <- (rs_pairs n x), <- rs_scal, <- rs_plus. apply rs_ext. intros i _. now rewrite rs_plus, rs_scal. }
    rewrite H. unfold norm2. ring.
  - apply rs_le. intros i Hi.
    assert (Q : rs n (fun j => x i * x j * A i j + - e * ((x i * x i + x j * x j) / 2)) + c * (x i * x i) =
                rs n (fun j => x i * x j * A i j + - e * ((x i * x i + x j * x j) / 2) + if Nat.eqb i j then c * (x i * x i) else 0)).
    { rewrite (rs_plus n _ (fun j => if Nat.eqb i j then c * (x i * x i) else 0)). apply Rplus_eq_compat_l.
      rewrite (rs_sup 0 n i); [cbn; rewrite Nat.eqb_refl; lra|lia|].
      intros k _ K. destruct (Nat.eqb_spec i k); [lia|easy]. }
    rewrite Q. apply rs_le. intros j Hj. destruct (Nat.eqb_spec i j) as [<-|N].
    + pose proof (D i Hi). nra.
    + pose proof (O i j Hi Hj N) as H. replace (B i j) with (A i j + (B i j - A i j)) by ring. set (t := B i j - A i j) in *.
      assert (- (e * Rabs (x i * x j)) <= x i * x j * t).
      { apply Ropp_le_cancel. rewrite Ropp_involutive. apply Rle_trans with (Rabs (x i * x j * t)).
        - rewrite <- Rabs_Ropp. apply Rle_abs.
        - rewrite Rabs_mult, Rmult_comm. pose proof (Rabs_pos (x i * x j)). apply Rmult_le_compat_r; lra. }
      assert (Rabs (x i * x j) <= (x i * x i + x j * x j) / 2). { apply Rabs_le. pose proof (Rle_0_sqr (x i - x j)). pose proof (Rle_0_sqr (x i + x j)). unfold Rsqr in *. lra. }
      nra.
Qed.
