(** Cholesky factorisation in binary64 succeeds on matrices that are positive definite by a margin. *)
From Coq Require Import ZArith Bool List Reals Lra Lia Psatz Permutation.
From Flocq Require Import Core IEEE754.BinarySingleNaN.
From Verif Require Import Fl Spec NpList FlFacts FlMag KernelFl FlErr KernelFlFacts CholFl RSum RDep.
Import ListNotations.
Local Open Scope R_scope.

(** ** the last row of a nearly factored matrix *)
Lemma last_row m (A N : nat -> nat -> R) lam del : 0 <= del ->
  (forall x, lam * norm2 (S m) x <= quad (S m) A x) ->
  (forall r s, (r <= m)%nat -> (s <= m)%nat -> ~ (r = m /\ s = m) -> Rabs (rs m (fun k => N r k * N s k) - A r s) <= del) ->
  (INR m + 1) * del < lam ->
  rs m (fun k => N m k * N m k) <= A m m + INR m * del - lam.
Proof.
  intros D0 PD C L. destruct (dependent m N) as (v & (r0 & Hr & V0) & V).
  set (G := fun r s => rs m (fun k => N r k * N s k)).
  assert (Z : quad (S m) G v = 0).
  { unfold quad, G. transitivity (rs m (fun k => rs (S m) (fun r => v r * N r k) * rs (S m) (fun r => v r * N r k))).
    - transitivity (rs (S m) (fun r => rs m (fun k => v r * N r k * rs (S m) (fun s => v s * N s k)))).
      + apply rs_ext. intros r _. rewrite (rs_ext m _ (fun k => rs (S m) (fun s => v r * N r k * (v s * N s k)))) by (intros; now rewrite rs_scal).
        rewrite (rs_swap m (S m)). apply rs_ext. intros s _. rewrite <- rs_scal. apply rs_ext. intros; ring.
      + rewrite rs_swap. apply rs_ext. intros k _. rewrite <- (rs_scal (S m) (rs (S m) (fun r => v r * N r k))). apply rs_ext. intros; ring.
    - apply rs_zero. intros k Hk. rewrite (V k Hk). ring. }
  set (q := rs m (fun k => N m k * N m k)). set (z := v m).
  (* compare with A, entry (m, m) apart *)
  set (B := fun r s => if andb (Nat.eqb r m) (Nat.eqb s m) then A m m else G r s).
  assert (E1 : quad (S m) G v = quad (S m) B v + z * z * (q - A m m)).
  { unfold quad. rewrite (rs_ext (S m) (fun i => rs (S m) (fun j => v i * v j * G i j))
      (fun i => rs (S m) (fun j => v i * v j * B i j) + if Nat.eqb i m then z * z * (q - A m m) else 0)).
    - rewrite rs_plus. f_equal. cbn [rs]. rewrite Nat.eqb_refl, rs_zero; [lra|]. intros k Hk. destruct (Nat.eqb_spec k m); [lia|easy].
    - intros i Hi. destruct (Nat.eqb_spec i m) as [->|N1].
      + cbn [rs]. unfold B at 2. rewrite Nat.eqb_refl. cbn [andb]. rewrite (rs_ext m (fun j => v m * v j * B m j) (fun j => v m * v j * G m j)).
        * fold z. unfold G at 2. fold q. ring.
        * intros j Hj. unfold B. rewrite Nat.eqb_refl. destruct (Nat.eqb_spec j m); [lia|easy].
      + rewrite Rplus_0_r. apply rs_ext. intros j Hj. unfold B. destruct (Nat.eqb_spec i m); [lia|easy]. }
  assert (E2 : quad (S m) A v + (0 - INR (S m) * del) * norm2 (S m) v + del * (z * z) <= quad (S m) B v).
  { assert (Q : quad (S m) A v + (0 - INR (S m) * del) * norm2 (S m) v <= quad (S m) (fun r s => B r s - if andb (Nat.eqb r m) (Nat.eqb s m) then del else 0) v).
    { apply quad_near; [exact D0| |].
      - intros i j Hi Hj Nij. unfold B. destruct (Nat.eqb_spec i m) as [->|Ni]; destruct (Nat.eqb_spec j m) as [->|Nj]; cbn [andb]; try lia;
          rewrite Rminus_0_r; apply C; lia.
      - intros i Hi. unfold B. destruct (Nat.eqb_spec i m) as [->|Ni]; cbn [andb]; [lra|].
        pose proof (C i i ltac:(lia) ltac:(lia) ltac:(lia)) as H. apply Rabs_le_inv in H. fold (G i i) in H. lra. }
    assert (Q2 : quad (S m) (fun r s => B r s - if andb (Nat.eqb r m) (Nat.eqb s m) then del else 0) v = quad (S m) B v - del * (z * z)); [|lra].
    unfold quad. rewrite (rs_ext (S m) _ (fun i => rs (S m) (fun j => v i * v j * B i j) - if Nat.eqb i m then del * (z * z) else 0)).
    - rewrite rs_minus. f_equal. cbn [rs]. rewrite Nat.eqb_refl, rs_zero; [lra|]. intros k Hk. destruct (Nat.eqb_spec k m); [lia|easy].
    - intros i Hi. destruct (Nat.eqb_spec i m) as [->|N1].
      + cbn [rs]. rewrite Nat.eqb_refl. cbn [andb]. rewrite (rs_ext m _ (fun j => v m * v j * B m j)).
        * fold z. ring.
        * intros j Hj. destruct (Nat.eqb_spec j m); [lia|]. ring.
      + rewrite Rminus_0_r. apply rs_ext. intros j Hj. cbn [andb]. ring. }
  pose proof (PD v) as P. pose proof (norm2_pos (S m) v r0 Hr V0) as NP. rewrite S_INR in E2.
  assert (ZN : z * z <= norm2 (S m) v) by (apply (rs_term (S m) (fun k => v k * v k) m); [lia|intros; nra]).
  set (w := norm2 (S m) v) in *. set (c := lam - (INR m + 1) * del) in *. assert (C0 : 0 < c) by (unfold c; lra).
  assert (K : c * w + z * z * (q - A m m + del) <= 0) by (unfold c; lra).
  assert (CW : 0 < c * w) by (apply Rmult_lt_0_compat; lra).
  destruct (Rle_or_lt (z * z) 0) as [Z0|Z0]; [exfalso; assert (Z1 : z * z = 0) by (pose proof (Rle_0_sqr z) as S0; unfold Rsqr in S0; lra); rewrite Z1 in K; lra|].
  assert (c * (z * z) <= c * w) by (apply Rmult_le_compat_l; lra).
  assert (T : z * z * (c + (q - A m m + del)) <= 0) by lra.
  assert (c + (q - A m m + del) <= 0).
  { apply Rnot_lt_le. intros HH. assert (0 < z * z * (c + (q - A m m + del))) by (apply Rmult_lt_0_compat; lra). lra. }
  unfold c in *. lra.
Qed.

(** ** one entry *)
Lemma eta_tiny2 : eta <= uro * / 1000000000000.
Proof.
  apply Rle_trans with (bpow radix2 (-53 + -40)); [apply bpow_le; lia|]. rewrite bpow_plus. fold uro.
  apply Rmult_le_compat_l; [left; apply uro_pos|]. change (-40)%Z with (- (40))%Z. rewrite bpow_opp. apply Rinv_le; [lra|].
  change (bpow radix2 40) with (IZR 1099511627776). lra.
Qed.
Lemma seq_rs j f : rsum (map f (seq 0 j)) = rs j f.
Proof. induction j as [|j IH]; [easy|]. rewrite seq_S, map_app, rsum_app, IH. cbn. lra. Qed.
Definition Lz (L : nat -> nat -> b64) (i k : nat) : R := if Nat.leb k i then B2R (L i k) else 0.
Lemma Lz_le L i k : (k <= i)%nat -> Lz L i k = B2R (L i k).
Proof. intros H. unfold Lz. now rewrite (proj2 (Nat.leb_le k i) H). Qed.
Lemma Lz_gt L i k : (i < k)%nat -> Lz L i k = 0.
Proof. intros H. unfold Lz. destruct (Nat.leb_spec k i); [lia|easy]. Qed.
Lemma Lz_trunc L i r m : (r < m)%nat -> rs m (fun k => Lz L i k * Lz L r k) = rs (S r) (fun k => Lz L i k * Lz L r k).
Proof.
  induction m as [|m IH]; intros H; [lia|]. destruct (Nat.eq_dec r m) as [->|N]; [easy|]. cbn [rs]. rewrite IH by lia. cbn [rs]. rewrite (Lz_gt L r m) by lia. lra.
Qed.

Lemma sqrt_entry s a : isfin s = true -> 10 * uro <= B2R s <= 3 * a -> 1 <= a -> a * 1000000000000 <= big ->
  isfin (fsqrt s) = true /\ / 100000000 <= B2R (fsqrt s) <= 3 * a /\ Rabs (B2R (fsqrt s) * B2R (fsqrt s) - B2R s) <= 2.01 * uro * B2R s.
Proof.
  intros F [S0 S1] A1 A2. pose proof uro_pos as UP. pose proof uro_val as UV. pose proof eta_tiny as ET. pose proof eta_pos as EP.
  destruct (fsqrt_err (3 * a) s) as [Fq Eq]; [split; [exact F|lra]|]. split; [exact Fq|].
  pose proof (sqrt_sqrt (B2R s) ltac:(lra)) as QQ. assert (Q0 : 0 < sqrt (B2R s)) by (apply sqrt_lt_R0; lra). set (q := sqrt (B2R s)) in *. set (l := B2R (fsqrt s)) in *.
  assert (Q1 : 3 * / 100000000 <= q). { apply Rnot_lt_le. intros C. assert (q * q < 3 * / 100000000 * (3 * / 100000000)) by nra. rewrite UV in *. lra. }
  assert (Q2 : q <= 2 * a). { apply Rnot_lt_le. intros C. assert (4 * a * a < q * q) by nra. nra. }
  assert (E : Rabs (l - q) <= 1.001 * uro * q). { assert (uro * (3 * / 100000000) <= uro * q) by (apply Rmult_le_compat_l; lra). pose proof eta_tiny2. lra. } assert (UQ : 0 <= uro * q) by nra. assert (UQ1 : uro * q <= 0.001 * q) by (apply Rmult_le_compat_r; lra).
  pose proof E as E'. apply Rabs_le_inv in E'. split; [lra|].
  replace (l * l - B2R s) with ((l - q) * (l + q)) by (rewrite <- QQ; ring). rewrite Rabs_mult, (Rabs_pos_eq (l + q)) by lra.
  apply Rle_trans with (1.001 * uro * q * (2.0021 * q)); [apply Rmult_le_compat; [apply Rabs_pos|lra|exact E|lra]|]. rewrite <- QQ. assert (0 <= uro * (q * q)) by (apply Rmult_le_pos; nra). lra.
Qed.
Lemma quot_entry s l q a : isfin s = true -> Rabs (B2R s) <= 2.1 * a -> isfin l = true -> / 100000000 <= B2R l <= 3 * a -> 1 <= a -> a * 1000000000000 <= big ->
  quotient64 s l q -> isfin q = true /\ Rabs (B2R q * B2R l - B2R s) <= 4.3 * uro * a.
Proof.
  intros Fs S Fl [L0 L1] A1 A2 Q. pose proof uro_pos as UP. pose proof uro_val as UV. pose proof eta_tiny as ET. pose proof eta_pos as EP. pose proof big_pos as BP.
  assert (Lp : 0 < B2R l) by lra. assert (IL : 0 < / B2R l <= 100000000).
  { split; [now apply Rinv_0_lt_compat|]. rewrite <- (Rinv_involutive 100000000) by lra. apply Rinv_le; lra. }
  assert (EL : eta * B2R l <= 3 * (uro * / 1000000) * a). { apply Rle_trans with (eta * (3 * a)); [apply Rmult_le_compat_l; lra|]. nra. }
  assert (LL : / B2R l * B2R l = 1) by (apply Rinv_l; lra).
  set (x := B2R s) in *. set (y := B2R l) in *. pose proof (Rabs_pos x) as XP.
  destruct Q as [->| ->].
  - assert (B : Rabs (x / y) <= big * 3). { unfold Rdiv. rewrite Rabs_mult, (Rabs_pos_eq (/ y)) by lra. apply Rle_trans with (2.1 * a * 100000000); [apply Rmult_le_compat; lra|lra]. }
    destruct (fdiv_err s l Fs) as [Fq E]; [fold y; lra|exact B|]. split; [exact Fq|]. fold x y in E. set (q := B2R (fdiv s l)) in *.
    replace (q * y - x) with ((q - x / y) * y) by (field; lra). rewrite Rabs_mult, (Rabs_pos_eq y) by lra.
    apply Rle_trans with ((uro * Rabs (x / y) + eta) * y); [apply Rmult_le_compat_r; lra|].
    replace ((uro * Rabs (x / y) + eta) * y) with (uro * (Rabs (x / y) * y) + eta * y) by ring.
    replace (Rabs (x / y) * y) with (Rabs x). 2:{ unfold Rdiv. rewrite Rabs_mult, (Rabs_pos_eq (/ y)) by lra. rewrite Rmult_assoc, LL. ring. }
    assert (uro * Rabs x <= uro * (2.1 * a)) by (apply Rmult_le_compat_l; lra). assert (0 <= uro * a) by nra. lra.
  - assert (V1 : B2R f1 / y = / y) by (rewrite B2R_f1; unfold Rdiv; ring).
    destruct (fdiv_err f1 l) as [Fr Er]; [reflexivity|fold y; lra|fold y; rewrite V1, Rabs_pos_eq; lra|]. fold y in Er. rewrite V1, (Rabs_pos_eq (/ y)) in Er by lra.
    set (r := fdiv f1 l) in *. set (t := B2R r) in *.
    assert (T : Rabs (t * y - 1) <= 1.001 * uro + eta * y).
    { replace (t * y - 1) with ((t - / y) * y) by (rewrite <- LL; ring). rewrite Rabs_mult, (Rabs_pos_eq y) by lra.
      apply Rle_trans with ((uro * / y + eta) * y); [apply Rmult_le_compat_r; lra|]. rewrite Rmult_plus_distr_r, Rmult_assoc, LL. lra. }
    assert (T2 : Rabs t <= 100000001). { pose proof (Rabs_near _ _ _ Er) as N. rewrite (Rabs_pos_eq (/ y)) in N by lra. assert (uro * / y <= uro * 100000000) by (apply Rmult_le_compat_l; lra). lra. }
    assert (B : Rabs (x * t) <= 2.1 * a * 100000001) by (rewrite Rabs_mult; pose proof (Rabs_pos t); apply Rmult_le_compat; lra).
    destruct (fmul_err s r Fs Fr) as [Fq E]; [fold x t; lra|]. split; [exact Fq|]. fold x t in E. set (q := B2R (fmul s r)) in *.
    (* eta terms are far below uro * a *)
    assert (ETA : eta * y <= 0.0001 * uro). 
    { assert (eta * y <= eta * (3 * a)) by (apply Rmult_le_compat_l; lra). assert (eta * (3 * a) <= eta * big) by (apply Rmult_le_compat_l; lra).
      assert (eta * big <= 0.0001 * uro); [|lra]. unfold eta, big, uro. rewrite <- bpow_plus. apply Rle_trans with (bpow radix2 (-53 + -20)); [apply bpow_le; lia|].
      rewrite bpow_plus, Rmult_comm. apply Rmult_le_compat_r; [apply bpow_ge_0|]. change (-20)%Z with (- (20))%Z. rewrite bpow_opp. change (bpow radix2 20) with (IZR 1048576). lra. }
    assert (P : Rabs (x * t) * y <= Rabs x * 1.001).
    { rewrite Rabs_mult, Rmult_assoc. apply Rmult_le_compat_l; [lra|]. rewrite <- (Rabs_pos_eq y), <- Rabs_mult by lra. pose proof (Rabs_near _ _ _ T) as N. rewrite Rabs_R1 in N. lra. }
    replace (q * y - x) with ((q - x * t) * y + x * (t * y - 1)) by ring. apply Rle_trans with (1 := Rabs_triang _ _). rewrite (Rabs_mult (q - x * t)), (Rabs_mult x), (Rabs_pos_eq y) by lra.
    assert (Rabs (q - x * t) * y <= (uro * Rabs (x * t) + eta) * y) by (apply Rmult_le_compat_r; lra).
    assert (uro * (Rabs (x * t) * y) <= uro * (Rabs x * 1.001)) by (apply Rmult_le_compat_l; lra).
    assert (Rabs x * Rabs (t * y - 1) <= Rabs x * (1.0011 * uro)) by (apply Rmult_le_compat_l; lra).
    assert (uro * Rabs x <= uro * (2.1 * a)) by (apply Rmult_le_compat_l; lra). assert (0 <= uro * a) by nra. lra.
Qed.

Section Chol.
Variables (n : nat) (A : nat -> nat -> b64) (a lam : R).
(** the symmetric matrix of the lower triangle *)
Definition sym (i j : nat) : R := B2R (A (Nat.max i j) (Nat.min i j)).
Definition cdel : R := (INR n + 6) * 2.1 * uro * a.
Hypotheses (n_small : INR n <= 1000000) (a1 : 1 <= a) (a2 : a * 1000000000000 <= big).
Hypotheses (A_fin : forall i j, (j <= i < n)%nat -> isfin (A i j) = true) (A_le : forall i j, (j <= i < n)%nat -> Rabs (B2R (A i j)) <= a).
Hypotheses (pd : forall x, lam * norm2 n x <= quad n sym x) (lam_big : (INR n + 2) * cdel <= lam).
Variable L : nat -> nat -> b64.

Lemma cdel_pos : 12 * uro * a <= cdel.
Proof. unfold cdel. pose proof (pos_INR n). pose proof uro_pos. assert (0 <= uro * a) by nra. nra. Qed.
Definition good (j : nat) : Prop :=
  (forall i k, (k < j)%nat -> (k <= i < n)%nat -> isfin (L i k) = true) /\
  (forall i r, (r < j)%nat -> (r <= i < n)%nat -> Rabs (rs (S r) (fun k => Lz L i k * Lz L r k) - B2R (A i r)) <= cdel).

Lemma row_norm j i : (j <= i < n)%nat -> good j -> rs j (fun k => Lz L i k * Lz L i k) <= B2R (A i i) + INR j * cdel - lam.
Proof.
  intros Hi [_ G]. set (idx := fun r => if Nat.ltb r j then r else i).
  assert (I1 : forall r, (r < j)%nat -> idx r = r) by (intros r Hr; unfold idx; destruct (Nat.ltb_spec r j); [easy|lia]).
  assert (I2 : idx j = i) by (unfold idx; now rewrite Nat.ltb_irrefl).
  assert (JN : INR j + 1 <= INR n). { rewrite <- S_INR. apply le_INR. lia. }
  pose proof cdel_pos as CP. pose proof uro_pos as UP. assert (C0 : 0 < cdel) by nra.
  pose proof (last_row j (fun r s => sym (idx r) (idx s)) (fun r => Lz L (idx r)) lam cdel) as H. cbv beta in H. rewrite I2 in H.
  assert (S0 : sym i i = B2R (A i i)) by (unfold sym; now rewrite Nat.max_id, Nat.min_id). rewrite S0 in H. apply H; clear H.
  - lra.
  - (* restrict to the indices 0 .. j-1, i *)
    intros v. set (x := fun k => if Nat.ltb k j then v k else if Nat.eqb k i then v j else 0).
    assert (X1 : forall k, (k < j)%nat -> x k = v k) by (intros k Hk; unfold x; destruct (Nat.ltb_spec k j); [easy|lia]).
    assert (X2 : x i = v j) by (unfold x; destruct (Nat.ltb_spec i j); [lia|]; now rewrite Nat.eqb_refl).
    assert (X3 : forall k, (j <= k < n)%nat -> k <> i -> x k = 0) by (intros k Hk Nk; unfold x; destruct (Nat.ltb_spec k j); [lia|]; destruct (Nat.eqb_spec k i); [lia|easy]).
    assert (SUM : forall g, rs n (fun k => x k * g k) = rs (S j) (fun r => v r * g (idx r))).
    { intros g. rewrite (rs_sup j n i) by (try easy; intros k K1 K2; rewrite X3 by easy; ring). cbn [rs]. rewrite X2, I2. f_equal.
      apply rs_ext. intros k Hk. now rewrite X1, I1. }
    pose proof (pd x) as P.
    assert (N1 : norm2 n x = norm2 (S j) v).
    { unfold norm2. rewrite SUM. apply rs_ext. intros r Hr. destruct (Nat.eq_dec r j) as [->|Nr]; [now rewrite I2, X2|]. now rewrite I1, X1 by lia. }
    assert (Q1 : quad n sym x = quad (S j) (fun r s => sym (idx r) (idx s)) v).
    { unfold quad. rewrite (rs_ext n _ (fun k => x k * rs n (fun m => x m * sym k m))) by (intros; rewrite <- rs_scal; apply rs_ext; intros; ring).
      rewrite SUM. apply rs_ext. intros r Hr. rewrite SUM, <- rs_scal. apply rs_ext. intros s Hs. ring. }
    rewrite <- N1, <- Q1. exact P.
  - intros r s Hr Hs Nrs.
    assert (G' : forall i' r', (r' < j)%nat -> (r' <= i' < n)%nat -> Rabs (rs j (fun k => Lz L i' k * Lz L r' k) - sym i' r') <= cdel).
    { intros i' r' H1 H2. rewrite (Lz_trunc L i' r' j H1). unfold sym. rewrite Nat.max_l, Nat.min_r by lia. now apply G. }
    assert (SY : forall p q, sym p q = sym q p) by (intros; unfold sym; now rewrite Nat.max_comm, Nat.min_comm).
    assert (CO : forall p q, rs j (fun k => Lz L p k * Lz L q k) = rs j (fun k => Lz L q k * Lz L p k)) by (intros; apply rs_ext; intros; ring).
    destruct (Nat.eq_dec r j) as [->|N1]; destruct (Nat.eq_dec s j) as [->|N2]; [lia| | |].
    + rewrite I2, I1 by lia. apply G'; lia.
    + rewrite I2, I1 by lia. rewrite SY, CO. apply G'; lia.
    + rewrite !I1 by lia. destruct (le_lt_dec s r) as [H|H]; [apply G'; lia|]. rewrite SY, CO. apply G'; lia.
  - assert ((INR j + 1) * cdel <= INR n * cdel) by (apply Rmult_le_compat_r; lra). lra.
Qed.

Lemma reduced_err i j s : (j <= i < n)%nat -> good j -> reduced64 A L i j s ->
  isfin s = true /\ Rabs (B2R s - (B2R (A i j) - rs j (fun k => Lz L i k * Lz L j k))) <= (INR j + 2) * 2 * uro * a + 0.001 * uro * a /\
  Rabs (B2R s) <= 2.1 * a.
Proof.
  intros Hi Gd R. pose proof (row_norm j i Hi Gd) as Qi. pose proof (row_norm j j ltac:(lia) Gd) as Qj. destruct Gd as [Fin _].
  pose proof cdel_pos as CP. pose proof uro_pos as UP. pose proof uro_val as UV. assert (C0 : 0 < cdel) by nra.
  assert (JN : INR j + 1 <= INR n). { rewrite <- S_INR. apply le_INR. lia. } pose proof (pos_INR j) as J0.
  assert (JC : INR j * cdel <= INR n * cdel) by (apply Rmult_le_compat_r; lra).
  pose proof (A_le i i ltac:(lia)) as Ai. apply Rabs_le_inv in Ai. pose proof (A_le j j ltac:(lia)) as Aj. apply Rabs_le_inv in Aj.
  assert (Qi' : rs j (fun k => Lz L i k * Lz L i k) <= a) by lra. assert (Qj' : rs j (fun k => Lz L j k * Lz L j k) <= a) by lra.
  unfold reduced64 in R. set (l := _ :: _) in R.
  assert (EP : prods l = B2R (A i j) * 1 :: map (fun k => - (Lz L i k * Lz L j k)) (seq 0 j)).
  { unfold l, prods. cbn [map fst snd]. rewrite B2R_f1. f_equal. rewrite map_map. apply map_ext_in. intros k Hk. apply in_seq in Hk. cbn [fst snd].
    unfold fopp. rewrite B2R_Bopp, !Lz_le by lia. ring. }
  assert (LL : length l = S j) by (unfold l; cbn [length]; now rewrite map_length, seq_length).
  assert (RS : rsum (prods l) = B2R (A i j) - rs j (fun k => Lz L i k * Lz L j k)).
  { rewrite EP, rsum_cons, seq_rs. rewrite (rs_ext j _ (fun k => -1 * (Lz L i k * Lz L j k))) by (intros; ring). rewrite rs_scal. ring. }
  assert (AS : asum (prods l) <= 2 * a).
  { rewrite EP, asum_cons, Rmult_1_r. pose proof (A_le i j ltac:(lia)) as H. unfold asum. rewrite map_map, seq_rs.
    assert (rs j (fun k => Rabs (- (Lz L i k * Lz L j k))) <= rs j (fun k => / 2 * (Lz L i k * Lz L i k) + / 2 * (Lz L j k * Lz L j k))).
    { apply rs_le. intros k _. rewrite Rabs_Ropp. set (p := Lz L i k). set (q := Lz L j k). apply Rabs_le. pose proof (Rle_0_sqr (p - q)). pose proof (Rle_0_sqr (p + q)). unfold Rsqr in *. lra. }
    rewrite rs_plus, !rs_scal in *. lra. }
  assert (FP : fin_pairs l).
  { unfold l. constructor; [cbn [fst snd]; split; [apply A_fin; lia|reflexivity]|]. apply Forall_forall. intros p Hp. apply in_map_iff in Hp. destruct Hp as (k & <- & Hk). apply in_seq in Hk.
    cbn [fst snd]. split; [unfold isfin, fopp; rewrite is_finite_Bopp; apply Fin; lia|apply Fin; lia]. }
  assert (SJ : INR (length l) <= 1048576) by (rewrite LL, S_INR; lra).
  destruct (dot_of_err l s R FP SJ ltac:(lra)) as [Fs E]. rewrite LL, RS in E. rewrite LL in SJ.
  pose proof (pow_uro_lin (S j) SJ) as PL. pose proof (pow_uro_two (S j) SJ) as PT. rewrite S_INR in PL, E, SJ.
  pose proof eta_tiny2 as ET. pose proof eta_pos as EP0. pose proof (asum_ge0 (prods l)) as A0.
  assert (T1 : ((1 + uro) ^ S j - 1) * asum (prods l) <= (INR j + 1 + 1) * uro * (2 * a)) by (apply Rmult_le_compat; lra).
  assert (T2 : (INR j + 1) * eta * (1 + uro) ^ S j <= 0.001 * uro * a).
  { apply Rle_trans with (1048576 * (uro * / 1000000000000) * 2).
    - apply Rmult_le_compat; [apply Rmult_le_pos; lra|lra|apply Rmult_le_compat; lra|lra].
    - assert (uro <= uro * a) by nra. lra. }
  split; [exact Fs|]. assert (T : Rabs (B2R s - (B2R (A i j) - rs j (fun k => Lz L i k * Lz L j k))) <= (INR j + 2) * 2 * uro * a + 0.001 * uro * a) by lra.
  split; [exact T|]. apply Rabs_near in T. pose proof (rsum_abs (prods l)) as RA. rewrite RS in RA.
  assert ((INR j + 2) * 2 * uro * a <= 0.01 * a) by (apply Rmult_le_compat_r; [lra|]; rewrite UV; lra).
  assert (0.001 * uro * a <= 0.001 * a) by (apply Rmult_le_compat_r; lra). lra.
Qed.
Lemma pivot_pos64 j s : (j < n)%nat -> good j -> reduced64 A L j j s -> isfin s = true /\ 10 * uro <= B2R s <= 3 * a.
Proof.
  intros Hj Gd R. destruct (reduced_err j j s ltac:(lia) Gd R) as (F & E & B). split; [exact F|].
  pose proof (row_norm j j ltac:(lia) Gd) as Q. pose proof cdel_pos as CP. pose proof uro_pos as UP. assert (C0 : 0 < cdel) by nra.
  assert (JN : INR j + 1 <= INR n). { rewrite <- S_INR. apply le_INR. lia. }
  assert (JC : (INR j + 1) * cdel <= INR n * cdel) by (apply Rmult_le_compat_r; lra).
  apply Rabs_le_inv in E. apply Rabs_le_inv in B. assert (UA : uro <= uro * a) by nra.
  assert ((INR j + 2) * 2 * uro * a + 0.001 * uro * a <= cdel).
  { unfold cdel. pose proof (pos_INR j). assert (0 <= uro * a) by lra.
    replace ((INR j + 2) * 2 * uro * a + 0.001 * uro * a) with (((INR j + 2) * 2 + 0.001) * (uro * a)) by ring.
    replace ((INR n + 6) * 2.1 * uro * a) with ((INR n + 6) * 2.1 * (uro * a)) by ring. apply Rmult_le_compat_r; lra. }
  lra.
Qed.
Lemma good_step j : (j < n)%nat -> good j -> column64 n A L j -> good (S j).
Proof.
  intros Hj Gd [(s & R & _ & V) C]. pose proof Gd as [Fin Er]. pose proof uro_pos as UP. assert (UA : uro <= uro * a) by nra.
  destruct (pivot_pos64 j s Hj Gd R) as [Fs S]. destruct (sqrt_entry s a Fs S a1 a2) as (Fl & Bl & El). rewrite <- V in *.
  assert (JN : INR j + 1 <= INR n). { rewrite <- S_INR. apply le_INR. lia. } pose proof (pos_INR j) as J0.
  assert (D : (INR j + 2) * 2 * uro * a + 0.001 * uro * a + 6.1 * (uro * a) <= cdel).
  { unfold cdel. replace ((INR j + 2) * 2 * uro * a + 0.001 * uro * a + 6.1 * (uro * a)) with (((INR j + 2) * 2 + 6.101) * (uro * a)) by lra.
    replace ((INR n + 6) * 2.1 * uro * a) with ((INR n + 6) * 2.1 * (uro * a)) by ring. apply Rmult_le_compat_r; lra. }
  assert (New : forall i, (j <= i < n)%nat -> isfin (L i j) = true /\ Rabs (rs (Datatypes.S j) (fun k => Lz L i k * Lz L j k) - B2R (A i j)) <= cdel).
  { intros i Hi. destruct (Nat.eq_dec i j) as [->|Ni].
    - split; [exact Fl|]. destruct (reduced_err j j s ltac:(lia) Gd R) as (_ & E & _). cbn [rs]. rewrite (Lz_le L j j) by lia.
      set (q := rs j _) in *. replace (q + B2R (L j j) * B2R (L j j) - B2R (A j j)) with ((B2R (L j j) * B2R (L j j) - B2R s) + (B2R s - (B2R (A j j) - q))) by ring.
      apply Rle_trans with (1 := Rabs_triang _ _). assert (2.01 * uro * B2R s <= 2.01 * uro * (3 * a)) by (apply Rmult_le_compat_l; lra). lra.
    - destruct (C i ltac:(lia)) as (s' & R' & Q'). destruct (reduced_err i j s' Hi Gd R') as (Fs' & E' & B').
      destruct (quot_entry s' (L j j) (L i j) a Fs' B' Fl Bl a1 a2 Q') as [Fq Eq]. split; [exact Fq|]. cbn [rs]. rewrite (Lz_le L i j), (Lz_le L j j) by lia.
      set (q := rs j _) in *. replace (q + B2R (L i j) * B2R (L j j) - B2R (A i j)) with ((B2R (L i j) * B2R (L j j) - B2R s') + (B2R s' - (B2R (A i j) - q))) by ring.
      apply Rle_trans with (1 := Rabs_triang _ _). lra. }
  split.
  - intros i k H1 H2. destruct (Nat.eq_dec k j) as [->|Nk]; [apply New; lia|apply Fin; lia].
  - intros i r H1 H2. destruct (Nat.eq_dec r j) as [->|Nr]; [apply New; lia|apply Er; lia].
Qed.
Lemma good_all j : (j <= n)%nat -> (forall k, (k < j)%nat -> column64 n A L k) -> good j.
Proof.
  induction j as [|j IH]; intros Hj C; [split; intros; lia|]. apply good_step; [lia| |apply C; lia]. apply IH; [lia|]. intros; apply C; lia.
Qed.
End Chol.

Theorem chol64_succeeds n A a lam r : INR n <= 1000000 -> 1 <= a -> a * 1000000000000 <= big ->
  (forall i j, (j <= i < n)%nat -> isfin (A i j) = true /\ Rabs (B2R (A i j)) <= a) ->
  (forall x, lam * norm2 n x <= quad n (sym A) x) -> (INR n + 2) * cdel n a <= lam -> cholesky64 n A r ->
  exists L, r = Ok L /\ (forall i j, (j <= i < n)%nat -> isfin (L i j) = true) /\ (forall j, (j < n)%nat -> 0 < B2R (L j j)) /\
    forall i j, (j <= i < n)%nat -> Rabs (rs (S j) (fun k => B2R (L i k) * B2R (L j k)) - B2R (A i j)) <= cdel n a.
Proof.
  intros Hn a1 a2 HA PD HL R. assert (F : forall i j, (j <= i < n)%nat -> isfin (A i j) = true) by (intros; now apply HA).
  assert (B : forall i j, (j <= i < n)%nat -> Rabs (B2R (A i j)) <= a) by (intros; now apply HA).
  destruct R as [L C|L j s Hj C Rd N].
  - exists L. split; [easy|]. pose proof (good_all n A a lam Hn a1 a2 F B PD HL L n (le_n n) C) as [G1 G2]. split; [intros; apply G1; lia|]. split.
    + intros j Hj. pose proof (good_all n A a lam Hn a1 a2 F B PD HL L j ltac:(lia) ltac:(intros; apply C; lia)) as Gj.
      destruct (C j Hj) as [(s & Rd & _ & V) _]. destruct (pivot_pos64 n A a lam Hn a1 a2 F B PD HL L j s Hj Gj Rd) as [Fs Bs].
      destruct (sqrt_entry s a Fs Bs a1 a2) as (_ & Bl & _). rewrite V. lra.
    + intros i j Hi. pose proof (G2 i j ltac:(lia) Hi) as H. rewrite (rs_ext (S j) _ (fun k => Lz L i k * Lz L j k)); [exact H|].
      intros k Hk. now rewrite !Lz_le by lia.
  - exfalso. pose proof (good_all n A a lam Hn a1 a2 F B PD HL L j ltac:(lia) C) as Gj.
    destruct (pivot_pos64 n A a lam Hn a1 a2 F B PD HL L j s Hj Gj Rd) as [Fs Bs]. pose proof uro_pos.
    assert (T : flt f0 s = true) by (apply flt_finite; [reflexivity|exact Fs|rewrite B2R_f0; lra]). congruence.
Qed.
