(** One predicted variance at a sample, from the residuals of the solves. *)
From Coq Require Import ZArith Bool List Reals Lra Lia Psatz Permutation.
From Flocq Require Import Core IEEE754.BinarySingleNaN.
From Verif Require Import Fl Spec NpList FlFacts FlMag KernelFl KernelFlSpec FlErr OutputFlFacts OutputFlMain KernelFlFacts CholFl RSum CholFlFacts KernelFlMain TrainFl TrainFlFacts PredFlSpec PredFlMean PredFlCore StdFlReal.
Import ListNotations.
Local Open Scope R_scope.

Lemma fin_part {A} (f : A -> b64) x y : (nonfin x -> nonfin y) -> isfin y = true -> isfin x = true.
Proof. unfold nonfin. intros H F. destruct (isfin x); [easy|]. rewrite H in F; easy. Qed.
Definition tiny970 : R := bpow radix2 (-970).
Lemma tiny970_0 : 0 < tiny970. Proof. apply bpow_gt_0. Qed.
Lemma tiny970_1 : tiny970 * 1000000000000000000000000000000 <= 1.
Proof.
  apply Rle_trans with (tiny970 * bpow radix2 100). - apply Rmult_le_compat_l; [apply bpow_ge_0|]. change (bpow radix2 100) with (IZR (2 ^ 100)). apply IZR_le. apply Z.leb_le. reflexivity.
  - unfold tiny970. rewrite <- bpow_plus. change 1 with (bpow radix2 0). apply bpow_le. lia.
Qed.

Section Cell.
Variables (np_dot : list (b64 * b64) -> b64) (np_solve : nat -> nat -> array -> array -> result array) (eps : R).
Hypotheses (dot_ok : forall l, dot_of l (np_dot l)) (So : backward_stable eps np_solve) (e0 : 0 <= eps <= / 1000).
Local Notation dot := (dot64 np_dot).
Local Notation solve2 := (solve2 np_solve).
Lemma dot_part_r k A B i j : isfin (dot k A B i j) = true -> forall l, (l < k)%nat -> isfin (B l j) = true.
Proof.
  intros F l Hl. apply (fin_part (fun x => x)) with (2 := F). intros N. apply (dot_nonfin _ _ (dot_ok _)). exists (A i l), (B l j). split; [|now right]. apply in_map_iff. exists l. split; [reflexivity|]. apply in_seq. lia.
Qed.
Lemma dot_part_l k A B i j : isfin (dot k A B i j) = true -> forall l, (l < k)%nat -> isfin (A i l) = true.
Proof.
  intros F l Hl. apply (fin_part (fun x => x)) with (2 := F). intros N. apply (dot_nonfin _ _ (dot_ok _)). exists (A i l), (B l j). split; [|now left]. apply in_map_iff. exists l. split; [reflexivity|]. apply in_seq. lia.
Qed.

Variables (n m : nat) (L : array) (a : R).
Hypotheses (N1 : 1 <= INR n) (N2 : INR n * (INR n + 1) <= 64000).
Hypotheses (a0 : 0 <= a) (aa : a * a <= 1.02) (FL : forall i k, (i < n)%nat -> (k < n)%nat -> isfin (L i k) = true /\ Rabs (B2R (L i k)) <= a).
Local Notation lr := (fun i k => B2R (L i k)).
Local Notation H := (hh n lr).
Local Notation act := (act n lr).
Local Notation en := (en n lr).
Definition c_0 : R := 2.15 * INR n * eps.
Lemma n_254 : INR n <= 254. Proof. nra. Qed.
Lemma solved mm B X j : solve2 n mm L B = Ok X -> (j < mm)%nat -> (forall l, (l < n)%nat -> isfin (X l j) = true) ->
  forall l, (l < n)%nat -> isfin (B l j) = true /\ Rabs (act (fun k => B2R (X k j)) l - B2R (B l j)) <= c_0 * l1 n (fun k => B2R (X k j)) + tiny970.
Proof.
  intros S2 Hj FX. unfold TrainFl.solve2, bind in S2. destruct (np_solve n mm L B) as [Z|] eqn:S1; [|discriminate S2].
  assert (Q2 := So n mm (transpose L) Z X a j S2 Hj (fun i k Hi Hk => FL k i Hk Hi) FX).
  assert (Q1 := So n mm L B Z a j S1 Hj FL (fun i Hi => proj1 (Q2 i Hi))).
  intros l Hl. split; [exact (proj1 (Q1 l Hl))|].
  assert (R2 := two_solves n lr (fun k => B2R (X k j)) (fun k => B2R (Z k j)) (fun i => B2R (B i j)) a eps (/ 2 ^ 1000) a0 ltac:(lra)).
  specialize (R2 ltac:(left; apply Rinv_0_lt_compat, pow_lt; lra) (fun i k Hi Hk => proj2 (FL i k Hi Hk))).
  specialize (R2 ltac:(intros k Hk; destruct (Q1 k Hk) as [_ q]; rewrite !total_rs in q; exact q)).
  specialize (R2 ltac:(intros k Hk; destruct (Q2 k Hk) as [_ q]; rewrite !total_rs in q; exact q) l Hl).
  cbv beta in R2. change (rs n (fun j0 => rs n (fun k => lr l k * lr j0 k) * B2R (X j0 j))) with (act (fun k => B2R (X k j)) l) in R2.
  eapply Rle_trans; [exact R2|]. fold (l1 n (fun k => B2R (X k j))). pose proof (l1_ge0 n (fun k => B2R (X k j))) as G0. set (G := l1 _ _) in *. pose proof n_254 as N3.
  apply Rplus_le_compat.
  - apply Rmult_le_compat_r; [exact G0|]. unfold c_0. assert (0 <= INR n * eps) by (apply Rmult_le_pos; lra). replace (2.1 * INR n * eps * (a * a)) with ((INR n * eps) * (2.1 * (a * a))) by ring. replace (2.15 * INR n * eps) with ((INR n * eps) * 2.15) by ring. apply Rmult_le_compat_l; lra.
  - rewrite inv_pow. change (- Z.of_nat 1000)%Z with (-1000)%Z. assert (A1 : a <= 1.01) by nra.
    apply Rle_trans with (bpow radix2 30 * bpow radix2 (-1000)); [|unfold tiny970; rewrite <- bpow_plus; apply bpow_le; lia]. apply Rmult_le_compat_r; [apply bpow_ge_0|].
    change (bpow radix2 30) with 1073741824. assert (INR n * a <= 254 * 1.01) by (apply Rmult_le_compat; lra). assert (0 <= INR n * a) by (apply Rmult_le_pos; lra).
    apply Rle_trans with (2.01 * 300); [|lra]. apply Rmult_le_compat; lra.
Qed.

(** the factor of a one by one matrix *)
Lemma one_factor A ld g : cholesky64 1 A (Ok ld) -> B2R (A 0%nat 0%nat) = g -> isfin (A 0%nat 0%nat) = true -> 0.1 <= g <= 2 ^ 100 ->
  isfin (ld 0%nat 0%nat) = true /\ 0 < B2R (ld 0%nat 0%nat) /\ 0.999 * g <= B2R (ld 0%nat 0%nat) * B2R (ld 0%nat 0%nat).
Proof.
  intros C E FA [g0 g1]. inversion C as [L' H1 EL|]; subst. destruct (H1 0%nat ltac:(lia)) as [(s & Rd & Ps & Es) _]. unfold reduced64 in Rd. cbn [seq map] in Rd.
  destruct (dot_of_err _ _ Rd) as [Fs Er].
  - constructor; [|constructor]. split; [exact FA|reflexivity].
  - cbn. lra.
  - unfold asum, prods. cbn [map fold_right fst snd rsum]. rewrite B2R_f1, Rmult_1_r, Rplus_0_r, Rabs_pos_eq by lra. apply Rle_trans with (1 := g1). rewrite pow_bpow. apply bpow_le. cbn. lia.
  - unfold asum, prods in Er. cbn [map fold_right fst snd rsum length pow INR] in Er. rewrite B2R_f1, !Rmult_1_r, !Rplus_0_r, !Rmult_1_l, (Rabs_pos_eq (B2R (A 0%nat 0%nat))) in Er by lra.
    pose proof uro_pos as U. pose proof uro_val as UV. pose proof eta_pos as EP. pose proof eta_tiny as ET. set (g := B2R (A 0%nat 0%nat)) in *. set (sv := B2R s) in *. 
    replace (1 + uro - 1) with uro in Er by ring.
    assert (U1 : uro * g <= 0.00001 * g) by (apply Rmult_le_compat_r; [lra|rewrite UV; lra]).
    assert (X2 : eta * (1 + uro) <= 0.0000001). { assert (eta * (1 + uro) <= eta * 2) by (apply Rmult_le_compat_l; [lra|rewrite UV; lra]). rewrite UV in ET. lra. }
    apply Rabs_le_inv in Er.
    destruct (sqrt_entry s (2 ^ 100) Fs) as (q0 & [q1 _] & q2).
    + fold sv. rewrite UV. split; lra.
    + apply pow_R1_Rle. lra.
    + rewrite pow_bpow. apply Rle_trans with (bpow radix2 (Z.of_nat 100) * bpow radix2 100); [apply Rmult_le_compat_l; [apply bpow_ge_0|]; change (bpow radix2 100) with (IZR (2 ^ 100)); apply IZR_le; apply Z.leb_le; reflexivity|].
      rewrite <- bpow_plus. apply bpow_le. cbn. lia.
    + rewrite Es. split; [exact q0|]. split; [lra|]. fold sv in q2. apply Rabs_le_inv in q2. assert (2.01 * uro * sv <= 0.00001 * sv) by (apply Rmult_le_compat_r; [lra|rewrite UV; lra]). lra.
Qed.
(** the two divisions by the factor *)
Lemma one_solved mm ld B X j l : solve2 1 mm ld B = Ok X -> (j < mm)%nat -> isfin (X 0%nat j) = true -> isfin (ld 0%nat 0%nat) = true -> B2R (ld 0%nat 0%nat) = l -> 0.1 <= l ->
  Rabs (B2R (B 0%nat j)) <= 1 ->
  Rabs (B2R (B 0%nat j) * B2R (X 0%nat j)) <= 1.01 * (B2R (B 0%nat j) * B2R (B 0%nat j) / (l * l) + 1000 * tiny970) /\ Rabs (B2R (X 0%nat j)) <= 200.
Proof.
  intros S2 Hj FX Fl El l0 B1. unfold TrainFl.solve2, bind in S2. destruct (np_solve 1 mm ld B) as [Z|] eqn:S1; [|discriminate S2].
  assert (FF : forall i k, (i < 1)%nat -> (k < 1)%nat -> isfin (ld i k) = true /\ Rabs (B2R (ld i k)) <= l).
  { intros i k Hi Hk. replace i with 0%nat by lia. replace k with 0%nat by lia. split; [exact Fl|]. rewrite El, Rabs_pos_eq; lra. }
  assert (Q2 := So 1%nat mm (transpose ld) Z X l j S2 Hj (fun i k Hi Hk => FF k i Hk Hi) ltac:(intros i Hi; replace i with 0%nat by lia; exact FX)).
  assert (Q1 := So 1%nat mm ld B Z l j S1 Hj FF (fun i Hi => proj1 (Q2 i Hi))).
  destruct (Q2 0%nat ltac:(lia)) as [_ P2]. destruct (Q1 0%nat ltac:(lia)) as [_ P1]. rewrite !total_rs in P1, P2. unfold transpose in P2. cbn [rs] in P1, P2. unfold val in P1, P2. rewrite El, !Rplus_0_l in P1, P2.
  assert (TT : (1 + l) * / 2 ^ 1000 <= l * (11 * / 2 ^ 1000)). { assert (0 < / 2 ^ 1000) by (apply Rinv_0_lt_compat, pow_lt; lra). replace (l * (11 * / 2 ^ 1000)) with ((11 * l) * / 2 ^ 1000) by ring. apply Rmult_le_compat_r; lra. }
  assert (TS : 11 * / 2 ^ 1000 <= tiny970). { rewrite inv_pow. apply Rle_trans with (bpow radix2 4 * bpow radix2 (- Z.of_nat 1000)); [apply Rmult_le_compat_r; [apply bpow_ge_0|cbn; lra]|]. unfold tiny970. rewrite <- bpow_plus. apply bpow_le. cbn. lia. }
  pose proof tiny970_0 as T0. pose proof tiny970_1 as T1. set (tau := tiny970) in *. clearbody tau.
  assert (TL : (1 + l) * / 2 ^ 1000 <= l * tau). { apply Rle_trans with (1 := TT). apply Rmult_le_compat_l; lra. } clear TT TS. set (y := (1 + l) * / 2 ^ 1000) in *. clearbody y.
  set (b := B2R (B 0%nat j)) in *. set (x := B2R (X 0%nat j)) in *. set (z := B2R (Z 0%nat j)) in *. clearbody b x z.
  pose proof (Rabs_pos b) as Pb. pose proof (Rabs_pos x) as Px. pose proof (Rabs_pos z) as Pz.
  assert (Z1 : 0.999 * (l * Rabs z) <= Rabs b + l * tau).
  { rewrite Rabs_minus_sym in P1. replace (l * Rabs z) with (Rabs (l * z)) by (rewrite Rabs_mult, (Rabs_pos_eq l) by lra; reflexivity).
    assert (A : Rabs (l * z) <= Rabs b + Rabs (b - l * z)). { replace (l * z) with (b + - (b - l * z)) at 1 by ring. eapply Rle_trans; [apply Rabs_triang|]. rewrite Rabs_Ropp. lra. }
    assert (E : eps * l * Rabs z <= / 1000 * Rabs (l * z)). { rewrite Rabs_mult, (Rabs_pos_eq l) by lra. rewrite Rmult_assoc. apply Rmult_le_compat_r; [apply Rmult_le_pos; lra|lra]. } lra. }
  assert (X1 : 0.999 * (l * Rabs x) <= Rabs z + l * tau).
  { rewrite Rabs_minus_sym in P2. replace (l * Rabs x) with (Rabs (l * x)) by (rewrite Rabs_mult, (Rabs_pos_eq l) by lra; reflexivity).
    assert (A : Rabs (l * x) <= Rabs z + Rabs (z - l * x)). { replace (l * x) with (z + - (z - l * x)) at 1 by ring. eapply Rle_trans; [apply Rabs_triang|]. rewrite Rabs_Ropp. lra. }
    assert (E : eps * l * Rabs x <= / 1000 * Rabs (l * x)). { rewrite Rabs_mult, (Rabs_pos_eq l) by lra. rewrite Rmult_assoc. apply Rmult_le_compat_r; [apply Rmult_le_pos; lra|lra]. } lra. }
  set (il := / l). assert (il0 : 0 < il <= 10). { unfold il. split; [apply Rinv_0_lt_compat; lra|]. replace 10 with (/ 0.1) by lra. apply Rinv_le; lra. }
  assert (Li : l * il = 1) by (apply Rinv_r; lra).
  assert (Z2 : Rabs z <= 1.0011 * (Rabs b * il + tau)).
  { assert (A : il * (0.999 * (l * Rabs z)) <= il * (Rabs b + l * tau)) by (apply Rmult_le_compat_l; lra).
    replace (il * (0.999 * (l * Rabs z))) with (0.999 * (l * il) * Rabs z) in A by ring. replace (il * (Rabs b + l * tau)) with (Rabs b * il + (l * il) * tau) in A by ring. rewrite Li in A. assert (0 <= Rabs b * il) by (apply Rmult_le_pos; lra). lra. }
  assert (X2 : Rabs x <= 1.0011 * (Rabs z * il + tau)).
  { assert (A : il * (0.999 * (l * Rabs x)) <= il * (Rabs z + l * tau)) by (apply Rmult_le_compat_l; lra).
    replace (il * (0.999 * (l * Rabs x))) with (0.999 * (l * il) * Rabs x) in A by ring. replace (il * (Rabs z + l * tau)) with (Rabs z * il + (l * il) * tau) in A by ring. rewrite Li in A. assert (0 <= Rabs z * il) by (apply Rmult_le_pos; lra). lra. }
  assert (X3 : Rabs x <= 1.003 * (Rabs b * (il * il)) + 20 * tau).
  { assert (A : Rabs z * il <= 1.0011 * (Rabs b * il + tau) * il) by (apply Rmult_le_compat_r; lra). assert (tau * il <= tau * 10) by (apply Rmult_le_compat_l; lra). assert (0 <= Rabs b * (il * il)) by (repeat apply Rmult_le_pos; lra). lra. }
  assert (II : 0 <= il * il <= 100) by nra.
  split.
  - rewrite Rabs_mult. apply Rle_trans with (Rabs b * (1.003 * (Rabs b * (il * il)) + 20 * tau)); [apply Rmult_le_compat_l; lra|].
    assert (BB : Rabs b * Rabs b = b * b) by (rewrite <- Rabs_mult; apply Rabs_pos_eq; nra).
    replace (b * b / (l * l)) with (b * b * (il * il)) by (unfold il; field; lra).
    assert (0 <= b * b * (il * il)) by (apply Rmult_le_pos; [nra|lra]). assert (Rabs b * tau <= 1 * tau) by (apply Rmult_le_compat_r; lra).
    replace (Rabs b * (1.003 * (Rabs b * (il * il)) + 20 * tau)) with (1.003 * (Rabs b * Rabs b * (il * il)) + 20 * (Rabs b * tau)) by ring. rewrite BB. lra.
  - assert (Rabs b * (il * il) <= 1 * 100) by (apply Rmult_le_compat; lra). lra.
Qed.

(** ** The cell *)
Variables (lam c1 : R) (knew ft fn KF ld delta S : array) (mm i : nat).
Local Notation t := tiny970.
Local Notation ca := (c_0 + c1 + tiny970).
Hypotheses (lam0 : 700000 * uro <= lam <= / 10000000000) (Low : forall x, lam * norm2 n x <= en x x) (C1 : 0 <= c1) (NC : INR n * ca <= 0.2 * lam).
Hypotheses (H1 : forall k l, (k < n)%nat -> (l < n)%nat -> H k l <= 1.01) (Hi : (i < n)%nat) (Him : (i < mm)%nat).
Hypotheses (FK : forall l, (l < n)%nat -> isfin (knew l i) = true /\ Rabs (B2R (knew l i)) <= 1.01) (KH : forall l, (l < n)%nat -> Rabs (B2R (knew l i) - H l i) <= c1).
Hypothesis KI : 1 + / 10000000000 - c1 <= B2R (knew i i).
Hypotheses (FT : forall l, (l < n)%nat -> ft l 0%nat = f1) (FN : fn i 0%nat = f1).
Hypotheses (SK : solve2 n 1 L ft = Ok KF) (CL : cholesky64 1 (dot n (transpose ft) KF) (Ok ld)).
Local Notation R := (minus (transpose fn) (dot n (transpose ft) delta)).
Hypotheses (SD : solve2 n mm L knew = Ok delta) (SS : solve2 1 mm ld R = Ok S).
Definition cell : b64 := fadd (fsub f1 (dot n (transpose knew) delta i i)) (dot 1 (transpose R) S i i).

Lemma c_0_0 : 0 <= c_0. Proof. unfold c_0. apply Rmult_le_pos; [|lra]. apply Rmult_le_pos; lra. Qed.
Lemma nt_small : INR n * t <= 0.0001 * lam.
Proof. pose proof n_254 as N3. pose proof tiny970_1 as T1. pose proof tiny970_0 as T0. pose proof uro_val as UV. rewrite UV in lam0. assert (INR n * t <= 254 * t) by (apply Rmult_le_compat_r; lra). lra. Qed.
Lemma lam_bounds : 0 < lam <= / 10000000000. Proof. pose proof uro_pos. lra. Qed.
Lemma fsub_nonfin_r x y : nonfin y -> nonfin (fsub x y).
Proof. intros Q. destruct (nonfin_cases y Q) as [->|[b ->]]; destruct x as [s|s| |s m0 e B]; try reflexivity. now destruct b, s. Qed.
Lemma fin_kf l : isfin (ld 0%nat 0%nat) = true -> (l < n)%nat -> isfin (KF l 0%nat) = true.
Proof.
  intros Fl. apply (dot_part_r n (transpose ft) KF 0%nat 0%nat).
  apply (fin_part (fun x => x)) with (2 := Fl). intros N. inversion CL as [L' Q EL|]; subst. destruct (Q 0%nat ltac:(lia)) as [(s & Rd & Ps & Es) _].
  assert (Ns : nonfin s) by (apply (dot_nonfin _ _ Rd); exists (dot n (transpose ft) KF 0%nat 0%nat), f1; split; [now left|now left]).
  rewrite Es. destruct (nonfin_cases s Ns) as [->|[b ->]]; [reflexivity|]. destruct b; reflexivity.
Qed.
Hypothesis FKF : forall l, (l < n)%nat -> isfin (KF l 0%nat) = true.
Local Notation ka := (fun k => B2R (KF k 0%nat)).
Lemma trend_hyp l : (l < n)%nat -> Rabs (act ka l - 1) <= c_0 * l1 n ka + t.
Proof. intros Hl. destruct (solved 1 ft KF 0%nat SK ltac:(lia) FKF l Hl) as [_ Q]. rewrite FT, B2R_f1 in Q by exact Hl. exact Q. Qed.
Lemma ones_dot X j c : (forall l, (l < n)%nat -> isfin (X l j) = true) -> l1 n (fun k => B2R (X k j)) <= c -> c <= 1000000000000000 ->
  isfin (dot n (transpose ft) X 0%nat j) = true /\ Rabs (B2R (dot n (transpose ft) X 0%nat j) - rs n (fun k => B2R (X k j))) <= (INR n + 1) * uro * l1 n (fun k => B2R (X k j)) + t.
Proof.
  intros FX Lc c0. pose proof n_254 as N3.
  destruct (dot_rs np_dot dot_ok n (transpose ft) X 0%nat j 1 ltac:(lra) ltac:(lra)) as [F Er].
  - intros l Hl. unfold transpose. rewrite FT by exact Hl. rewrite B2R_f1, Rabs_R1. split; [reflexivity|lra].
  - exact FX.
  - rewrite Rmult_1_l. fold (l1 n (fun k => B2R (X k j))). apply Rle_trans with (1 := Lc), Rle_trans with (1 := c0). unfold big. apply Rle_trans with (bpow radix2 60); [change (bpow radix2 60) with (IZR (2 ^ 60)); apply IZR_le; apply Z.leb_le; reflexivity|apply bpow_le; lia].
  - split; [exact F|]. rewrite (rs_ext n _ (fun k => B2R (X k j))) in Er by (intros l Hl; unfold transpose; rewrite FT, B2R_f1 by exact Hl; ring).
    rewrite Rmult_1_l in Er. fold (l1 n (fun k => B2R (X k j))) in Er. eapply Rle_trans; [exact Er|]. apply Rplus_le_compat_l.
    apply Rle_trans with (1024 * eta); [apply Rmult_le_compat_r; [left; apply eta_pos|lra]|]. change 1024 with (bpow radix2 10). unfold eta, tiny970. rewrite <- bpow_plus. apply bpow_le. lia.
Qed.
(** the trend *)
Lemma low_g : exists g, B2R (dot n (transpose ft) KF 0%nat 0%nat) = g /\ isfin (dot n (transpose ft) KF 0%nat 0%nat) = true /\ 0.5 <= en ka ka /\ 0.7 * en ka ka <= g <= 2 ^ 100.
Proof.
  pose proof c_0_0 as C0. pose proof tiny970_0 as T0. pose proof tiny970_1 as T1. pose proof lam_bounds as LB. pose proof nt_small as NT. pose proof n_254 as N3. pose proof uro_pos as U. pose proof uro_val as UV.
  assert (CA : c_0 + t <= ca) by lra. assert (T0' : 0 <= t) by lra.
  assert (Q5 := trend_low n lr lam c_0 ca t LB N1 Low C0 T0' CA NC ka H1 trend_hyp).
  assert (QS := trend_sum n lr lam c_0 ca t LB N1 Low C0 T0' CA NC NT ka trend_hyp).
  assert (QR := trend_room n lr lam c_0 ca t LB N1 Low C0 T0' CA NC NT ka trend_hyp).
  assert (QE := l1_en n lr lam LB N1 Low ka). pose proof (l1_ge0 n ka) as W0.
  assert (W1 : l1 n ka <= 1000000000000000).
  { apply (Rmult_le_reg_l lam); [lra|]. apply Rle_trans with (1 := QR). apply Rle_trans with (700000 * uro * 1000000000000000); [rewrite UV; lra|apply Rmult_le_compat_r; lra]. }
  destruct (ones_dot KF 0%nat _ FKF W1 ltac:(lra)) as [FG D].
  exists (B2R (dot n (transpose ft) KF 0%nat 0%nat)). split; [reflexivity|]. split; [exact FG|]. split; [exact Q5|].
  set (g := B2R _) in *. set (w := l1 n ka) in *. set (q := en ka ka) in *. set (sm := rs n ka) in *.
  change (rs n (fun k => B2R (KF k 0%nat))) with sm in D. change (l1 n (fun k => B2R (KF k 0%nat))) with w in D.
  assert (SM : sm <= w). { unfold sm, w, l1. apply rs_le. intros; apply Rle_abs. }
  clearbody g w q sm. apply Rabs_le_inv in D. apply Rabs_le_inv in QS.
  assert (Z : (INR n + 1) * uro * w <= 0.05 * q + 0.0000000001).
  { assert (A : (INR n + 1) * uro * w <= (INR n + 1) * uro * ((w * w + 1) / 2)) by (apply Rmult_le_compat_l; [apply Rmult_le_pos; lra|]; pose proof (Rle_0_sqr (w - 1)) as Y; unfold Rsqr in Y; clear - Y; lra).
    assert (B : (INR n + 1) * uro * (w * w) <= 0.0915 * q).
    { apply (Rmult_le_reg_l lam); [lra|]. replace (lam * ((INR n + 1) * uro * (w * w))) with ((INR n + 1) * uro * (lam * (w * w))) by ring.
      apply Rle_trans with ((INR n + 1) * uro * (INR n * q)); [apply Rmult_le_compat_l; [apply Rmult_le_pos; lra|exact QE]|].
      replace ((INR n + 1) * uro * (INR n * q)) with ((INR n * (INR n + 1)) * (uro * q)) by ring. assert (0 <= uro * q) by (apply Rmult_le_pos; lra).
      apply Rle_trans with (64000 * (uro * q)); [apply Rmult_le_compat_r; lra|]. assert (700000 * uro * q <= lam * q) by (apply Rmult_le_compat_r; lra). lra. }
    assert (C : (INR n + 1) * uro <= 255 * uro) by (apply Rmult_le_compat_r; lra). rewrite UV in C at 2. set (k := (INR n + 1) * uro) in *. lra. }
  split; [lra|]. assert (Z2 : (INR n + 1) * uro * w <= 255 * uro * w) by (apply Rmult_le_compat_r; [exact W0|]; apply Rmult_le_compat_r; lra).
  assert (Z3 : 255 * uro * w <= 1 * w) by (apply Rmult_le_compat_r; [exact W0|rewrite UV; lra]).
  apply Rle_trans with 3000000000000000; [lra|]. rewrite pow_bpow. change (bpow radix2 (Z.of_nat 100)) with (IZR (2 ^ 100)). apply IZR_le. apply Z.leb_le. reflexivity.
Qed.
Theorem cell_value : (forall l, (l < n)%nat -> isfin (delta l i) = true) -> isfin (S 0%nat i) = true -> isfin cell = true /\ - 10 <= B2R cell < 0.
Proof.
  intros FX FS. unfold cell in *. set (D1 := fsub f1 _) in *. set (P := dot 1 _ _ i i) in *.
  pose proof c_0_0 as C0. pose proof tiny970_0 as T0. pose proof tiny970_1 as T1. pose proof lam_bounds as LB. pose proof nt_small as NT. pose proof n_254 as N3. pose proof uro_pos as U. pose proof uro_val as UV. pose proof eta_pos as EP. pose proof eta_tiny as ET. pose proof big_large as BL.
  assert (CA : c_0 + t <= ca) by lra. assert (T0' : 0 <= t) by lra.
  set (x := fun l => B2R (delta l i)). set (un := fun l => if Nat.eqb l i then 1 else 0). set (e := fun l => x l - un l).
  assert (L1x : l1 n x <= l1 n e + 1).
  { assert (HU : l1 n un = 1). { unfold l1. rewrite (rs_sup 0 n i) by (try lia; intros k _ N; unfold un; apply Nat.eqb_neq in N; rewrite N; apply Rabs_R0). cbn [rs]. unfold un. rewrite Nat.eqb_refl, Rabs_R1. ring. }
    rewrite <- HU. unfold l1. rewrite <- rs_plus. apply rs_le. intros k Hk. replace (x k) with (e k + un k) by (unfold e; ring). apply Rabs_triang. }
  assert (AE : forall l, (l < n)%nat -> act e l = act x l - H l i).
  { intros l Hl. unfold StdFlReal.act. rewrite (rs_ext n _ (fun j => H l j * x j - H l j * un j)) by (intros; unfold e; ring). rewrite rs_minus. f_equal.
    rewrite (rs_sup 0 n i) by (try lia; intros k _ N; unfold un; apply Nat.eqb_neq in N; rewrite N; ring). cbn [rs]. unfold un. rewrite Nat.eqb_refl. ring. }
  assert (HE : forall l, (l < n)%nat -> Rabs (act e l) <= ca + c_0 * l1 n e).
  { intros l Hl. rewrite AE by exact Hl. destruct (solved mm knew delta i SD Him FX l Hl) as [_ Q]. change (fun k => B2R (delta k i)) with x in Q. pose proof (KH l Hl) as K.
    replace (act x l - H l i) with ((act x l - B2R (knew l i)) + (B2R (knew l i) - H l i)) by ring. eapply Rle_trans; [apply Rabs_triang|].
    assert (c_0 * l1 n x <= c_0 * (l1 n e + 1)) by (apply Rmult_le_compat_l; lra). lra. }
  destruct (small_vector n lr lam c_0 ca t LB N1 Low C0 T0' CA NC e HE) as [S1 S2].
  assert (CB := ca_small n lam c_0 ca t N1 C0 T0' CA NC).
  pose proof (l1_ge0 n e) as s0. pose proof (l1_ge0 n x) as sx.
  (* the first part *)
  set (kd := rs n (fun l => B2R (knew l i) * x l)).
  assert (KD : 1 + / 10000000000 - 2.5 * ca <= kd).
  { assert (E1 : kd = B2R (knew i i) + (rs n (fun l => e l * (B2R (knew l i) - H l i)) + act e i)).
    { unfold kd, StdFlReal.act. rewrite <- rs_plus. rewrite (rs_ext n _ (fun l => B2R (knew l i) * un l + B2R (knew l i) * e l)) by (intros; unfold e; ring). rewrite rs_plus. f_equal.
      - rewrite (rs_sup 0 n i) by (try lia; intros k _ N; unfold un; apply Nat.eqb_neq in N; rewrite N; ring). cbn [rs]. unfold un. rewrite Nat.eqb_refl. ring.
      - apply rs_ext. intros l _. rewrite (hh_sym n lr i l). ring. }
    pose proof (rs_weigh n e (fun l => B2R (knew l i) - H l i) c1 KH) as A1. pose proof (HE i Hi) as A2. cbv beta in A1. apply Rabs_le_inv in A1. apply Rabs_le_inv in A2.
    assert (l1 n e * c1 <= 0.25 * c1) by (apply Rmult_le_compat_r; lra). assert (c_0 * l1 n e <= c_0 * 0.25) by (apply Rmult_le_compat_l; lra). lra. }
  destruct (dot_rs np_dot dot_ok n (transpose knew) delta i i 1.01 ltac:(lra) ltac:(lra) ltac:(intros l Hl; exact (FK l Hl)) FX) as [FD2 ED].
  { change (1.01 * l1 n x <= big). lra. }
  change (rs n (fun l => B2R (transpose knew i l) * B2R (delta l i))) with kd in ED. change (rs n (fun l => Rabs (B2R (delta l i)))) with (l1 n x) in ED.
  assert (NE : 2 * INR n * eta <= uro). { apply Rle_trans with (508 * eta); [apply Rmult_le_compat_r; lra|lra]. }
  assert (NU : (INR n + 1) * uro <= 255 * uro) by (apply Rmult_le_compat_r; lra).
  assert (NU0 : 0 <= (INR n + 1) * uro) by (apply Rmult_le_pos; lra).
  assert (NX : (INR n + 1) * uro * (1.01 * l1 n x) <= 255 * uro * 1.2625) by (apply Rmult_le_compat; lra).
  assert (KU : Rabs kd <= 1.2625).
  { unfold kd. eapply Rle_trans; [apply rs_abs|]. eapply Rle_trans; [apply (rs_abs_mul n (fun l => B2R (knew l i)) x 1.01); intros; apply FK; assumption|]. fold (l1 n x). lra. }
  set (dv := B2R (dot n (transpose knew) delta i i)) in *.
  assert (D2 : Rabs (1 - dv) <= 3 /\ 1 - dv <= - (0.49 * / 10000000000)). { apply Rabs_le_inv in ED. apply Rabs_le_inv in KU. rewrite UV in *. split; [apply Rabs_le|]; lra. }
  destruct (fsub_err f1 _ eq_refl FD2) as [FD E1]; [fold dv; rewrite B2R_f1; lra|]. fold D1 in FD. fold D1 dv in E1. rewrite B2R_f1 in E1.
  assert (V1 : B2R D1 <= - (0.48 * / 10000000000) /\ - 4 <= B2R D1).
  { apply Rabs_le_inv in E1. destruct D2 as [D2 D3]. assert (uro * Rabs (1 - dv) <= uro * 3) by (apply Rmult_le_compat_l; lra). apply Rabs_le_inv in D2. rewrite UV in *. lra. }
  (* the second part *)
  destruct (cross_sum n lr lam c_0 ca t LB N1 Low C0 T0' CA NC ka trend_hyp e HE) as (z & Z1 & Z0 & Z2).
  destruct low_g as (g & Eg & Fg & Q5 & G1 & G2).
  destruct (one_factor _ ld g CL Eg Fg ltac:(lra)) as [Fl [l0 LL]].
  assert (SX : rs n x = 1 + rs n e).
  { rewrite (rs_ext n x (fun l => un l + e l)) by (intros; unfold e; ring). rewrite rs_plus. f_equal. rewrite (rs_sup 0 n i) by (try lia; intros k _ N; unfold un; apply Nat.eqb_neq in N; now rewrite N). cbn [rs]. unfold un. rewrite Nat.eqb_refl. ring. }
  assert (OD := ones_dot delta i 2 FX). change (fun k => B2R (delta k i)) with x in OD. destruct (OD ltac:(lra) ltac:(lra)) as [FF OD']. clear OD. rename OD' into OD.
  change (rs n (fun k => B2R (delta k i))) with (rs n x) in OD. rewrite SX in OD.
  assert (NX2 : (INR n + 1) * uro * l1 n x <= 255 * uro * 1.25) by (apply Rmult_le_compat; lra).
  set (fv := B2R (dot n (transpose ft) delta 0%nat i)) in *. set (se := rs n e) in *.
  assert (SE : Rabs se <= 0.25). { unfold se. eapply Rle_trans; [apply rs_abs|exact S1]. }
  assert (RV : isfin (R 0%nat i) = true /\ Rabs (B2R (R 0%nat i) + se) <= 320 * uro).
  { assert (B0 : R 0%nat i = fsub f1 (dot n (transpose ft) delta 0%nat i)) by (unfold minus, transpose; rewrite FN; reflexivity). rewrite B0.
    apply Rabs_le_inv in OD. apply Rabs_le_inv in SE. assert (Y1 : Rabs (1 - fv) <= 0.3) by (apply Rabs_le; rewrite UV in *; lra).
    destruct (fsub_err f1 _ eq_refl FF) as [F E2]; [fold fv; rewrite B2R_f1; lra|]. split; [exact F|]. fold fv in E2. rewrite B2R_f1 in E2. apply Rabs_le_inv in E2. assert (uro * Rabs (1 - fv) <= uro * 0.3) by (apply Rmult_le_compat_l; lra).
    set (v := B2R (fsub _ _)) in *. apply Rabs_le. rewrite UV in *. lra. }
  destruct RV as [FR RV]. set (rv := B2R (R 0%nat i)) in *.
  assert (RZ : Rabs rv <= z + 0.0000000000001). { replace rv with ((rv + se) + - se) by ring. eapply Rle_trans; [apply Rabs_triang|]. rewrite Rabs_Ropp. rewrite UV in RV. lra. }
  assert (R1 : Rabs rv <= 0.3). { replace rv with ((rv + se) + - se) by ring. eapply Rle_trans; [apply Rabs_triang|]. rewrite Rabs_Ropp. rewrite UV in RV. lra. }
  set (lv := B2R (ld 0%nat 0%nat)) in *. set (q := en ka ka) in *. set (Q := en e e) in *.
  assert (L1' : 0.1 <= lv). { destruct (Rle_lt_dec 0.1 lv) as [h|h]; [exact h|]. exfalso. assert (lv * lv <= 0.1 * 0.1) by (apply Rmult_le_compat; lra). lra. }
  destruct (one_solved mm ld R S i lv SS Him FS Fl eq_refl L1') as [PS SB]; [fold rv; lra|]. fold rv in PS. set (sv := B2R (S 0%nat i)) in *.
  assert (Q0 : 0 <= Q) by apply en_ge0.
  assert (RR : rv * rv <= 1.1 * (z * z) + 0.000000000000000000000001).
  { assert (A : Rabs rv * Rabs rv = rv * rv) by (rewrite <- Rabs_mult; apply Rabs_pos_eq, Rle_0_sqr). rewrite <- A. pose proof (Rabs_pos rv) as P0.
    assert (B : Rabs rv * Rabs rv <= (z + 0.0000000000001) * (z + 0.0000000000001)) by (apply Rmult_le_compat; lra).
    pose proof (Rle_0_sqr (z - 10 * 0.0000000000001)) as Y. unfold Rsqr in Y. lra. }
  assert (QT : rv * rv / (lv * lv) <= 2.28 * Q + 0.00000000000000001).
  { assert (LP : 0 < lv * lv) by (apply Rmult_lt_0_compat; lra). apply (Rmult_le_reg_r (lv * lv)); [exact LP|]. unfold Rdiv. rewrite Rmult_assoc, Rinv_l, Rmult_1_r by (apply Rgt_not_eq; exact LP). apply Rle_trans with ((2.28 * Q + 0.00000000000000001) * (0.699 * q)); [|apply Rmult_le_compat_l; lra].
    assert (0 <= q * Q) by (apply Rmult_le_pos; lra). lra. }
  destruct (dot_rs np_dot dot_ok 1 (transpose R) S i i 0.3 ltac:(lra) ltac:(cbn; lra)) as [FP EQ].
  { intros l Hl. replace l with 0%nat by lia. split; [exact FR|exact R1]. } { intros l Hl. replace l with 0%nat by lia. exact FS. }
  { cbn [rs]. fold sv. lra. }
  cbn [rs INR] in EQ. change (B2R (transpose R i 0%nat)) with rv in EQ. fold P in FP. fold sv P in EQ. rewrite !Rplus_0_l in EQ.
  assert (PV : B2R P <= 0.2 * / 10000000000 /\ - 1 <= B2R P).
  { apply Rabs_le_inv in EQ. apply Rabs_le_inv in PS.
    assert (A : (1 + 1) * uro * (0.3 * Rabs sv) <= (1 + 1) * uro * 60) by (apply Rmult_le_compat_l; lra). rewrite UV in *. lra. }
  set (pv := B2R P) in *. set (d1v := B2R D1) in *.
  destruct (fadd_err D1 P FD FP) as [FE E3]; [fold d1v pv; apply Rle_trans with 10; [apply Rabs_le; lra|lra]|]. fold d1v pv in E3.
  rewrite (Rabs_left1 (d1v + pv)) in E3 by lra. apply Rabs_le_inv in E3. set (res := B2R (fadd _ _)) in *. 
  assert (uro * - (d1v + pv) <= 0.001 * - (d1v + pv)) by (apply Rmult_le_compat_r; [lra|rewrite UV; lra]). split; [exact FE|]. lra.
Qed.
Theorem cell_negative : isfin cell = true -> B2R cell < 0.
Proof.
  intros FC. apply cell_value; unfold cell in FC.
  - assert (F1 : isfin (fsub f1 (dot n (transpose knew) delta i i)) = true) by (apply (fin_part (fun x => x)) with (2 := FC); apply fadd_nonfin_l).
    apply (dot_part_r n (transpose knew) delta i i). apply (fin_part (fun x => x)) with (2 := F1). apply fsub_nonfin_r.
  - assert (F1 : isfin (dot 1 (transpose R) S i i) = true) by (apply (fin_part (fun x => x)) with (2 := FC); apply fadd_nonfin_r). apply (dot_part_r 1 (transpose R) S i i F1). lia.
Qed.
Theorem cell_both : (isfin cell = true -> B2R cell < 0) /\
  ((forall l, (l < n)%nat -> isfin (delta l i) = true) -> isfin (S 0%nat i) = true -> isfin cell = true /\ - 10 <= B2R cell < 0).
Proof. exact (conj cell_negative cell_value). Qed.
End Cell.
