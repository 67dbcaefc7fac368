(** The covariance matrix of a Gaussian process in binary64 is positive definite and can be factored. *)
From Coq Require Import ZArith Bool List Reals Lra Lia Psatz.
From Flocq Require Import Core IEEE754.BinarySingleNaN.
From Verif Require Import Fl Spec NpList FlFacts FlMag KernelFl KernelFlSpec FlErr KernelFlFacts CholFl RSum CholFlFacts KernelPsd.
Import ListNotations.
Local Open Scope R_scope.

Lemma total_rs n f : total n f = rs n f.
Proof. unfold total. apply seq_rs. Qed.
Lemma lower_quad n M x : lower_form n M x = quad n (sym M) x.
Proof. unfold lower_form, quad, sym, val. rewrite total_rs. apply rs_ext. intros i _. apply total_rs. Qed.

Lemma square_val s : isfin s = true -> Rabs (val s) <= 2 ^ 400 -> isfin (fmul s s) = true /\ 0 <= B2R (fmul s s) <= 2 ^ 900.
Proof.
  intros F H. unfold val in H. assert (Q : 0 <= B2R s * B2R s <= bpow radix2 800).
  { split; [nra|]. rewrite <- (Rabs_pos_eq (B2R s * B2R s)) by nra. rewrite Rabs_mult. pose proof (Rabs_pos (B2R s)).
    rewrite bpow_powerRZ. change 800%Z with (Z.of_nat 800). rewrite <- pow_powerRZ. change (IZR (radix_val radix2)) with 2. replace (2 ^ 800) with (2 ^ 400 * 2 ^ 400) by (rewrite <- pow_add; f_equal). apply Rmult_le_compat; lra. }
  assert (R1 : 0 <= rnd (B2R s * B2R s)) by (rewrite <- rnd_0; apply rnd_le; lra).
  assert (R2 : rnd (B2R s * B2R s) <= bpow radix2 800) by (rewrite <- (rnd_bpow 800) by lia; apply rnd_le; lra).
  destruct (fmul_spec s s F F) as [V Fm].
  - rewrite Rabs_pos_eq by lra. apply Rle_lt_trans with (1 := R2). apply bpow_lt_fmax. lia.
  - split; [exact Fm|]. rewrite V. split; [exact R1|]. apply Rle_trans with (1 := R2). rewrite bpow_powerRZ. change 800%Z with (Z.of_nat 800). rewrite <- pow_powerRZ. change (IZR (radix_val radix2)) with 2. apply Rle_pow; [lra|lia].
Qed.

Section Main.
Variables (np_sum : list b64 -> b64) (np_dot : list (b64 * b64) -> b64) (np_exp : b64 -> b64).
Hypotheses (sum_ok : forall l, sum_of l (np_sum l)) (dot_ok : forall l, dot_of l (np_dot l)) (E_ok : exp_ok np_exp).
Variables (d : nat) (W : R) (w : row) (sigma : b64) (X : mat).
Hypotheses (d1 : (1 <= d)%nat) (W1 : 1 <= W) (Pw : param_row d W w) (Fs : isfin sigma = true) (Bs : Rabs (val sigma) <= 2 ^ 400).
Hypotheses (X1 : X <> []) (FX : Forall (scaled_row d) X) (SZ : safe_size (length X) d W).
Local Notation n := (length X).
Local Notation E := (entry_units d W).
Local Notation nu := (B2R (fmul sigma sigma)).
Local Notation M := (covariance64 np_sum np_dot np_exp w sigma X).
Lemma n_ge1 : 1 <= INR n.
Proof. destruct X as [|x l]; [easy|]. cbn [length]. rewrite S_INR. pose proof (pos_INR (length l)). lra. Qed.
Lemma E_ge4 : 4 <= E.
Proof. unfold entry_units. pose proof (D_ge1 d d1). assert (0 <= INR d * W) by nra. nra. Qed.
Lemma E_small : E * uro <= / 1000000000.
Proof. pose proof SZ as H. unfold safe_size in H. pose proof n_ge1. pose proof E_ge4. rewrite uro_val. nra. Qed.
Lemma row_ok i : (i < n)%nat -> scaled_row d (nth i X []).
Proof. intros H. rewrite Forall_forall in FX. apply FX. now apply nth_In. Qed.
Lemma entry_err i j : (i < n)%nat -> (j < n)%nat -> isfin (M i j) = true /\
  Rabs (B2R (M i j) - (exp (- wdist64 w (nth i X []) (nth j X [])) + if Nat.eqb i j then / 10000000000 + nu else 0)) <= (E + 2) * uro + (if Nat.eqb i j then nu * uro else 0).
Proof.
  intros Hi Hj. destruct (square_val sigma Fs Bs) as [F B].
  apply (covariance64_err d W d1 W1 E_small np_sum np_dot np_exp sum_ok dot_ok E_ok w Pw X i j sigma (row_ok i Hi) (row_ok j Hj) F B).
Qed.
Lemma wdist64_sym (u x y : row) : wdist64 u x y = wdist64 u y x.
Proof. revert x y. induction u as [|a u IH]; intros [|p x] [|q y]; cbn [wdist64]; try easy. rewrite (IH x y). ring. Qed.
Lemma wdist64_self (u x : row) : wdist64 u x x = 0.
Proof. revert x. induction u as [|a u IH]; intros [|p x]; cbn [wdist64]; try easy. rewrite (IH x). ring. Qed.

Definition margin : R := / 10000000000 + nu * (1 - uro) - INR n * ((E + 2) * uro).
Theorem covariance_margin x : margin * norm2 n x <= quad n (sym M) x.
Proof.
  set (k := fun i j => exp (- wdist64 w (nth i X []) (nth j X []))).
  assert (P : 0 <= quad n k x).
  { destruct Pw as [Lw Fw]. refine (@kernel_psd n d w X x Lw _ _).
    - eapply Forall_impl; [|exact Fw]. cbv beta. intros v Hv. lra.
    - intros i Hi. apply (row_ok i Hi). }
  pose proof E_ge4 as E4. pose proof uro_pos as UP.
  pose proof (quad_near n k (sym M) (/ 10000000000 + nu * (1 - uro)) ((E + 2) * uro) x) as Q.
  assert (H : quad n k x + (/ 10000000000 + nu * (1 - uro) - INR n * ((E + 2) * uro)) * norm2 n x <= quad n (sym M) x); [|unfold margin; lra].
  apply Q; clear Q.
  - apply Rmult_le_pos; lra.
  - intros i j Hi Hj Nij. unfold sym, k.
    assert (S1 : wdist64 w (nth i X []) (nth j X []) = wdist64 w (nth (Nat.max i j) X []) (nth (Nat.min i j) X [])).
    { destruct (le_lt_dec i j) as [H|H]; [rewrite Nat.max_r, Nat.min_l by lia; apply wdist64_sym|now rewrite Nat.max_l, Nat.min_r by lia]. }
    rewrite S1. destruct (entry_err (Nat.max i j) (Nat.min i j)) as [_ e]; [lia|lia|].
    destruct (Nat.eqb_spec (Nat.max i j) (Nat.min i j)) as [C|C]; [lia|]. rewrite !Rplus_0_r in e. exact e.
  - intros i Hi. unfold sym, k. rewrite Nat.max_id, Nat.min_id. destruct (entry_err i i Hi Hi) as [_ e]. rewrite Nat.eqb_refl in e. apply Rabs_le_inv in e. lra.
Qed.
Lemma margin_big : (INR n + 2) * cdel n (1.01 * (1 + nu)) <= margin /\ 0 < margin.
Proof.
  destruct (square_val sigma Fs Bs) as [_ [N0 _]]. pose proof SZ as H. unfold safe_size in H. pose proof n_ge1 as N1. pose proof E_ge4 as E4. pose proof uro_val as UV. pose proof uro_pos as UP.
  set (p := INR n * (E + 2)) in *. set (q := (INR n + 2) * (INR n + 6)).
  assert (Q0 : 0 <= p) by (unfold p; nra). assert (Q1 : 21 <= q) by (unfold q; nra).
  assert (H' : p + 2.2 * q <= 900000) by (unfold q; lra).
  assert (EQ : (INR n + 2) * cdel n (1.01 * (1 + nu)) = 2.121 * (q * uro) * (1 + nu)) by (unfold cdel, q; lra).
  assert (EM : margin = / 10000000000 + nu * (1 - uro) - p * uro) by (unfold margin, p; ring).
  assert (K : 2.2 * (q * uro) + p * uro <= 900000 * uro). { replace (2.2 * (q * uro) + p * uro) with ((p + 2.2 * q) * uro) by ring. apply Rmult_le_compat_r; lra. }
  assert (Z : 900000 * uro < / 10000000000) by (rewrite UV; lra). assert (PU : 0 <= p * uro) by nra. assert (QU : 0 < q * uro) by nra.
  assert (V : 2.121 * (q * uro) * nu <= nu * (1 - uro)). { rewrite Rmult_comm. apply Rmult_le_compat_l; [exact N0|]. lra. }
  rewrite EQ, EM. split; [lra|]. assert (0 <= nu * (1 - uro)) by (apply Rmult_le_pos; lra). lra.
Qed.
Theorem covariance_posdef x : (exists i, (i < n)%nat /\ x i <> 0) -> 0 < lower_form n M x.
Proof.
  intros (i & Hi & Ni). rewrite lower_quad. apply Rlt_le_trans with (2 := covariance_margin x).
  apply Rmult_lt_0_compat; [apply margin_big|now apply (norm2_pos n x i)].
Qed.
Theorem covariance_factored r : cholesky64 n M r ->
  exists L, r = Ok L /\ (forall i j, (j <= i < n)%nat -> isfin (L i j) = true) /\ (forall j, (j < n)%nat -> 0 < val (L j j)) /\
    forall i j, (j <= i < n)%nat -> Rabs (total (S j) (fun k => val (L i k) * val (L j k)) - val (M i j)) <= (1 + val (fmul sigma sigma)) * / 10000000000.
Proof.
  intros R. destruct (square_val sigma Fs Bs) as [_ [N0 N2]]. destruct margin_big as [MB _]. pose proof n_ge1 as N1. pose proof E_ge4 as E4. pose proof uro_pos as UP.
  pose proof SZ as H. unfold safe_size in H.
  assert (P1 : 0 <= INR n * (E + 2)) by nra. assert (NS : INR n <= 1000000) by nra.
  destruct (chol64_succeeds n M (1.01 * (1 + nu)) margin r NS) as (L & RL & L1 & L2 & L3); [lra| | |exact covariance_margin|exact MB|exact R|].
  - assert (2 ^ 900 + 1 <= 2 ^ 901). { change (2 ^ 901) with (2 * 2 ^ 900). assert (1 <= 2 ^ 900) by (apply pow_R1_Rle; lra). lra. }
    assert (2 ^ 901 * 2 ^ 41 <= big).
    { rewrite <- pow_add. unfold big. rewrite bpow_powerRZ. change 1000%Z with (Z.of_nat 1000). rewrite <- pow_powerRZ. change (IZR (radix_val radix2)) with 2. apply Rle_pow; [lra|lia]. }
    assert (1.01 * 1000000000000 <= 2 ^ 41) by (replace (2 ^ 41) with 2199023255552 by ring; lra).
    apply Rle_trans with (2 ^ 901 * 2 ^ 41); [|easy]. replace (1.01 * (1 + nu) * 1000000000000) with ((1 + nu) * (1.01 * 1000000000000)) by lra.
    apply Rmult_le_compat; lra.
  - intros i j Hi. destruct (entry_err i j ltac:(lia) ltac:(lia)) as [F e]. split; [exact F|]. apply Rabs_near in e.
    destruct Pw as [_ Fw]. pose proof (wdist64_ge0 W w (nth i X []) (nth j X []) Fw) as G.
    assert (K1 : 0 < exp (- wdist64 w (nth i X []) (nth j X [])) <= 1).
    { split; [apply exp_pos|]. rewrite <- exp_0. destruct (Req_dec (wdist64 w (nth i X []) (nth j X [])) 0) as [->|N]; [rewrite Ropp_0; lra|left; apply exp_increasing; lra]. }
    pose proof E_small as ES. assert (NU : nu * uro <= nu * 0.001) by (apply Rmult_le_compat_l; [lra|]; rewrite uro_val; lra). assert (U2 : 2 * uro <= 0.001) by (rewrite uro_val; lra).
    apply Rle_trans with (1 := e). set (kk := exp _) in *. clear e. destruct (Nat.eqb i j); rewrite Rabs_pos_eq by lra; lra.
  - exists L. split; [exact RL|]. split; [exact L1|]. split; [exact L2|]. intros i j Hi. rewrite total_rs. eapply Rle_trans; [exact (L3 i j Hi)|].
    (* cdel <= margin / 3 *)
    unfold cdel, val. assert (Q : (INR n + 6) * 3 <= 409091). { assert ((INR n + 6) * 3 <= (INR n + 6) * (INR n + 2)) by (apply Rmult_le_compat_l; lra). lra. }
    replace ((INR n + 6) * 2.1 * uro * (1.01 * (1 + nu))) with ((1 + nu) * ((INR n + 6) * (2.121 * uro))) by lra.
    apply Rmult_le_compat_l; [lra|]. rewrite uro_val. lra.
Qed.
End Main.

(** ** normalisation of the inputs *)
Lemma normalize_coord lo hi x : isfin lo = true -> isfin hi = true -> isfin x = true -> val lo < val hi -> isfin (fsub hi lo) = true -> val lo <= val x <= val hi ->
  isfin (fdiv (fsub x lo) (fsub hi lo)) = true /\ 0 <= val (fdiv (fsub x lo) (fsub hi lo)) <= 1.
Proof.
  unfold val. intros Fl Fh Fx LH Fw [H1 H2]. pose proof (fsub_fin hi lo Fh Fl Fw) as Vw.
  assert (W0 : 0 < B2R (fsub hi lo)).
  { rewrite Vw. apply Rlt_le_trans with (B2R hi - B2R lo + (rnd (B2R hi - B2R lo) - (B2R hi - B2R lo))); [|lra].
    pose proof (rnd_plus (B2R hi) (- B2R lo) (format_B2R hi) (generic_format_opp _ _ _ (format_B2R lo))) as E. change (B2R hi + - B2R lo) with (B2R hi - B2R lo) in E.
    rewrite (Rabs_pos_eq (B2R hi - B2R lo)) in E by lra. apply Rabs_le_inv in E. rewrite uro_val in E. lra. }
  assert (R0 : 0 <= rnd (B2R x - B2R lo) <= rnd (B2R hi - B2R lo)) by (split; [rewrite <- rnd_0|]; apply rnd_le; lra).
  destruct (fsub_spec x lo Fx Fl) as [Vn Fn].
  { rewrite Rabs_pos_eq by lra. apply Rle_lt_trans with (rnd (B2R hi - B2R lo)); [lra|]. rewrite <- Vw. apply Rle_lt_trans with (2 := B2R_lt_fmax (fsub hi lo)). apply Rle_abs. }
  assert (Q : 0 <= B2R (fsub x lo) / B2R (fsub hi lo) <= 1).
  { rewrite Vn. split; [apply Rmult_le_pos; [lra|left; now apply Rinv_0_lt_compat]|]. apply (Rmult_le_reg_r (B2R (fsub hi lo))); [exact W0|]. unfold Rdiv. rewrite Rmult_assoc, Rinv_l by lra. lra. }
  assert (B : 0 <= rnd (B2R (fsub x lo) / B2R (fsub hi lo)) <= 1).
  { split; [rewrite <- rnd_0; apply rnd_le; lra|]. rewrite <- (rnd_B2R f1) at 2 || idtac. rewrite <- B2R_f1, <- (rnd_B2R f1). apply rnd_le. rewrite B2R_f1. lra. }
  destruct (fdiv_spec (fsub x lo) (fsub hi lo) Fn ltac:(lra)) as [V F].
  - rewrite Rabs_pos_eq by lra. apply Rle_lt_trans with (1 := proj2 B). change 1 with (bpow radix2 0). apply bpow_lt_fmax. lia.
  - split; [exact F|]. now rewrite V.
Qed.
Lemma normalize_row (b : box) (x : row) : Forall (fun lh => isfin (fst lh) = true /\ isfin (snd lh) = true /\ val (fst lh) < val (snd lh) /\ isfin (fsub (snd lh) (fst lh)) = true) b ->
  Forall2 (fun lh v => isfin v = true /\ val (fst lh) <= val v <= val (snd lh)) b x ->
  length (normalize64 b x) = length b /\ Forall (fun v => isfin v = true /\ 0 <= val v <= 1) (normalize64 b x).
Proof.
  intros B F. revert B. induction F as [|[lo hi] v b x [Fv Hv] F IH]; intros B; [split; [easy|constructor]|].
  inversion B as [|? ? (Fl & Fh & LH & Fw) B']; subst. destruct (IH B') as [IL IF]. cbn [fst snd] in *. unfold normalize64. cbn [map2 length]. split; [f_equal; exact IL|].
  constructor; [|exact IF]. cbn [fst snd]. now apply normalize_coord.
Qed.
Lemma normalize_scaled (b : box) (x : row) : Forall (fun lh => isfin (fst lh) = true /\ isfin (snd lh) = true /\ val (fst lh) < val (snd lh) /\ isfin (fsub (snd lh) (fst lh)) = true) b ->
  Forall2 (fun lh v => isfin v = true /\ val (fst lh) <= val v <= val (snd lh)) b x -> scaled_row (length b) (normalize64 b x).
Proof.
  intros B F. destruct (normalize_row b x B F) as [HL HF]. split; [exact HL|]. eapply Forall_impl; [|exact HF]. cbv beta. intros v [F1 F2]. split; [exact F1|]. apply Rabs_le. lra.
Qed.
