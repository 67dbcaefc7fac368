(** Implementations that meet the assumptions about NumPy, and a trained object. *)
From Coq Require Import ZArith Bool List Reals Lra Lia Psatz Permutation.
From Flocq Require Import Core IEEE754.BinarySingleNaN.
From Verif Require AcqFlErr.
From Verif Require Import Fl Spec NpList FlFacts FlMag KernelFl KernelFlSpec FlErr KernelFlFacts CholFl RSum CholFlFacts KernelFlMain KernelFlRef KernelFlWit KernelFlThms OutputFl OutputFlSpec OutputFlFacts OutputFlMain OutputFlThms TrainFl TrainFlFacts TrainFlMain TrainFlWit PredFlSpec PredFlMean PredFlCore PredFlMain.
Import ListNotations.
Local Open Scope R_scope.

Lemma feq_zero x : isfin x = true -> feq x f0 = true -> B2R x = 0.
Proof. intros F H. apply feq_iff in H. destruct H as [A B]. apply (fle_finite x f0 F eq_refl) in A. apply (fle_finite f0 x eq_refl F) in B. change (B2R f0) with 0 in *. lra. Qed.
(** divisions by the diagonal, for diagonal matrices only *)
Definition diagonal (n : nat) (A : array) : bool := forallb (fun i => forallb (fun k => Nat.eqb i k || feq (A i k) f0) (seq 0 n)) (seq 0 n).
Definition diag_solve (n m : nat) (A B : array) : result array := if diagonal n A then Ok (fun i j => fdiv (B i j) (A i i)) else Raise LinAlgError.
Lemma diagonal_zero n A i k : diagonal n A = true -> (i < n)%nat -> (k < n)%nat -> i <> k -> isfin (A i k) = true -> B2R (A i k) = 0.
Proof.
  intros D Hi Hk N F. unfold diagonal in D. rewrite forallb_forall in D. specialize (D i ltac:(apply in_seq; lia)). cbv beta in D. rewrite forallb_forall in D. specialize (D k ltac:(apply in_seq; lia)). cbv beta in D.
  apply Nat.eqb_neq in N. rewrite N in D. cbn [orb] in D. exact (feq_zero _ F D).
Qed.
Lemma quotient_value x y : isfin y = true -> isfin (fdiv x y) = true -> isfin x = true /\ B2R y <> 0 /\ B2R (fdiv x y) = rnd (B2R x / B2R y).
Proof.
  intros Fy Fq. assert (Fx : isfin x = true) by (destruct (isfin x) eqn:E; [reflexivity|]; rewrite (fdiv_nonfin x y E) in Fq; discriminate Fq).
  split; [exact Fx|]. assert (Ny : B2R y <> 0).
  { intros Z. destruct (zero_of y Fy Z) as [c ->]. destruct x as [b|b| |b q e H]; try discriminate Fx; destruct b, c; discriminate Fq. }
  split; [exact Ny|]. exact (AcqFlErr.fdiv_fin x y Fx Ny Fq).
Qed.
Lemma diag_solve_stable : backward_stable (/ 2 ^ 52) diag_solve.
Proof.
  intros n m A B X a j E Hj FA FX i Hi. unfold diag_solve in E. destruct (diagonal n A) eqn:D; [|discriminate E]. injection E as <-. cbn beta in *.
  destruct (FA i i Hi Hi) as [Fa Ba]. destruct (quotient_value _ _ Fa (FX i Hi)) as (Fb & Na & V). split; [exact Fb|]. rewrite !total_rs.
  unfold val in *. rewrite (rs_sup 0 n i) by (try lia; intros k Hk N; cbv beta; rewrite (diagonal_zero n A i k D Hi ltac:(lia) ltac:(lia) (proj1 (FA i k Hi ltac:(lia)))); ring). cbn [rs].
  set (x := B2R (fdiv (B i j) (A i i))) in *. set (aa := B2R (A i i)) in *. set (bb := B2R (B i j)) in *.
  assert (T : Rabs x <= rs n (fun k => Rabs (B2R (fdiv (B k j) (A k k))))) by (apply (rs_term n (fun k => Rabs (B2R (fdiv (B k j) (A k k)))) i Hi); intros; apply Rabs_pos).
  set (R := rs n _) in *. pose proof (rnd_err (bb / aa)) as Er. rewrite <- V in Er. pose proof uro_pos as U. pose proof uro_val as UV. pose proof eta_pos as EP.
  set (q := bb / aa) in *. assert (Eb : bb = aa * q) by (unfold q; field; exact Na). rewrite Eb. replace (0 + aa * x - aa * q) with (aa * (x - q)) by ring. rewrite Rabs_mult.
  assert (Q : Rabs q <= 1.1 * Rabs x + 1.1 * eta).
  { pose proof Er as Er'. rewrite Rabs_minus_sym in Er'. apply Rabs_near in Er'. assert (uro * Rabs q <= 0.01 * Rabs q) by (apply Rmult_le_compat_r; [apply Rabs_pos|rewrite UV; lra]). pose proof (Rabs_pos x). lra. }
  assert (Q2 : uro * Rabs q <= uro * (1.1 * Rabs x + 1.1 * eta)) by (apply Rmult_le_compat_l; lra).
  assert (EN : 3 * eta <= / 2 ^ 1000). { rewrite inv_pow. apply Rle_trans with (4 * eta); [lra|]. change 4 with (bpow radix2 2). unfold eta. rewrite <- bpow_plus. apply bpow_le. cbn. lia. }
  assert (Xq : Rabs (x - q) <= 2 * uro * R + / 2 ^ 1000).
  { assert (uro * (1.1 * eta) <= eta) by (rewrite UV; lra). assert (uro * Rabs x <= uro * R) by (apply Rmult_le_compat_l; lra). assert (0 <= uro * R) by (apply Rmult_le_pos; [lra|]; pose proof (Rabs_pos x); lra). set (tn := / 2 ^ 1000) in *. clearbody tn. lra. }
  assert (R0 : 0 <= R) by (pose proof (Rabs_pos x); lra). replace (/ 2 ^ 52) with (2 * uro) by (rewrite UV; replace (2 ^ 52) with 4503599627370496 by ring; lra).
  assert (T0 : 0 < / 2 ^ 1000) by (apply Rinv_0_lt_compat, pow_lt; lra). set (tn := / 2 ^ 1000) in *. clearbody tn.
  apply Rle_trans with (a * (2 * uro * R + tn)); [apply Rmult_le_compat; try apply Rabs_pos; lra|]. lra.
Qed.
(** zeros above the diagonal *)
Definition low_chol (n : nat) (A : array) : result array :=
  match plain_chol A n with Ok L => Ok (fun i j => if Nat.leb j i then L i j else f0) | Raise e => Raise e end.
Lemma low_chol_lower : lower_factor low_chol.
Proof.
  intros n A L E i j H. unfold low_chol in E. destruct (plain_chol A n) as [L0|]; [|discriminate E]. injection E as <-. destruct (Nat.leb_spec j i); [lia|reflexivity].
Qed.
Lemma low_chol_ok n A : cholesky64 n A (low_chol n A).
Proof.
  unfold low_chol. pose proof (plain_chol_ok n A) as C. destruct (plain_chol A n) as [L|e]; [|exact C]. inversion C as [L' H|]; subst. constructor. intros j Hj. destruct (H j Hj) as [(s & R & P & V) B].
  set (L2 := fun i j : nat => if Nat.leb j i then L i j else f0). assert (SL : forall i k, (k <= i)%nat -> L i k = L2 i k) by (intros i k Hk; unfold L2; now rewrite (proj2 (Nat.leb_le k i) Hk)).
  split.
  - exists s. rewrite <- SL by lia. split; [|easy]. apply (reduced_same A L); [|exact R]. intros k Hk. split; apply SL; lia.
  - intros i Hi. destruct (B i Hi) as (t & R' & Q). exists t. rewrite <- !SL by lia. split; [|exact Q]. apply (reduced_same A L); [|exact R']. intros k Hk. split; apply SL; lia.
Qed.
(** an exponential function that can be evaluated at 0 and far below *)
Definition quick_exp (x : b64) : b64 := if fle x (fz (-1000)) then f0 else if feq x f0 then f1 else plain_exp x.
Lemma exp_half k : exp (- INR k) <= / 2 ^ k.
Proof.
  induction k as [|k IH]; [cbn; rewrite Ropp_0, exp_0, Rinv_1; lra|]. rewrite S_INR. replace (- (INR k + 1)) with (- INR k + - (1)) by ring. rewrite exp_plus. cbn [pow]. rewrite Rinv_mult.
  rewrite Rmult_comm. apply Rmult_le_compat; try (left; apply exp_pos); [|exact IH]. rewrite exp_Ropp. apply Rinv_le; [lra|]. pose proof (exp_ineq1 1 ltac:(lra)). lra.
Qed.
Lemma quick_exp_ok : exp_ok quick_exp.
Proof.
  intros x F H. unfold quick_exp. destruct (fz_small (-1000)) as [F1 V1]; [lia|]. destruct (fle x (fz (-1000))) eqn:L.
  - apply (fle_finite x _ F F1) in L. unfold val in *. rewrite V1 in L. split; [reflexivity|]. cbn [B2R f0]. change (B2R f0) with 0. pose proof (exp_pos (B2R x)) as P.
    assert (Q : exp (B2R x) <= / 2 ^ 1000).
    { apply Rle_trans with (2 := exp_half 1000). destruct (Req_dec (B2R x) (- INR 1000)) as [->|N]; [lra|]. left. apply exp_increasing. rewrite INR_IZR_INZ in *. change (Z.of_nat 1000) with 1000%Z in *. lra. }
    rewrite Rabs_minus_sym, Rminus_0_r, Rabs_pos_eq by lra. assert (0 <= / 2 ^ 52) by (left; apply Rinv_0_lt_compat, pow_lt; lra). set (tn := / 2 ^ 1000) in *. clearbody tn. nra.
  - destruct (feq x f0) eqn:Z; [|now apply plain_exp_ok]. apply (feq_zero x F) in Z. split; [reflexivity|]. unfold val. rewrite Z, exp_0, B2R_f1.
    rewrite Rminus_diag_eq, Rabs_R0 by reflexivity. assert (0 < / 2 ^ 1000) by (apply Rinv_0_lt_compat, pow_lt; lra). assert (0 < / 2 ^ 52) by (apply Rinv_0_lt_compat, pow_lt; lra). lra.
Qed.
(** two samples on the unit interval *)
Definition unit1 : box := [(f0, f1)].
Definition two_x : mat := [[f0]; [f1]].
Definition two_y : list b64 := [f1; fopp f1].
Definition two_run : gp64 * result unit :=
  train64 plain_sum plain_dot quick_exp (fun x => x) (fun _ => fz 1024) low_chol diag_solve (fun _ => [f1]) 1 unit1
    (new64 (fun _ => fz 1024) unit1 (Some f0) 0) two_x two_y (Evolution64 [] (Hyper64 [f0] f0)).
Definition two_predict : mat -> result (list b64) := predict64 plain_sum plain_dot quick_exp (fun _ => [f1]) 1 unit1 (fst two_run).
Lemma two_ok : match snd two_run with Ok _ => true | Raise _ => false end = true.
Proof. reflexivity. Qed.
Definition within (lo hi : b64) (v : b64) : bool := fle lo v && fle v hi.
Definition small_attr (a : name) (n : nat) : bool := match g_attr (fst two_run) a with Some v => Nat.eqb (arr_rows v) n && forallb (fun i => within (fz (-4)) (fz 4) (arr_at v i 0%nat)) (seq 0 n) | None => false end.
Lemma two_beta : small_attr abeta 1 = true. Proof. reflexivity. Qed.
Lemma two_gamma : small_attr agamma 2 = true. Proof. reflexivity. Qed.
Definition eps40 : b64 := fbin 1 (-40).
Lemma two_in_order : match two_predict two_x with Ok [u; v] => within (fsub f1 eps40) (fadd f1 eps40) u && within (fsub (fopp f1) eps40) (fadd (fopp f1) eps40) v | _ => false end = true.
Proof. reflexivity. Qed.
(** 1.5 * 2^-33 is less than 2 * 10^-10 *)
Lemma two_reversed : match two_predict [[f1]; [f0]] with Ok [u; v] => flt (fadd (fopp f1) (fbin 3 (-34))) u && flt v (fsub f1 (fbin 3 (-34))) | _ => false end = true.
Proof. reflexivity. Qed.
