(** Implementations that meet the assumptions about NumPy and LAPACK. *)
From Coq Require Import ZArith Bool List Reals Lra Lia Psatz Permutation.
From Flocq Require Import Core IEEE754.BinarySingleNaN.
From Verif Require Import Fl Spec NpList FlFacts FlMag KernelFl KernelFlSpec FlErr KernelFlFacts CholFl RSum CholFlFacts KernelFlMain.
Import ListNotations.
Local Open Scope R_scope.

(** additions from the right *)
Fixpoint plain_sum (l : list b64) : b64 := match l with [] => f0 | [x] => x | x :: r => fadd x (plain_sum r) end.
Lemma plain_sum_ok l : sum_of l (plain_sum l).
Proof.
  induction l as [|x l IH]; [constructor|]. destruct l as [|y r]; [constructor|].
  change (plain_sum (x :: y :: r)) with (fadd x (plain_sum (y :: r))). apply (sum_add _ [x] (y :: r)); try easy. constructor.
Qed.
Fixpoint plain_dot (l : list (b64 * b64)) : b64 :=
  match l with [] => f0 | [(a, b)] => fmul a b | (a, b) :: r => fadd (fmul a b) (plain_dot r) end.
Lemma plain_dot_ok l : dot_of l (plain_dot l).
Proof.
  induction l as [|[a b] l IH]; [constructor|]. destruct l as [|y r]; [constructor|].
  change (plain_dot ((a, b) :: y :: r)) with (fadd (fmul a b) (plain_dot (y :: r))). apply (dot_add _ [(a, b)] (y :: r)); try easy. constructor.
Qed.
(** the float nearest to a real *)
Definition nearest (r : R) : b64 := fbin (Ztrunc (scaled_mantissa radix2 fexp64 (rnd r))) (cexp radix2 fexp64 (rnd r)).
Lemma nearest_val r : Rabs (rnd r) < fmax -> isfin (nearest r) = true /\ B2R (nearest r) = rnd r.
Proof.
  intros H. assert (G : generic_format radix2 fexp64 (rnd r)) by (apply generic_format_round; typeclasses eauto).
  unfold nearest, fbin. set (m := Ztrunc _). set (e := cexp _ _ _). assert (E : F2R (Float radix2 m e) = rnd r) by (symmetry; exact G).
  pose proof (binary_normalize_correct 53 1024 prec53 prec53_lt mode_NE m e false) as C. rewrite E in C. cbv zeta in C.
  change (round radix2 fexp64 (round_mode mode_NE) (rnd r)) with (rnd (rnd r)) in C. assert (RR : rnd (rnd r) = rnd r) by (apply round_generic; [typeclasses eauto|exact G]).
  rewrite RR, Rlt_bool_true in C by exact H. destruct C as (V & F & _). split; [exact F|exact V].
Qed.
Definition plain_exp (x : b64) : b64 := nearest (exp (val x)).
Lemma plain_exp_ok : exp_ok plain_exp.
Proof.
  intros x Fx Hx. unfold plain_exp. pose proof (exp_pos (val x)) as P. pose proof big_large as BL.
  assert (U : exp (val x) <= 3). { apply Rle_trans with (exp 1); [|apply exp_le_3]. destruct (Req_dec (val x) 1) as [->|N]; [lra|left; apply exp_increasing; lra]. }
  destruct (nearest_val (exp (val x))) as [F V]; [apply rnd_room; rewrite Rabs_pos_eq; lra|]. split; [exact F|]. unfold val at 1. rewrite V.
  eapply Rle_trans; [apply rnd_err|]. rewrite Rabs_pos_eq by lra. rewrite two52. pose proof uro_pos.
  assert (E : eta <= / 2 ^ 1000). { unfold eta. replace (2 ^ 1000) with (bpow radix2 1000). - rewrite <- bpow_opp. apply bpow_le. lia. - rewrite bpow_powerRZ. change 1000%Z with (Z.of_nat 1000). rewrite <- pow_powerRZ. reflexivity. }
  nra.
Qed.
Lemma contracts : exists np_sum np_dot np_exp, (forall l, sum_of l (np_sum l)) /\ (forall l, dot_of l (np_dot l)) /\ exp_ok np_exp.
Proof. exists plain_sum, plain_dot, plain_exp. split; [exact plain_sum_ok|]. split; [exact plain_dot_ok|exact plain_exp_ok]. Qed.

(** every call of the factorisation has an outcome *)
Definition with_column (L : nat -> nat -> b64) (j : nat) (c : nat -> b64) (i k : nat) : b64 := if Nat.eqb k j then c i else L i k.
Lemma reduced_same A L L' i j s : (forall k, (k < j)%nat -> L i k = L' i k /\ L j k = L' j k) -> reduced64 A L i j s -> reduced64 A L' i j s.
Proof.
  intros H. unfold reduced64. enough (E : map (fun k => (fopp (L i k), L j k)) (seq 0 j) = map (fun k => (fopp (L' i k), L' j k)) (seq 0 j)) by (now rewrite E).
  apply map_ext_in. intros k Hk. apply in_seq in Hk. destruct (H k) as [-> ->]; [lia|easy].
Qed.
Lemma column_same n A L L' j : (forall i k, (k <= j)%nat -> L i k = L' i k) -> column64 n A L j -> column64 n A L' j.
Proof.
  intros H [(s & R & P & V) C]. split.
  - exists s. rewrite <- H by lia. split; [|easy]. apply (reduced_same A L); [|exact R]. intros k Hk. split; apply H; lia.
  - intros i Hi. destruct (C i Hi) as (t & R' & Q). exists t. rewrite <- !H by lia. split; [|exact Q]. apply (reduced_same A L); [|exact R']. intros k Hk. split; apply H; lia.
Qed.
Lemma cholesky64_total n A : exists r, cholesky64 n A r.
Proof.
  enough (H : forall j, (j <= n)%nat -> (exists r, cholesky64 n A r) \/ exists L, forall k, (k < j)%nat -> column64 n A L k).
  { destruct (H n (le_n n)) as [E|[L C]]; [exact E|]. exists (Ok L). now constructor. }
  induction j as [|j IH]; intros Hj; [right; exists (fun _ _ => f0); intros; lia|].
  destruct (IH ltac:(lia)) as [E|[L C]]; [now left|].
  set (red := fun i => plain_dot ((A i j, f1) :: map (fun k => (fopp (L i k), L j k)) (seq 0 j))).
  destruct (flt f0 (red j)) eqn:P.
  - right. set (l := fsqrt (red j)). set (L' := with_column L j (fun i => if Nat.eqb i j then l else fdiv (red i) l)).
    assert (S : forall i k, (k < j)%nat -> L i k = L' i k) by (intros i k Hk; unfold L', with_column; destruct (Nat.eqb_spec k j); [lia|easy]).
    assert (D : L' j j = l) by (unfold L', with_column; now rewrite !Nat.eqb_refl).
    exists L'. intros k Hk. destruct (Nat.eq_dec k j) as [->|N].
    + split.
      * exists (red j). rewrite D. split; [|easy]. apply (reduced_same A L); [|apply plain_dot_ok]. intros q Hq. split; apply S; lia.
      * intros i Hi. exists (red i). split; [apply (reduced_same A L); [|apply plain_dot_ok]; intros q Hq; split; apply S; lia|]. rewrite D. left.
        unfold L', with_column. rewrite Nat.eqb_refl. destruct (Nat.eqb_spec i j); [lia|easy].
    + apply (column_same n A L); [|apply C; lia]. intros i q Hq. apply S. lia.
  - left. exists (Raise LinAlgError). apply (chol_fail n A L j (red j)); [lia|exact C|apply plain_dot_ok|exact P].
Qed.

(** the bounds of the interface: each interval finite and not degenerate, and its width finite *)
Lemma normalized_set (b : box) (X : mat) :
  Forall (fun lh => isfin (fst lh) = true /\ isfin (snd lh) = true /\ val (fst lh) < val (snd lh) /\ isfin (fsub (snd lh) (fst lh)) = true) b ->
  Forall (Forall2 (fun lh v => isfin v = true /\ val (fst lh) <= val v <= val (snd lh)) b) X ->
  Forall (scaled_row (length b)) (map (normalize64 b) X).
Proof. intros B F. induction F as [|x X H F IH]; [constructor|]. constructor; [now apply normalize_scaled|exact IH]. Qed.
