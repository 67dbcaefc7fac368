(** Responses with a useless standard deviation, and implementations that meet the assumptions about NumPy. *)
From Coq Require Import ZArith Bool List Reals Lra Lia Permutation.
From Flocq Require Import Core IEEE754.BinarySingleNaN.
From Verif Require Import Fl Spec NpList FlFacts FlMag KernelFl KernelFlSpec FlErr KernelFlFacts CholFl KernelFlRef KernelFlWit OutputFl OutputFlSpec OutputFlFacts OutputFlMain OutputFlThms TrainFl TrainFlSpec TrainFlFacts.
Import ListNotations.
Local Open Scope R_scope.

Section Responses.
Variable np_sum : list b64 -> b64.
Hypothesis sum_ok : forall l, sum_of l (np_sum l).
Lemma count_pos Y : INR (length Y) <= 1048576 -> (0 < length Y)%nat -> isfin (count64 Y) = true /\ 0 < B2R (count64 Y).
Proof.
  intros L P. unfold count64. destruct (fz_small (Z.of_nat (length Y))) as [F V].
  - rewrite INR_IZR_INZ in L. apply (le_IZR _ 1048576) in L. lia.
  - split; [exact F|]. unfold val in V. rewrite V. apply (IZR_lt 0). lia.
Qed.
(** every response is the computed mean *)
Lemma flat_std Y : INR (length Y) <= 2 ^ 20 -> (0 < length Y)%nat -> isfin (mean64 np_sum Y) = true -> (forall y, In y Y -> isfin y = true /\ val y = val (mean64 np_sum Y)) ->
  feq (std64 np_sum Y) f0 = true.
Proof.
  intros L P Fm H. replace (2 ^ 20) with 1048576 in L by ring. unfold val in H. set (m := mean64 np_sum Y) in *.
  assert (D : forall z, In z Y -> exists b, fsub z m = B754_zero b).
  { intros z J. destruct (H z J) as [Fz Vz]. destruct (fsub_spec z m Fz Fm) as [V F]; [rewrite Vz, Rminus_diag_eq, rnd_0, Rabs_R0 by reflexivity; apply (Rle_lt_trans _ _ _ (Rabs_pos (B2R z)) (B2R_lt_fmax z))|].
    apply zero_of; [exact F|]. rewrite V, Vz, Rminus_diag_eq, rnd_0 by reflexivity. reflexivity. }
  unfold std64. cbv zeta. fold m. set (l := map (fun y => let x := fsub y m in fmul x x) Y).
  destruct (sum_zeros np_sum sum_ok l) as [Fs Vs]; [unfold l; now rewrite map_length| |].
  - intros x J. unfold l in J. apply in_map_iff in J. destruct J as (z & <- & J). destruct (D z J) as [bz Ez]. cbv zeta. rewrite Ez. now destruct bz.
  - destruct (zero_of _ Fs Vs) as [b1 E1]. rewrite E1. destruct (count_pos Y L P) as [C1 C2]. destruct (zero_div b1 (count64 Y) C1 C2) as [b2 E2]. rewrite E2. now destruct b2.
Qed.
Lemma single_std y : isfin y = true -> feq (std64 np_sum [y]) f0 = true.
Proof.
  intros F. assert (E : mean64 np_sum [y] = fdiv y f1) by (unfold mean64; rewrite (sum_single y _ (sum_ok [y])); reflexivity).
  destruct (fdiv_one y F) as [G V]. apply (flat_std [y]); [cbn; lra|cbn; lia|now rewrite E|]. intros z [<-|[]]. rewrite E. unfold val. now rewrite V.
Qed.
Lemma poison_std Y : INR (length Y) <= 2 ^ 20 -> (exists y, In y Y /\ isfin y = false) -> std64 np_sum Y = fnan.
Proof.
  intros L (y & I & F). replace (2 ^ 20) with 1048576 in L by ring.
  assert (C : isfin (count64 Y) = true /\ 0 < B2R (count64 Y)) by (apply count_pos; [exact L|destruct Y; [easy|cbn; lia]]).
  apply (std_nan np_sum sum_ok Y y I). destruct y as [b|b| |b p q H]; try discriminate F; [|reflexivity].
  assert (M : mean64 np_sum Y = B754_infinity b \/ mean64 np_sum Y = fnan).
  { unfold mean64. destruct (sum_inf Y _ b (sum_ok Y) I) as [-> | ->]; [left|now right].
    destruct (count64 Y) as [d|d| |d p q H]; destruct C as [C1 C2]; try discriminate C1; [cbn in C2; lra|]. destruct d; [|now destruct b].
    exfalso. pose proof (F2R_lt_0 radix2 (Float radix2 (Zneg p) q) eq_refl) as N. cbn [B2R] in C2. change (cond_Zopp true (Z.pos p)) with (Z.neg p) in C2. lra. }
  destruct M as [-> | ->]; [now destruct b|reflexivity].
Qed.
End Responses.

(** ** implementations *)
Definition plain_red (A L : array) (i j : nat) : b64 := plain_dot ((A i j, f1) :: map (fun k => (fopp (L i k), L j k)) (seq 0 j)).
Fixpoint plain_chol (A : array) (n : nat) : result array :=
  match n with
  | O => Ok (fun _ _ => f0)
  | S j => match plain_chol A j with
           | Raise e => Raise e
           | Ok L => if flt f0 (plain_red A L j j)
                     then Ok (with_column L j (fun i => if Nat.eqb i j then fsqrt (plain_red A L j j) else fdiv (plain_red A L i j) (fsqrt (plain_red A L j j))))
                     else Raise LinAlgError
           end
  end.
Lemma plain_chol_ok n A : cholesky64 n A (plain_chol A n).
Proof.
  enough (H : forall j, (j <= n)%nat -> match plain_chol A j with Ok L => forall k, (k < j)%nat -> column64 n A L k | Raise e => cholesky64 n A (Raise e) end).
  { pose proof (H n (le_n n)) as E. destruct (plain_chol A n); [now constructor|exact E]. }
  induction j as [|j IH]; intros Hj; cbn [plain_chol]; [intros; lia|].
  specialize (IH ltac:(lia)). destruct (plain_chol A j) as [L|e]; [|exact IH]. rename IH into C.
  set (red := fun i => plain_red A L i j). change (plain_red A L j j) with (red j). destruct (flt f0 (red j)) eqn:P.
  - set (l := fsqrt (red j)). set (L' := with_column L j _).
    assert (S : forall i k, (k < j)%nat -> L i k = L' i k) by (intros i k Hk; unfold L', with_column; destruct (Nat.eqb_spec k j); [lia|easy]).
    assert (D : L' j j = l) by (unfold L', with_column; now rewrite !Nat.eqb_refl).
    intros k Hk. destruct (Nat.eq_dec k j) as [->|N].
    + split.
      * exists (red j). rewrite D. split; [|easy]. apply (reduced_same A L); [|apply plain_dot_ok]. intros q Hq. split; apply S; lia.
      * intros i Hi. exists (red i). split; [apply (reduced_same A L); [|apply plain_dot_ok]; intros q Hq; split; apply S; lia|]. rewrite D. left.
        unfold L', with_column. rewrite Nat.eqb_refl. destruct (Nat.eqb_spec i j); [lia|easy].
    + apply (column_same n A L); [|apply C; lia]. intros i q Hq. apply S. lia.
  - apply (chol_fail n A L j (red j)); [lia|exact C|apply plain_dot_ok|exact P].
Qed.
(** divisions by the diagonal *)
Definition plain_solve (n m : nat) (A B : array) : result array := Ok (fun i j => fdiv (B i j) (A i i)).
Lemma plain_solve_keeps : solve_keeps plain_solve.
Proof. intros n m A B X E j _ H i Hi. injection E as <-. cbn beta. apply fdiv_nonfin. exact (H i Hi). Qed.
Lemma plain_solve_one : solve_one plain_solve.
Proof. intros m A B X E j _. injection E as <-. now left. Qed.
