(** Non-finite numbers in binary64 arithmetic, and the factorisation of matrices with NaN or infinite entries. *)
From Coq Require Import ZArith Bool List Reals Lra Lia Permutation.
From Flocq Require Import Core IEEE754.BinarySingleNaN.
From Verif Require Import Fl NpList FlFacts KernelFl CholFl OutputFl TrainFl TrainFlSpec.
Import ListNotations.

Definition nonfin (x : b64) : Prop := isfin x = false.
Lemma nonfin_cases x : nonfin x -> x = fnan \/ exists b, x = B754_infinity b.
Proof. destruct x; intros H; try discriminate H; [right; eauto|now left]. Qed.
Lemma fmul_nonfin_l x y : nonfin x -> nonfin (fmul x y).
Proof. intros H. destruct (nonfin_cases x H) as [->|[b ->]]; destruct y; reflexivity. Qed.
Lemma fmul_nonfin_r x y : nonfin y -> nonfin (fmul x y).
Proof. intros H. destruct (nonfin_cases y H) as [->|[b ->]]; destruct x; reflexivity. Qed.
Lemma fadd_nonfin_l x y : nonfin x -> nonfin (fadd x y).
Proof. intros H. destruct (nonfin_cases x H) as [->|[b ->]]; destruct y as [s|s| |s m e B]; try reflexivity. now destruct b, s. Qed.
Lemma fadd_nonfin_r x y : nonfin y -> nonfin (fadd x y).
Proof. intros H. destruct (nonfin_cases y H) as [->|[b ->]]; destruct x as [s|s| |s m e B]; try reflexivity. now destruct b, s. Qed.
Lemma fsub_nonfin_l x y : nonfin x -> nonfin (fsub x y).
Proof. intros H. destruct (nonfin_cases x H) as [->|[b ->]]; destruct y as [s|s| |s m e B]; try reflexivity. now destruct b, s. Qed.
Lemma fdiv_nonfin x y : nonfin x -> nonfin (fdiv x y).
Proof. intros H. destruct (nonfin_cases x H) as [->|[b ->]]; destruct y; reflexivity. Qed.
Lemma ffma_nonfin_s x y s : nonfin s -> nonfin (ffma x y s).
Proof.
  intros H. destruct (nonfin_cases s H) as [->|[b ->]].
  - destruct x, y; reflexivity.
  - destruct x as [s1|s1| |s1 m1 e1 B1], y as [s2|s2| |s2 m2 e2 B2]; try reflexivity; unfold nonfin, ffma, Bfma; cbn; now destruct b, s1, s2.
Qed.
Lemma ffma_nonfin_p x y s : nonfin x \/ nonfin y -> nonfin (ffma x y s).
Proof.
  intros [H|H]; destruct (nonfin_cases _ H) as [->|[b ->]].
  - destruct y, s; reflexivity.
  - destruct y as [s1|s1| |s1 m1 e1 B1], s as [s2|s2| |s2 m2 e2 B2]; try reflexivity; unfold nonfin, ffma, Bfma; cbn; now destruct b, s1, s2.
  - destruct x, s; reflexivity.
  - destruct x as [s1|s1| |s1 m1 e1 B1], s as [s2|s2| |s2 m2 e2 B2]; try reflexivity; unfold nonfin, ffma, Bfma; cbn; now destruct b, s1, s2.
Qed.
(** one non-finite factor makes a sum of products non-finite *)
Lemma dot_nonfin l s : dot_of l s -> (exists a b, In (a, b) l /\ (nonfin a \/ nonfin b)) -> nonfin s.
Proof.
  intros D. induction D as [|a b|l l1 l2 s1 s2 N1 N2 P D1 IH1 D2 IH2|l l1 a b s P D IH]; intros (x & y & I & H).
  - destruct I.
  - destruct I as [E|[]]. injection E as -> ->. destruct H; [now apply fmul_nonfin_l|now apply fmul_nonfin_r].
  - apply (Permutation_in _ P) in I. apply in_app_or in I. destruct I as [I|I]; [apply fadd_nonfin_l, IH1|apply fadd_nonfin_r, IH2]; eauto.
  - apply (Permutation_in _ P) in I. destruct I as [E|I]; [injection E as -> ->; now apply ffma_nonfin_p|apply ffma_nonfin_s, IH; eauto].
Qed.

(** NaN *)
Lemma nan_is x : isnan x = true -> x = fnan. Proof. destruct x; intros H; try discriminate H. reflexivity. Qed.
Lemma fadd_nan_l y : fadd fnan y = fnan. Proof. reflexivity. Qed.
Lemma fadd_nan_r x : fadd x fnan = fnan. Proof. now destruct x. Qed.
Lemma fmul_nan_l y : fmul fnan y = fnan. Proof. reflexivity. Qed.
Lemma fmul_nan_r x : fmul x fnan = fnan. Proof. now destruct x. Qed.
Lemma fsub_nan_l y : fsub fnan y = fnan. Proof. reflexivity. Qed.
Lemma fsub_nan_r x : fsub x fnan = fnan. Proof. now destruct x. Qed.
Lemma fdiv_nan_l y : fdiv fnan y = fnan. Proof. reflexivity. Qed.
Lemma fdiv_nan_r x : fdiv x fnan = fnan. Proof. now destruct x. Qed.
Lemma ffma_nan x y s : x = fnan \/ y = fnan \/ s = fnan -> ffma x y s = fnan.
Proof. intros [->|[-> | ->]]; [destruct y, s|destruct x, s|destruct x, y]; reflexivity. Qed.
Lemma dot_nan l s : dot_of l s -> (exists a b, In (a, b) l /\ (a = fnan \/ b = fnan)) -> s = fnan.
Proof.
  intros D. induction D as [|a b|l l1 l2 s1 s2 N1 N2 P D1 IH1 D2 IH2|l l1 a b s P D IH]; intros (x & y & I & H).
  - destruct I.
  - destruct I as [E|[]]. injection E as -> ->. destruct H as [->| ->]; [reflexivity|apply fmul_nan_r].
  - apply (Permutation_in _ P) in I. apply in_app_or in I. destruct I as [I|I]; [rewrite IH1 by eauto; reflexivity|rewrite IH2 by eauto; apply fadd_nan_r].
  - apply (Permutation_in _ P) in I. destruct I as [E|I]; [injection E as -> ->; apply ffma_nan; tauto|apply ffma_nan; right; right; apply IH; eauto].
Qed.
Lemma dot_of_one a b s : dot_of [(a, b)] s -> s = fmul a b \/ s = ffma a b f0.
Proof.
  intros D. inversion D as [|x y|l l1 l2 s1 s2 N1 N2 P D1 D2|l l1 x y t P D1]; subst.
  - now left.
  - apply Permutation_length in P. rewrite app_length in P. destruct l1, l2; cbn in P; try easy; lia.
  - assert (E : l1 = []) by (apply Permutation_length in P; cbn in P; destruct l1; [easy|cbn in P; lia]). subst.
    apply Permutation_length_1 in P. injection P as -> ->. inversion D1 as [|?|? ? ? ? ? N1 N2 P1|? ? ? ? ? P1]; subst.
    + now right.
    + apply Permutation_nil in P1. destruct l1; [easy|discriminate].
    + apply Permutation_nil in P1. discriminate.
Qed.

(** the factorisation stops at a NaN *)
Lemma reduced_nan A L i j s : reduced64 A L i j s -> A i j = fnan -> s = fnan.
Proof. intros D H. apply (dot_nan _ _ D). exists (A i j), f1. split; [now left|now left]. Qed.
Lemma not_pos_nan : flt f0 fnan = false. Proof. reflexivity. Qed.
Lemma chol_nan00 n A r : (0 < n)%nat -> A 0%nat 0%nat = fnan -> cholesky64 n A r -> r = Raise LinAlgError.
Proof.
  intros P H C. destruct C as [L C|]; [|reflexivity]. destruct (C 0%nat P) as [(s & R & Q & _) _].
  rewrite (reduced_nan A L 0 0 s R H) in Q. discriminate Q.
Qed.
Lemma quotient_nan l q : quotient64 fnan l q -> q = fnan.
Proof. intros [->| ->]; reflexivity. Qed.
Lemma chol_nan10 n A r : (1 < n)%nat -> A 1%nat 0%nat = fnan -> cholesky64 n A r -> r = Raise LinAlgError.
Proof.
  intros P H C. destruct C as [L C|]; [|reflexivity]. destruct (C 0%nat) as [_ B]; [lia|]. destruct (B 1%nat) as (s & R & Q); [lia|].
  rewrite (reduced_nan A L 1 0 s R H) in Q. apply quotient_nan in Q.
  destruct (C 1%nat P) as [(t & R1 & Q1 & _) _]. unfold reduced64 in R1. cbn [seq map] in R1.
  rewrite (dot_nan _ _ R1) in Q1; [discriminate Q1|]. exists (fopp (L 1%nat 0%nat)), (L 1%nat 0%nat). split; [right; now left|]. right. exact Q.
Qed.
(** a zero first entry *)
Lemma chol_zero00 n A r : (0 < n)%nat -> A 0%nat 0%nat = f0 -> cholesky64 n A r -> r = Raise LinAlgError.
Proof.
  intros P H C. destruct C as [L C|]; [|reflexivity]. destruct (C 0%nat P) as [(s & R & Q & _) _].
  unfold reduced64 in R. cbn [seq map] in R. rewrite H in R. destruct (dot_of_one _ _ _ R) as [-> | ->]; discriminate Q.
Qed.
(** an infinite first entry *)
Lemma chol_inf00 n A L : (0 < n)%nat -> A 0%nat 0%nat = finf -> cholesky64 n A (Ok L) -> L 0%nat 0%nat = finf.
Proof.
  intros P H C. inversion C as [L' C'|]; subst. destruct (C' 0%nat P) as [(s & R & Q & V) _]. rewrite V.
  unfold reduced64 in R. cbn [seq map] in R. rewrite H in R. destruct (dot_of_one _ _ _ R) as [-> | ->]; reflexivity.
Qed.

(** dividing by a useless standard deviation *)
Lemma zero_cases s : feq s f0 = true -> exists b, s = B754_zero b.
Proof. destruct s as [b|b| |b m e B]; intros H; try (destruct b; discriminate H); [eauto|discriminate H]. Qed.
Lemma useless_div x s : useless s -> nonfin (fdiv x s).
Proof. intros [H|H]; [destruct (zero_cases s H) as [b ->]; now destruct x|rewrite (nan_is s H); now destruct x]. Qed.
(** multiplying a non-finite number by one *)
Lemma useless_mul x s : useless s -> nonfin x -> fmul x s = fnan.
Proof. intros [H|H] N; destruct (nonfin_cases x N) as [->|[c ->]]; [destruct (zero_cases s H) as [b ->]; reflexivity|destruct (zero_cases s H) as [b ->]; reflexivity|reflexivity|rewrite (nan_is s H); reflexivity]. Qed.
Lemma useless_square s : useless s -> useless (fmul s s).
Proof. intros [H|H]; [destruct (zero_cases s H) as [b ->]; left; now destruct b|right; rewrite (nan_is s H); reflexivity]. Qed.

Section Covariance.
Variables (np_sum : list b64 -> b64) (np_dot : list (b64 * b64) -> b64) (np_exp : b64 -> b64).
Lemma square_nonfin x : nonfin x -> fmul x x = fnan \/ fmul x x = finf.
Proof. intros H. destruct (nonfin_cases x H) as [->|[b ->]]; [now left|right; now destruct b]. Qed.
Lemma cov_nan param X i j : covariance64 np_sum np_dot np_exp param fnan X i j = fnan.
Proof. unfold covariance64. rewrite fmul_nan_l, fmul_nan_r. apply fadd_nan_r. Qed.
Lemma cov_off param sigma X : nonfin sigma -> covariance64 np_sum np_dot np_exp param sigma X 1 0 = fnan.
Proof. intros H. unfold covariance64. cbn [Nat.eqb]. destruct (square_nonfin sigma H) as [-> | ->]; [rewrite fmul_nan_r|change (fmul f0 finf) with fnan]; apply fadd_nan_r. Qed.
Lemma cov_diag param sigma X : nonfin sigma -> covariance64 np_sum np_dot np_exp param sigma X 0 0 = fnan \/ covariance64 np_sum np_dot np_exp param sigma X 0 0 = finf.
Proof.
  intros H. unfold covariance64. cbn [Nat.eqb]. destruct (square_nonfin sigma H) as [-> | ->]; [left; rewrite fmul_nan_r; apply fadd_nan_r|].
  change (fmul f1 finf) with finf. destruct (kernel64 np_sum np_dot np_exp param X X 0 0) as [b|b| |b m e B]; try (right; reflexivity); [|now left]. destruct b; [now left|now right].
Qed.
End Covariance.
