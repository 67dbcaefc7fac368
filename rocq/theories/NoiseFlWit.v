(** Concrete standard deviations of the four models. *)
From Coq Require Import ZArith Bool List Reals Lra Lia.
From Flocq Require Import Core IEEE754.BinarySingleNaN.
From Verif Require Import Fl Spec NpList FlFacts KernelFl KernelFlSpec KernelFlWit CholFl OutputFl TrainFl CKTrainFl HKTrainFl SKTrainFl TrainFlWit PredFlSpec PredFlWit StdFlSpec NoiseFlSpec.
Import ListNotations.
Local Open Scope R_scope.

(** the two samples of PredFlWit.v, with a noise of 2^-20 *)
Definition small_noise : b64 := fbin 1 (-20).
Definition wide (_ : b64) : b64 := fz 1024.
Definition noisy_run : gp64 * result unit :=
  train64 plain_sum plain_dot quick_exp (fun x => x) wide low_chol diag_solve constant_basis 1 unit1
    (new64 wide unit1 (Some small_noise) 0) two_x two_y (Evolution64 [] (Hyper64 [f0] f0)).
Definition noisy_std : mat -> result (list b64 * list b64) := predict_std64 plain_sum plain_dot quick_exp diag_solve constant_basis 1 unit1 (fst noisy_run).
Definition trained {A} (r : A * result unit) : bool := match snd r with Ok _ => true | Raise _ => false end.
Lemma noisy_trained : trained noisy_run = true. Proof. reflexivity. Qed.
Lemma noisy_zero : match noisy_std two_x with Ok (_, [u; v]) => isfin u && isfin v && feq u f0 && feq v f0 | _ => false end = true.
Proof. reflexivity. Qed.
Lemma noise_positive : isfin small_noise && flt f0 small_noise = true. Proof. reflexivity. Qed.
(** the square roots of the diagonal, enough for diagonal matrices *)
Definition root_chol (n : nat) (A : array) : result array := Ok (fun i j => if Nat.eqb i j then fsqrt (A i i) else f0).
(** hierarchical Kriging, the same data at both levels *)
Definition hk_run : hk64 * result unit :=
  hk_train64 plain_sum plain_dot quick_exp (fun x => x) wide root_chol plain_solve unit1 (hk_new64 wide unit1 (Some small_noise) 0)
    two_x two_y two_x two_y (Evolution64 [] (Hyper64 [f0] f0)) (Evolution64 [] (Hyper64 [f0] f0)).
Lemma hk_trained : trained hk_run = true. Proof. reflexivity. Qed.
Definition all_from (lo : b64) (r : result (list b64 * list b64)) : bool := match r with Ok (_, [u; v]) => isfin u && isfin v && fle lo u && fle lo v | _ => false end.
Lemma hk_std : all_from small_noise (hk_predict_std64 plain_sum plain_dot quick_exp plain_solve unit1 (fst hk_run) two_x) = true.
Proof. reflexivity. Qed.
(** Co-Kriging *)
Definition ck_run : ck64 * result unit :=
  ck_train64 plain_sum plain_dot quick_exp (fun x => x) wide root_chol plain_solve unit1 (ck_new64 wide unit1 (Some small_noise) 0)
    two_x two_y two_x [f1; f0] (Evolution64 [] (Hyper64 [f0] f0)) (CkEvolution64 [] (CkHyper64 f1 f0 [f0])).
Lemma ck_std : all_from f0 (snd (ck_predict_std64 plain_sum plain_dot quick_exp plain_solve unit1 (fst ck_run) two_x)) = true.
Proof. reflexivity. Qed.
(** scaled Kriging *)
Definition sk_run : sk64 * result unit :=
  sk_train64 plain_sum plain_dot quick_exp (fun x => x) wide root_chol plain_solve unit1 (sk_new64 wide unit1 (Some small_noise) 0)
    two_x two_y two_x [f1; f0] (Evolution64 [] (Hyper64 [f0] f0)) RhoFixed64 (Evolution64 [] (Hyper64 [f0] f0)).
Lemma sk_std : all_from f0 (sk_predict_std64 plain_sum plain_dot quick_exp plain_solve unit1 (fst sk_run) two_x) = true.
Proof. reflexivity. Qed.
