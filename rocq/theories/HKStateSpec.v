(** Vocabulary of the statements about failed trainings of a hierarchical Kriging model. *)
From Coq Require Import Reals.
From Verif Require Import Fl.
From mathcomp Require Import all_ssreflect all_algebra.
From Verif Require Import RStruct LinAlg LinSpec Kernel Krig GP GPSpec MF GPState GPStateSpec HKState.
Set Implicit Arguments.
Unset Strict Implicit.
Unset Printing Implicit Defensive.
Import GRing.Theory.
Local Open Scope ring_scope.

(** a call of train: high-fidelity data, low-fidelity data, the two searches *)
Record hk_call d := HKCall { k_nh : nat; k_nl : nat; k_Xh : 'M[R]_(k_nh, d); k_Yh : 'cV[R]_k_nh; k_Xl : 'M[R]_(k_nl, d); k_Yl : 'cV[R]_k_nl;
  k_sl : search (hyper d); k_sh : search (hyper d) }.
Section HK.
Variables (d : nat) (lo hi : 'rV[R]_d).
Definition hk_attempt (o : hk_attrs d) (c : hk_call d) := hk_train_attrs lo hi o (k_Xh c) (k_Yh c) (k_Xl c) (k_Yl c) (k_sl c) (k_sh c).
(** the object after a list of calls whose exceptions the caller catches *)
Definition hk_attempts (o : hk_attrs d) (cs : seq (hk_call d)) : hk_attrs d := foldl (fun o c => (hk_attempt o c).1) o cs.
(** the object of MF.v with the same configuration *)
Definition plain_hk (o : hk_attrs d) : hk d :=
  MkHK (a_noise (b_hf o)) (a_restart (b_hf o)) (a_kernel (b_hf o)) (plain (b_lf o)) None.
(** two objects answer all predictions alike, of both fidelities *)
Definition hk_same_answers (o : hk_attrs d) (g : hk d) : Prop := forall m (Xq : 'M[R]_(m, d)),
  hk_predict_lf_attrs lo hi o Xq = gp_predict (@Ordinary d) lo hi (hk_lf g) Xq /\
  hk_predict_attrs lo hi o Xq = hk_predict lo hi g Xq /\
  hk_predict_std_attrs lo hi o Xq = hk_predict_std lo hi g Xq.
End HK.
