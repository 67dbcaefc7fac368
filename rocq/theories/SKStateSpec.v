(** Vocabulary of the statements about failed trainings of a scaled Kriging model. *)
From Coq Require Import Reals.
From Verif Require Import Fl.
From mathcomp Require Import all_ssreflect all_algebra.
From Verif Require Import RStruct LinAlg LinSpec Kernel Krig GP GPSpec GPMain MF GPState GPStateSpec SKState.
Set Implicit Arguments.
Unset Strict Implicit.
Unset Printing Implicit Defensive.
Import GRing.Theory.
Local Open Scope ring_scope.

(** a call of train: high-fidelity data, low-fidelity data, the searches *)
Record sk_call d := SKCall { q_nh : nat; q_nl : nat; q_Xh : 'M[R]_(q_nh, d); q_Yh : 'cV[R]_q_nh; q_Xl : 'M[R]_(q_nl, d); q_Yl : 'cV[R]_q_nl;
  q_sl : search (hyper d); q_sr : rho_search d; q_sh : search (hyper d) }.
Section SK.
Variables (d : nat) (lo hi : 'rV[R]_d).
Definition sk_attempt (o : sk_attrs d) (c : sk_call d) :=
  sk_train_attrs lo hi o (q_Xh c) (q_Yh c) (q_Xl c) (q_Yl c) (q_sl c) (q_sr c) (q_sh c).
(** the object after a list of calls whose exceptions the caller catches *)
Definition sk_attempts (o : sk_attrs d) (cs : seq (sk_call d)) : sk_attrs d := foldl (fun o c => (sk_attempt o c).1) o cs.
(** the object of MF.v with the same configuration *)
Definition plain_sk (o : sk_attrs d) : sk d := MkSK (plain (s_lf o)) (plain (s_disc o)) (s_rho o) (s_kernel o) (s_noise o).
(** two objects answer all predictions alike, of both fidelities, and have the same rho, kernel and noise *)
Definition sk_same_answers (o : sk_attrs d) (g : sk d) : Prop :=
  s_rho o = sk_rho g /\ s_kernel o = sk_kernel g /\ s_noise o = sk_noise g /\
  forall m (Xq : 'M[R]_(m, d)),
  sk_predict_lf_attrs lo hi o Xq = gp_predict (@Ordinary d) lo hi (sk_lf g) Xq /\
  sk_predict_attrs lo hi o Xq = sk_predict lo hi g Xq /\
  sk_predict_std_attrs lo hi o Xq = sk_predict_std lo hi g Xq.

(** the searches a call makes return only points they evaluated *)
Definition rho_evaluated (s : rho_search d) : Prop :=
  if s is RhoBumpiness qs _ then List.Forall (fun q => evaluated q.2) qs else True.
(** rho_optimize=False *)
Definition rho_fixed (s : rho_search d) : bool := if s is RhoFixed then true else false.
(** the values of rho the search tries by training the discrepancy model, and the value it returns *)
Definition rho_tried (s : rho_search d) : seq (R * search (hyper d)) := if s is RhoBumpiness qs _ then qs else [::].
Definition rho_chosen (s : rho_search d) (old : R) : R :=
  match s with RhoFixed | RhoOther => old | RhoError rho => rho | RhoBumpiness _ rho => rho end.
(** the trainings of the discrepancy model in one call: those of the search for rho and the final one *)
Definition disc_calls n (X : 'M[R]_(n, d)) (Y pred_lf : 'cV[R]_n) (old : R) (sr : rho_search d) (sh : search (hyper d)) : seq (call d) :=
  rcons [seq Call X (sk_disc_data Y pred_lf q.1) q.2 | q <- rho_tried sr] (Call X (sk_disc_data Y pred_lf (rho_chosen sr old)) sh).
(** a Gaussian process with its stored samples and responses replaced, and nothing else *)
Definition with_data n (a : attrs d 1) (X : 'M[R]_(n, d)) (Y : 'cV[R]_n) : attrs d 1 :=
  put_data a (Dataset X (normalize_input lo hi X) Y (normalize_output Y)).
End SK.
