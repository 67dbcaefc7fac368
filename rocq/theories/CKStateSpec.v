(** Vocabulary of the statements about failed trainings of a Co-Kriging model. *)
From Coq Require Import Reals.
From Verif Require Import Fl.
From mathcomp Require Import all_ssreflect all_algebra.
From Verif Require Import RStruct LinAlg LinSpec Kernel Krig GP GPSpec MF CoKrig MFSpec GPState CKState.
Set Implicit Arguments.
Unset Strict Implicit.
Unset Printing Implicit Defensive.
Import GRing.Theory.
Local Open Scope ring_scope.

Section CK.
Variables (d : nat) (lo hi : 'rV[R]_d).
(** the object of CoKrig.v with the same configuration *)
Definition plain_lgp (o : attrs d 1) : lgp d := MkLGP (a_noise o) (a_restart o) (a_kernel o).
Definition plain_ck (o : ck_attrs d) : ck d := MkCK (e_noise o) (e_restart o) (e_kernel o) (plain_lgp (e_lf o)) None.
(** both objects give the same answers to any one question *)
Definition ck_same_now (o : ck_attrs d) (g : ck d) : Prop := e_noise o = ck_noise g /\
  forall m (Xq : 'M[R]_(m, d)),
    ck_predict_lf_attrs lo hi o Xq = ck_predict_lf lo hi g Xq /\
    ck_predict_lf_std_attrs lo hi o Xq = ck_predict_lf_std lo hi g Xq /\
    ck_predict_attrs lo hi o Xq = ck_predict lo hi g Xq /\
    (ck_predict_std_attrs lo hi o Xq).2 = bind (ck_predict_std lo hi g Xq) (fun r => Ok r.2).
(** and to any sequence of questions: predictions with standard deviation change the object *)
Definition asked (o : ck_attrs d) (qs : seq {q : nat & 'M[R]_(q, d)}) : ck_attrs d :=
  foldl (fun o q => (ck_predict_std_attrs lo hi o (projT2 q)).1) o qs.
Definition ck_same_answers (o : ck_attrs d) (g : ck d) : Prop := forall qs,
  exists g', ck_run lo hi g [seq OpPredictStd (projT2 q) | q <- qs] = Ok g' /\ ck_same_now (asked o qs) g'.

(** one call, whose exception the caller catches: the object afterwards, and whether it raised nothing *)
Definition ck_call (o : ck_attrs d) (op : ck_op d) : ck_attrs d * bool :=
  match op with
  | OpTrain _ _ Xh Yh Xl Yl sl sh => let r := ck_train_attrs lo hi o Xh Yh Xl Yl sl sh in (r.1, if r.2 is Ok _ then true else false)
  | OpPredict _ X => (o, if ck_predict_attrs lo hi o X is Ok _ then true else false)
  | OpPredictStd _ X => let r := ck_predict_std_attrs lo hi o X in (r.1, if r.2 is Ok _ then true else false)
  end.
(** the object after a list of calls, and which of them raised nothing *)
Fixpoint ck_calls (o : ck_attrs d) (ops : seq (ck_op d)) : ck_attrs d :=
  if ops is op :: ops' then ck_calls (ck_call o op).1 ops' else o.
Fixpoint ck_outcomes (o : ck_attrs d) (ops : seq (ck_op d)) : seq bool :=
  if ops is op :: ops' then (ck_call o op).2 :: ck_outcomes (ck_call o op).1 ops' else [::].
(** training data: at least one low-fidelity sample, high-fidelity responses that are not all equal *)
Definition op_ok (op : ck_op d) : Prop :=
  if op is OpTrain _ nl _ Yh _ _ _ _ then (0 < nl)%N /\ ~ constant Yh else True.
Definition is_train (op : ck_op d) : bool := if op is OpTrain _ _ _ _ _ _ _ _ then true else false.
(** the noise after a list of calls with these outcomes: divided by the standard deviation of the
    high-fidelity responses at every training, failed or not; multiplied by that of the last training
    call at every successful prediction with standard deviation *)
Fixpoint noise_calls (noise yh_std : R) (ops : seq (ck_op d)) (oks : seq bool) : R :=
  match ops, oks with
  | OpTrain _ _ _ Yh _ _ _ _ :: ops', _ :: oks' => noise_calls (Rdiv noise (stdev Yh)) (stdev Yh) ops' oks'
  | OpPredict _ _ :: ops', _ :: oks' => noise_calls noise yh_std ops' oks'
  | OpPredictStd _ _ :: ops', ok :: oks' => noise_calls (if ok then Rmult noise yh_std else noise) yh_std ops' oks'
  | _, _ => noise
  end.

(** the object of a training call when the data have been stored and the noise divided (370-384) *)
Definition stored nh nl (o : ck_attrs d) (Xh : 'M[R]_(nh, d)) (Yh : 'cV[R]_nh) (Xl : 'M[R]_(nl, d)) (Yl : 'cV[R]_nl) : ck_attrs d :=
  let o := set_data o (CKData Xh Yh Xl Yl (normalize_input lo hi Xh) (normalize_input lo hi Xl) (normalize_output Yh)
     (\col_i Rdiv (Rminus (Yl i 0) (mean Yh)) (stdev Yh)) (mean Yh) (stdev Yh)) in
  if e_noise o is Some s then set_lf (set_noise o (Rdiv s (stdev Yh))) (put_noise (e_lf o) (Rdiv s (stdev Yh))) else o.
End CK.
