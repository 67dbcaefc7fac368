(** Vocabulary of the statements about the multi-fidelity models: histories of calls. *)
From Coq Require Import Reals.
From Verif Require Import Fl.
From mathcomp Require Import all_ssreflect all_algebra.
From Verif Require Import RStruct LinAlg Kernel Krig GP MF CoKrig.
Set Implicit Arguments.
Unset Strict Implicit.
Unset Printing Implicit Defensive.
Import GRing.Theory.
Local Open Scope ring_scope.

Section MFSpec.
Variables (d : nat) (lo hi : 'rV[R]_d).
(** calls of train on a scaled Kriging model *)
Record mfcall := MFCall { f_nh : nat; f_nl : nat; f_Xh : 'M[R]_(f_nh, d); f_Yh : 'cV[R]_f_nh; f_Xl : 'M[R]_(f_nl, d); f_Yl : 'cV[R]_f_nl;
  f_sl : search (hyper d); f_sr : rho_search d; f_sh : search (hyper d) }.
Fixpoint sk_trains (o : sk d) (cs : seq mfcall) : result (sk d) :=
  if cs is c :: cs' then bind (sk_train lo hi o (f_Xh c) (f_Yh c) (f_Xl c) (f_Yl c) (f_sl c) (f_sr c) (f_sh c)) (fun o' => sk_trains o' cs') else Ok o.

(** calls on a Co-Kriging model *)
Inductive ck_op :=
  | OpTrain nh nl (Xh : 'M[R]_(nh, d)) (Yh : 'cV[R]_nh) (Xl : 'M[R]_(nl, d)) (Yl : 'cV[R]_nl) (sl : search (hyper d)) (sh : search (ckhyper d))
  | OpPredict m (X : 'M[R]_(m, d))
  | OpPredictStd m (X : 'M[R]_(m, d)).
Definition ck_do (o : ck d) (op : ck_op) : result (ck d) :=
  match op with
  | OpTrain _ _ Xh Yh Xl Yl sl sh => ck_train lo hi o Xh Yh Xl Yl sl sh
  | OpPredict _ X => bind (ck_predict lo hi o X) (fun _ => Ok o)
  | OpPredictStd _ X => bind (ck_predict_std lo hi o X) (fun r => Ok r.1)
  end.
Fixpoint ck_run (o : ck d) (ops : seq ck_op) : result (ck d) :=
  if ops is op :: ops' then bind (ck_do o op) (fun o' => ck_run o' ops') else Ok o.
(** the noise after a history: divided by yh_std at each train, multiplied by it at each prediction with
    standard deviation *)
Fixpoint noise_history (noise yh_std : R) (ops : seq ck_op) : R :=
  match ops with
  | [::] => noise
  | OpTrain _ _ _ Yh _ _ _ _ :: ops' => noise_history (Rdiv noise (stdev Yh)) (stdev Yh) ops'
  | OpPredict _ _ :: ops' => noise_history noise yh_std ops'
  | OpPredictStd _ _ :: ops' => noise_history (Rmult noise yh_std) yh_std ops'
  end.
Definition std_of (o : ck d) : R := if ck_model o is Some t then ct_std t else 1.
End MFSpec.
