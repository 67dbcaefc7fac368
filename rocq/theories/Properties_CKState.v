(** Theorems about failed trainings of a Co-Kriging model (C109, C110).
    CKState.v models the object attribute by attribute: [e_lf] is the low-fidelity model, [e_data] the stored
    samples and responses with the mean and standard deviation used for scaling, [e_pred] the low-fidelity
    predictions at the high-fidelity samples, [e_rho], [e_kernel] and [e_params] what the last successful
    training found.  [ck_calls] applies a list of calls and catches their exceptions, [ck_outcomes] says which
    of them raised nothing.  [ck_train] is that of CoKrig.v; [stored] (CKStateSpec.v) is the object when the
    data have been replaced and the noise divided; [ck_scale Yh Yl] are the low-fidelity responses in the
    units of the high-fidelity ones. *)
From Coq Require Import Reals Lra.
From Verif Require Import Fl.
From mathcomp Require Import all_ssreflect all_algebra.
From Verif Require Import RStruct LinAlg LinSpec Kernel Krig GP GPSpec GPMain MF CoKrig MFSpec CoKrigMain GPState GPStateSpec GPStateFacts CKState CKStateSpec CKStateFacts CKStateEx.
Set Implicit Arguments.
Unset Strict Implicit.
Unset Printing Implicit Defensive.
Import GRing.Theory.
Local Open Scope ring_scope.

(** ** C109 what a failed training leaves behind *)

(** The only exception is UnboundLocalError of a search without result.  In both stages the data are the new
    ones and a given noise has been divided.  When the low-fidelity stage fails the low-fidelity model has
    the new data and its old fit; when the high-fidelity stage fails it is the new one.  The rest is old. *)
Theorem C109_stages : forall d (lo hi : 'rV[R]_d) nh nl (o : ck_attrs d) (Xh : 'M[R]_(nh, d)) (Yh : 'cV[R]_nh) (Xl : 'M[R]_(nl, d)) (Yl : 'cV[R]_nl) sl sh e,
  (0 < nl)%N -> ~ constant Yh -> (ck_train_attrs lo hi o Xh Yh Xl Yl sl sh).2 = Raise e ->
  e = UnboundLocalError /\
  let o0 := stored lo hi o Xh Yh Xl Yl in
  let Xs := normalize_input lo hi Xl in
  let Ys := ck_scale Yh Yl in
  let l := lgp_train_attrs (e_lf o0) Xs Ys sl in
  (l.2 = Raise e /\ (ck_train_attrs lo hi o Xh Yh Xl Yl sl sh).1 = set_lf o0 (put_data (e_lf o0) (Dataset Xs Xs Ys Ys))) \/
  (l.2 = Ok tt /\ exists pred, lgp_predict_attrs l.1 (normalize_input lo hi Xh) = Ok pred /\
     (ck_train_attrs lo hi o Xh Yh Xl Yl sl sh).1 = set_pred (set_lf o0 l.1) (Columns pred)).
Proof. exact ck_failed. Qed.
Print Assumptions C109_stages.
(** as long as no training has succeeded predictions raise, whatever has been called and has failed *)
Theorem C109_never_trained : forall d (lo hi : 'rV[R]_d) noise r ops m (X : 'M[R]_(m, d)),
  List.Forall (@op_ok d) ops ->
  all (fun p => ~~ is_train p.1 || ~~ p.2) (zip ops (ck_outcomes lo hi (ck_attrs_new d noise r) ops)) ->
  let o := ck_calls lo hi (ck_attrs_new d noise r) ops in
  ck_predict_attrs lo hi o X = Raise AttributeError /\ ck_predict_std_attrs lo hi o X = (o, Raise AttributeError).
Proof. exact never_trained. Qed.
Print Assumptions C109_never_trained.
(** a failure after a success: predictions return numbers if and only if the two calls had the same total
    number of samples *)
Theorem C109_sizes : forall d (lo hi : 'rV[R]_d) nh nl nh' nl' (o : ck_attrs d) (Xh : 'M[R]_(nh, d)) (Yh : 'cV[R]_nh) (Xl : 'M[R]_(nl, d)) (Yl : 'cV[R]_nl) sl sh
    (Xh' : 'M[R]_(nh', d)) (Yh' : 'cV[R]_nh') (Xl' : 'M[R]_(nl', d)) (Yl' : 'cV[R]_nl') sl' sh' e m (Xq : 'M[R]_(m, d)),
  let o1 := ck_train_attrs lo hi o Xh Yh Xl Yl sl sh in
  let o2 := ck_train_attrs lo hi o1.1 Xh' Yh' Xl' Yl' sl' sh' in
  o1.2 = Ok tt -> (0 < nl')%N -> ~ constant Yh' -> o2.2 = Raise e ->
  if (nl' + nh' == nl + nh)%N then
    (exists mu, ck_predict_attrs lo hi o2.1 Xq = Ok mu) /\ (exists v, (ck_predict_std_attrs lo hi o2.1 Xq).2 = Ok v)
  else ck_predict_attrs lo hi o2.1 Xq = Raise ValueError /\ ck_predict_std_attrs lo hi o2.1 Xq = (o2.1, Raise ValueError).
Proof. exact ck_sizes. Qed.
Print Assumptions C109_sizes.
(** when the low-fidelity stage fails at the same sites the predictions are the old ones, moved and scaled to
    the mean and standard deviation of the new high-fidelity responses *)
Theorem C109_same_sites : forall d (lo hi : 'rV[R]_d) nh nl (o : ck_attrs d) (Xh : 'M[R]_(nh, d)) (Yh Yh' : 'cV[R]_nh) (Xl : 'M[R]_(nl, d)) (Yl Yl' : 'cV[R]_nl) sl sh sl' sh' e m (Xq : 'M[R]_(m, d)) mu,
  let o1 := ck_train_attrs lo hi o Xh Yh Xl Yl sl sh in
  let o2 := ck_train_attrs lo hi o1.1 Xh Yh' Xl Yl' sl' sh' in
  o1.2 = Ok tt -> (0 < nl)%N -> ~ constant Yh' ->
  (lgp_train_attrs (e_lf (stored lo hi o1.1 Xh Yh' Xl Yl')) (normalize_input lo hi Xl) (ck_scale Yh' Yl') sl').2 = Raise e ->
  ck_predict_attrs lo hi o1.1 Xq = Ok mu ->
  ck_predict_attrs lo hi o2.1 Xq = Ok (\col_j (mean Yh' + stdev Yh' / stdev Yh * (mu j 0%R - mean Yh))%Re).
Proof. exact ck_same_sites. Qed.
Print Assumptions C109_same_sites.
(** "a failed training leaves the old model in force" is false: the responses 1, 2 in place of 0, 1 move every
    prediction by 1 although the call raised *)
Theorem C109_rollback_refuted : kx_1.2 = Ok tt /\ kx_2.2 = Raise UnboundLocalError /\
  forall m (Xq : 'M[R]_(m, 1)), exists mu,
    ck_predict_attrs fx_lo fx_hi kx_1.1 Xq = Ok mu /\ ck_predict_attrs fx_lo fx_hi kx_2.1 Xq = Ok (\col_j (mu j 0%R + 1)%Re).
Proof. exact ck_rollback_refuted. Qed.
Print Assumptions C109_rollback_refuted.
(** the attribute model and CoKrig.v agree: a training raises in one when it does in the other, with the same
    exception, and when it succeeds both objects give the same answers to every sequence of questions *)
Theorem C109_agrees : forall d (lo hi : 'rV[R]_d) nh nl (o : ck_attrs d) (Xh : 'M[R]_(nh, d)) (Yh : 'cV[R]_nh) (Xl : 'M[R]_(nl, d)) (Yl : 'cV[R]_nl) sl sh,
  match ck_train lo hi (plain_ck o) Xh Yh Xl Yl sl sh with
  | Ok g => (ck_train_attrs lo hi o Xh Yh Xl Yl sl sh).2 = Ok tt /\ ck_same_answers lo hi (ck_train_attrs lo hi o Xh Yh Xl Yl sl sh).1 g
  | Raise e => (ck_train_attrs lo hi o Xh Yh Xl Yl sl sh).2 = Raise e
  end.
Proof. exact ck_train_answers. Qed.
Print Assumptions C109_agrees.
(** the hypotheses are met: a call that fails on a new object and a prediction after it; and the success and
    failure of C109_rollback_refuted *)
Example C109_ok :
  (List.Forall (@op_ok 1) [:: OpTrain fx_X fx_Y fx_X fx_Y fx_nothing kx_search; OpPredictStd fx_X] /\
   ck_outcomes fx_lo fx_hi (ck_attrs_new 1 (Some R0) 0) [:: OpTrain fx_X fx_Y fx_X fx_Y fx_nothing kx_search; OpPredictStd fx_X] = [:: false; false]) /\
  kx_1.2 = Ok tt /\ kx_2.2 = Raise UnboundLocalError /\
  (lgp_train_attrs (e_lf (stored fx_lo fx_hi kx_1.1 fx_X kx_Y fx_X fx_Y)) (normalize_input fx_lo fx_hi fx_X) (ck_scale kx_Y fx_Y) fx_nothing).2 = Raise UnboundLocalError.
Proof. exact (conj kx_calls_ok (conj kx_1_ok (conj kx_2_fails kx_2_lf))). Qed.

(** ** C110 failed trainings and the noise *)

(** every training call divides a given noise by the standard deviation of its high-fidelity responses, also
    when it raises; predictions with standard deviation multiply it only when they return *)
Theorem C110_noise : forall d (lo hi : 'rV[R]_d) (noise : R) r ops, List.Forall (@op_ok d) ops ->
  let o := ck_calls lo hi (ck_attrs_new d (Some noise) r) ops in
  e_noise o = Some (noise_calls noise 1 ops (ck_outcomes lo hi (ck_attrs_new d (Some noise) r) ops)).
Proof. exact (fun d lo hi noise r ops H => proj2 (proj2 (@calls_noise d lo hi (ck_attrs_new d (Some noise) r) ops noise H (erefl _)))). Qed.
Print Assumptions C110_noise.
(** so the same training called k times, failing or not, divides it k times *)
Theorem C110_repeated : forall d (lo hi : 'rV[R]_d) (noise : R) r k nh nl (Xh : 'M[R]_(nh, d)) (Yh : 'cV[R]_nh) (Xl : 'M[R]_(nl, d)) (Yl : 'cV[R]_nl) sl sh,
  (0 < nl)%N -> ~ constant Yh ->
  e_noise (ck_calls lo hi (ck_attrs_new d (Some noise) r) (nseq k (OpTrain Xh Yh Xl Yl sl sh))) = Some (noise / stdev Yh ^ k)%Re.
Proof. exact repeated_noise. Qed.
Print Assumptions C110_repeated.
(** whatever has happened, a training does what it does on a new object with the current noise as prior *)
Theorem C110_forgets : forall d (lo hi : 'rV[R]_d) (noise : R) r ops nh nl (Xh : 'M[R]_(nh, d)) (Yh : 'cV[R]_nh) (Xl : 'M[R]_(nl, d)) (Yl : 'cV[R]_nl) sl sh,
  List.Forall (@op_ok d) ops ->
  let o := ck_calls lo hi (ck_attrs_new d (Some noise) r) ops in
  let noise' := noise_calls noise 1 ops (ck_outcomes lo hi (ck_attrs_new d (Some noise) r) ops) in
  match ck_train lo hi (ck_new d (Some noise') r) Xh Yh Xl Yl sl sh with
  | Ok g => (ck_train_attrs lo hi o Xh Yh Xl Yl sl sh).2 = Ok tt /\ ck_same_answers lo hi (ck_train_attrs lo hi o Xh Yh Xl Yl sl sh).1 g
  | Raise e => (ck_train_attrs lo hi o Xh Yh Xl Yl sl sh).2 = Raise e
  end.
Proof. exact ck_forgets. Qed.
Print Assumptions C110_forgets.
(** with noise 0 the past does not matter *)
Theorem C110_zero : forall d (lo hi : 'rV[R]_d) r ops nh nl (Xh : 'M[R]_(nh, d)) (Yh : 'cV[R]_nh) (Xl : 'M[R]_(nl, d)) (Yl : 'cV[R]_nl) sl sh,
  List.Forall (@op_ok d) ops ->
  let o := ck_calls lo hi (ck_attrs_new d (Some R0) r) ops in
  match ck_train lo hi (ck_new d (Some R0) r) Xh Yh Xl Yl sl sh with
  | Ok g => (ck_train_attrs lo hi o Xh Yh Xl Yl sl sh).2 = Ok tt /\ ck_same_answers lo hi (ck_train_attrs lo hi o Xh Yh Xl Yl sl sh).1 g
  | Raise e => (ck_train_attrs lo hi o Xh Yh Xl Yl sl sh).2 = Raise e
  end.
Proof. exact ck_forgets0. Qed.
Print Assumptions C110_zero.
(** otherwise "a failed training does not disturb later ones" is false: with noise_prior = 1, one failed call
    doubles the low-fidelity standard deviations a repeated, successful call leads to *)
Theorem C110_disturbed_refuted : kx_clean.2 = Ok tt /\ kx_first.2 = Raise UnboundLocalError /\ kx_retry.2 = Ok tt /\
  forall m (Xq : 'M[R]_(m, 1)),
    (exists mu, ck_predict_lf_std_attrs fx_lo fx_hi kx_clean.1 Xq = Ok (mu, const_mx 1%Re)) /\
    (exists mu, ck_predict_lf_std_attrs fx_lo fx_hi kx_retry.1 Xq = Ok (mu, const_mx 2%Re)).
Proof. exact ck_disturbed. Qed.
Print Assumptions C110_disturbed_refuted.
(** with a learned noise, what the low-fidelity stage of a call learned stays in force although the call
    failed later: the next call, whatever its data, does not learn it again *)
Theorem C110_learned : forall d (lo hi : 'rV[R]_d) nh nl (o : ck_attrs d) (Xh : 'M[R]_(nh, d)) (Yh : 'cV[R]_nh) (Xl : 'M[R]_(nl, d)) (Yl : 'cV[R]_nl) sl sh e
    nh' nl' (Xh' : 'M[R]_(nh', d)) (Yh' : 'cV[R]_nh') (Xl' : 'M[R]_(nl', d)) (Yl' : 'cV[R]_nl') sl' sh',
  let o1 := ck_train_attrs lo hi o Xh Yh Xl Yl sl sh in
  let o2 := ck_train_attrs lo hi o1.1 Xh' Yh' Xl' Yl' sl' sh' in
  (0 < nl)%N -> ~ constant Yh -> ~ constant Yh' -> e_noise o = None -> a_noise (e_lf o) = None -> o1.2 = Raise e ->
  (lgp_train_attrs (e_lf o) (normalize_input lo hi Xl) (ck_scale Yh Yl) sl).2 = Ok tt ->
  exists h, result_of sl (a_restart (e_lf o)) h /\ e_noise o1.1 = None /\
    a_noise (e_lf o1.1) = Some (h_sigma h) /\ a_noise (e_lf o2.1) = Some (h_sigma h).
Proof. exact ck_learned. Qed.
Print Assumptions C110_learned.
(** the hypotheses are met *)
Example C110_ok : (0 < 2)%N /\ ~ constant fx_Y /\
  let o := ck_attrs_new 1 None 0 in
  (ck_train_attrs fx_lo fx_hi o fx_X fx_Y fx_X fx_Y fx_search kx_nothing).2 = Raise UnboundLocalError /\
  (lgp_train_attrs (e_lf o) (normalize_input fx_lo fx_hi fx_X) (ck_scale fx_Y fx_Y) fx_search).2 = Ok tt.
Proof. exact (conj isT (conj fx_varied kx_learn_ok)). Qed.
