(** Theorems about failed trainings of a scaled Kriging model (C111, C112).
    SKState.v models the object attribute by attribute: [s_lf] and [s_disc] are the low-fidelity and the
    discrepancy model, each a Gaussian process of GPState.v, [s_hf] the stored high-fidelity data, [s_rho]
    the scale factor.  [train_attrs], [predict_attrs] are training and prediction of these processes.
    SKStateSpec.v: [disc_calls] lists the trainings of the discrepancy model one call makes, those of the
    search for rho first; [with_data] replaces the data of a process and nothing else; [sk_attempts] applies
    calls and catches their exceptions.  ExternalError marks responses, or discrepancies, that are all equal:
    nothing is said about them. *)
From Coq Require Import Reals Lra.
From Verif Require Import Fl.
From mathcomp Require Import all_ssreflect all_algebra.
From Verif Require Import RStruct LinAlg LinSpec Kernel Krig GP GPSpec GPMain MF GPState GPStateSpec GPStateFacts SKState SKStateSpec SKStateFacts SKStateEx.
Set Implicit Arguments.
Unset Strict Implicit.
Unset Printing Implicit Defensive.
Import GRing.Theory.
Local Open Scope ring_scope.

(** ** C111 what a failed training leaves behind *)

(** Three cases.  The low-fidelity stage failed: its data are the new ones, all else is old.  The rho_method
    is unknown: the low-fidelity model and the data are new, rho and the discrepancy model old.  A training
    of the discrepancy model failed: it keeps the fit of the last training that succeeded, in this call or
    before, with the new data; rho is new only if the search for rho was over. *)
Theorem C111_stages : forall d (lo hi : 'rV[R]_d) nh nl (o : sk_attrs d) (Xh : 'M[R]_(nh, d)) (Yh : 'cV[R]_nh) (Xl : 'M[R]_(nl, d)) (Yl : 'cV[R]_nl) sl sr sh e,
  evaluated sl -> rho_evaluated sr -> evaluated sh -> e <> ExternalError ->
  (sk_train_attrs lo hi o Xh Yh Xl Yl sl sr sh).2 = Raise e ->
  let l := train_attrs (@Ordinary d) lo hi (s_lf o) Xl Yl sl in
  let after disc rho := SKAttrs l.1 (Some (Columns Xl)) (Some (HFData Xh Yh)) disc rho (s_kernel o) (s_noise o) in
  let o' := (sk_train_attrs lo hi o Xh Yh Xl Yl sl sr sh).1 in
  (l.2 = Raise e /\ o' = SKAttrs (with_data lo hi (s_lf o) Xl Yl) (s_xl o) (s_hf o) (s_disc o) (s_rho o) (s_kernel o) (s_noise o)) \/
  (l.2 = Ok tt /\ sr = RhoOther d /\ e = UnboundLocalError /\ o' = after (s_disc o) (s_rho o)) \/
  (l.2 = Ok tt /\ exists pred before Y s later, predict_attrs (@Ordinary d) lo hi l.1 Xh = Ok pred /\
     disc_calls Xh Yh pred (s_rho o) sr sh = before ++ Call Xh Y s :: later /\
     succeeded (@Ordinary d) lo hi (s_disc o) before = before /\
     (train_attrs (@Ordinary d) lo hi (attempts (@Ordinary d) lo hi (s_disc o) before) Xh Y s).2 = Raise e /\
     o' = after (with_data lo hi (attempts (@Ordinary d) lo hi (s_disc o) before) Xh Y) (if later is [::] then rho_chosen sr (s_rho o) else s_rho o)).
Proof. exact sk_failed. Qed.
Print Assumptions C111_stages.
(** predictions after a success and a failure of the low-fidelity stage: numbers exactly when the number of
    low-fidelity samples is the same *)
Theorem C111_lf_sizes : forall d (lo hi : 'rV[R]_d) nh nl nh' nl' (o : sk_attrs d) (Xh : 'M[R]_(nh, d)) (Yh : 'cV[R]_nh) (Xl : 'M[R]_(nl, d)) (Yl : 'cV[R]_nl) sl sr sh
    (Xh' : 'M[R]_(nh', d)) (Yh' : 'cV[R]_nh') (Xl' : 'M[R]_(nl', d)) (Yl' : 'cV[R]_nl') sl' sr' sh' e m (Xq : 'M[R]_(m, d)),
  let o1 := sk_train_attrs lo hi o Xh Yh Xl Yl sl sr sh in
  let o2 := sk_train_attrs lo hi o1.1 Xh' Yh' Xl' Yl' sl' sr' sh' in
  o1.2 = Ok tt -> evaluated sl' -> e <> ExternalError -> (train_attrs (@Ordinary d) lo hi (s_lf o1.1) Xl' Yl' sl').2 = Raise e ->
  o2.2 = Raise e /\
  if nl' == nl then (exists mu, sk_predict_attrs lo hi o2.1 Xq = Ok mu) /\ (exists v, sk_predict_std_attrs lo hi o2.1 Xq = Ok v)
  else sk_predict_attrs lo hi o2.1 Xq = Raise ValueError /\ sk_predict_std_attrs lo hi o2.1 Xq = Raise ValueError.
Proof. exact sk_lf_sizes. Qed.
Print Assumptions C111_lf_sizes.
(** an unknown rho_method: the old discrepancy model on top of the new low-fidelity model *)
Theorem C111_unknown_method : forall d (lo hi : 'rV[R]_d) nh nl nh' nl' (o : sk_attrs d) (Xh : 'M[R]_(nh, d)) (Yh : 'cV[R]_nh) (Xl : 'M[R]_(nl, d)) (Yl : 'cV[R]_nl) sl sr sh
    (Xh' : 'M[R]_(nh', d)) (Yh' : 'cV[R]_nh') (Xl' : 'M[R]_(nl', d)) (Yl' : 'cV[R]_nl') sl' sr' sh' m (Xq : 'M[R]_(m, d)),
  let o1 := sk_train_attrs lo hi o Xh Yh Xl Yl sl sr sh in
  let o2 := sk_train_attrs lo hi o1.1 Xh' Yh' Xl' Yl' sl' sr' sh' in
  let l := train_attrs (@Ordinary d) lo hi (s_lf o1.1) Xl' Yl' sl' in
  o1.2 = Ok tt -> l.2 = Ok tt -> sr' = RhoOther d ->
  o2.2 = Raise UnboundLocalError /\
  exists pl pd, predict_attrs (@Ordinary d) lo hi l.1 Xq = Ok pl /\ predict_attrs (@Ordinary d) lo hi (s_disc o1.1) Xq = Ok pd /\
    sk_predict_attrs lo hi o2.1 Xq = Ok (\col_j (pd j 0%R * s_rho o1.1 + pl j 0%R)%Re) /\
    exists sd, sk_predict_std_attrs lo hi o2.1 Xq = Ok (\col_j (s_rho o1.1 * pl j 0%R + pd j 0%R)%Re, sd).
Proof. exact sk_unknown. Qed.
Print Assumptions C111_unknown_method.
(** a failure of the discrepancy stage: numbers exactly when some training of the discrepancy model in the
    failed call succeeded or the number of high-fidelity samples is the same *)
Theorem C111_disc_sizes : forall d (lo hi : 'rV[R]_d) nh nl nh' nl' (o : sk_attrs d) (Xh : 'M[R]_(nh, d)) (Yh : 'cV[R]_nh) (Xl : 'M[R]_(nl, d)) (Yl : 'cV[R]_nl) sl sr sh
    (Xh' : 'M[R]_(nh', d)) (Yh' : 'cV[R]_nh') (Xl' : 'M[R]_(nl', d)) (Yl' : 'cV[R]_nl') sl' sr' sh' e,
  let o1 := sk_train_attrs lo hi o Xh Yh Xl Yl sl sr sh in
  let o2 := sk_train_attrs lo hi o1.1 Xh' Yh' Xl' Yl' sl' sr' sh' in
  let l := train_attrs (@Ordinary d) lo hi (s_lf o1.1) Xl' Yl' sl' in
  o1.2 = Ok tt -> evaluated sl' -> rho_evaluated sr' -> evaluated sh' -> e <> ExternalError -> o2.2 = Raise e ->
  l.2 = Ok tt -> sr' <> RhoOther d ->
  exists pred before Y s later, predict_attrs (@Ordinary d) lo hi l.1 Xh' = Ok pred /\
    disc_calls Xh' Yh' pred (s_rho o1.1) sr' sh' = before ++ Call Xh' Y s :: later /\
    succeeded (@Ordinary d) lo hi (s_disc o1.1) before = before /\
    forall m (Xq : 'M[R]_(m, d)),
    if (0 < size before)%N || (nh' == nh) then (exists mu, sk_predict_attrs lo hi o2.1 Xq = Ok mu) /\ (exists v, sk_predict_std_attrs lo hi o2.1 Xq = Ok v)
    else sk_predict_attrs lo hi o2.1 Xq = Raise ValueError /\ sk_predict_std_attrs lo hi o2.1 Xq = Raise ValueError.
Proof. exact sk_disc_sizes. Qed.
Print Assumptions C111_disc_sizes.
(** the values at the same sites: the low-fidelity part is the old one in the units of the new responses *)
Theorem C111_lf_same_sites : forall d (lo hi : 'rV[R]_d) nh nl nh' (o : sk_attrs d) (Xh : 'M[R]_(nh, d)) (Yh : 'cV[R]_nh) (Xl : 'M[R]_(nl, d)) (Yl Yl' : 'cV[R]_nl) sl sr sh
    (Xh' : 'M[R]_(nh', d)) (Yh' : 'cV[R]_nh') sl' sr' sh' e m (Xq : 'M[R]_(m, d)) pl mu,
  let o1 := sk_train_attrs lo hi o Xh Yh Xl Yl sl sr sh in
  let o2 := sk_train_attrs lo hi o1.1 Xh' Yh' Xl Yl' sl' sr' sh' in
  o1.2 = Ok tt -> evaluated sl' -> e <> ExternalError -> (train_attrs (@Ordinary d) lo hi (s_lf o1.1) Xl Yl' sl').2 = Raise e ->
  sk_predict_lf_attrs lo hi o1.1 Xq = Ok pl -> sk_predict_attrs lo hi o1.1 Xq = Ok mu ->
  sk_predict_attrs lo hi o2.1 Xq =
    Ok (\col_j (mu j 0%R - pl j 0%R + (mean Yl' + stdev Yl' / stdev Yl * (pl j 0%R - mean Yl)))%Re).
Proof. exact sk_lf_same_sites. Qed.
Print Assumptions C111_lf_same_sites.
(** without a bumpiness search: the new rho, the new low-fidelity predictions [pl] and the old discrepancies
    [pd], these moved and scaled from the units of the old discrepancies [D] to those of the new [D'] *)
Theorem C111_disc_same_sites : forall d (lo hi : 'rV[R]_d) nh nl nl' (o : sk_attrs d) (Xh : 'M[R]_(nh, d)) (Yh Yh' : 'cV[R]_nh) (Xl : 'M[R]_(nl, d)) (Yl : 'cV[R]_nl) sl sr sh
    (Xl' : 'M[R]_(nl', d)) (Yl' : 'cV[R]_nl') sl' sr' sh' e m (Xq : 'M[R]_(m, d)) P P' pd pl,
  let o1 := sk_train_attrs lo hi o Xh Yh Xl Yl sl sr sh in
  let o2 := sk_train_attrs lo hi o1.1 Xh Yh' Xl' Yl' sl' sr' sh' in
  o1.2 = Ok tt -> evaluated sh' -> e <> ExternalError -> o2.2 = Raise e ->
  (train_attrs (@Ordinary d) lo hi (s_lf o1.1) Xl' Yl' sl').2 = Ok tt -> rho_tried sr' = [::] -> sr' <> RhoOther d ->
  sk_predict_lf_attrs lo hi o1.1 Xh = Ok P -> sk_predict_lf_attrs lo hi o2.1 Xh = Ok P' ->
  predict_attrs (@Ordinary d) lo hi (s_disc o1.1) Xq = Ok pd -> sk_predict_lf_attrs lo hi o2.1 Xq = Ok pl ->
  let D := sk_disc_data Yh P (s_rho o1.1) in
  let rho' := rho_chosen sr' (s_rho o1.1) in
  let D' := sk_disc_data Yh' P' rho' in
  let pd' j := (mean D' + stdev D' / stdev D * (pd j 0%R - mean D))%Re in
  sk_predict_attrs lo hi o2.1 Xq = Ok (\col_j (rho' * pd' j + pl j 0%R)%Re) /\
  exists sd, sk_predict_std_attrs lo hi o2.1 Xq = Ok (\col_j (rho' * pl j 0%R + pd' j)%Re, sd).
Proof. exact sk_disc_same_sites. Qed.
Print Assumptions C111_disc_same_sites.
(** "a failed training leaves the old model in force" is false even if the data did not change: after the first
    call the model reproduces the responses 0, 2; the second chooses another rho, raises, and leaves -1, 3 *)
Theorem C111_rollback_refuted : sx_1.2 = Ok tt /\ sx_2.2 = Raise UnboundLocalError /\
  sk_predict_std_attrs fx_lo fx_hi sx_1.1 fx_X = Ok (sx_Y, 0) /\
  (exists sd, sk_predict_std_attrs fx_lo fx_hi sx_2.1 fx_X = Ok (sx_Z, sd)) /\ sx_Z <> sx_Y.
Proof. exact sk_rollback_refuted. Qed.
Print Assumptions C111_rollback_refuted.
(** the hypotheses are met, with a failure of the discrepancy stage *)
Example C111_ok : evaluated fx_search /\ evaluated fx_nothing /\ rho_evaluated (RhoError 1 3%Re) /\
  sx_1.2 = Ok tt /\ sx_2.2 = Raise UnboundLocalError /\
  (train_attrs (@Ordinary 1) fx_lo fx_hi (s_lf sx_1.1) fx_X fx_Y fx_search).2 = Ok tt /\
  sk_predict_lf_attrs fx_lo fx_hi sx_1.1 fx_X = Ok fx_Y /\ sk_predict_lf_attrs fx_lo fx_hi sx_2.1 fx_X = Ok fx_Y.
Proof.
have [E1 _] := sx_1E; have [E2 [L2 [P1 [P2 _]]]] := sx_2E.
by split; [move=> i; left|split; [move=> i; left|]].
Qed.

(** ** C112 later trainings *)

(** with a given noise a training after any history does what it does on a new object; when rho is not
    optimised this holds as long as it never was *)
Theorem C112_forgets : forall d (lo hi : 'rV[R]_d) noise r cs c, (rho_fixed (q_sr c) -> all (fun c => rho_fixed (q_sr c)) cs) ->
  let o := sk_attempts lo hi (sk_attrs_new d (Some noise) r) cs in
  match sk_train lo hi (sk_new d (Some noise) r) (q_Xh c) (q_Yh c) (q_Xl c) (q_Yl c) (q_sl c) (q_sr c) (q_sh c) with
  | Ok g => (sk_attempt lo hi o c).2 = Ok tt /\ sk_same_answers lo hi (sk_attempt lo hi o c).1 g
  | Raise e => (sk_attempt lo hi o c).2 = Raise e
  end.
Proof. exact sk_forgets. Qed.
Print Assumptions C112_forgets.
(** the attribute model and MF.v agree *)
Theorem C112_agrees : forall d (lo hi : 'rV[R]_d) nh nl (o : sk_attrs d) (Xh : 'M[R]_(nh, d)) (Yh : 'cV[R]_nh) (Xl : 'M[R]_(nl, d)) (Yl : 'cV[R]_nl) sl sr sh,
  match sk_train lo hi (plain_sk o) Xh Yh Xl Yl sl sr sh with
  | Ok g => (sk_train_attrs lo hi o Xh Yh Xl Yl sl sr sh).2 = Ok tt /\ sk_same_answers lo hi (sk_train_attrs lo hi o Xh Yh Xl Yl sl sr sh).1 g
  | Raise e => (sk_train_attrs lo hi o Xh Yh Xl Yl sl sr sh).2 = Raise e
  end.
Proof. exact sk_agrees. Qed.
Print Assumptions C112_agrees.
(** a learned noise stays learned: what the low-fidelity stage found is kept for ever, whether or not the call
    and later ones succeed *)
Theorem C112_learned : forall d (lo hi : 'rV[R]_d) nh nl (o : sk_attrs d) (Xh : 'M[R]_(nh, d)) (Yh : 'cV[R]_nh) (Xl : 'M[R]_(nl, d)) (Yl : 'cV[R]_nl) sl sr sh,
  a_noise (s_lf o) = None -> (train_attrs (@Ordinary d) lo hi (s_lf o) Xl Yl sl).2 = Ok tt ->
  exists h, result_of sl (a_restart (s_lf o)) h /\
    forall cs, a_noise (s_lf (sk_attempts lo hi (sk_train_attrs lo hi o Xh Yh Xl Yl sl sr sh).1 cs)) = Some (h_sigma h * stdev Yl)%Re.
Proof. exact sk_learned. Qed.
Print Assumptions C112_learned.
(** and so is what the discrepancy model found for the first rho a bumpiness search tried *)
Theorem C112_learned_first : forall d (lo hi : 'rV[R]_d) nh nl (o : sk_attrs d) (Xh : 'M[R]_(nh, d)) (Yh : 'cV[R]_nh) (Xl : 'M[R]_(nl, d)) (Yl : 'cV[R]_nl) sl rho s qs rho' sh P,
  let l := train_attrs (@Ordinary d) lo hi (s_lf o) Xl Yl sl in
  a_noise (s_disc o) = None -> l.2 = Ok tt -> predict_attrs (@Ordinary d) lo hi l.1 Xh = Ok P ->
  (train_attrs (@Ordinary d) lo hi (s_disc o) Xh (sk_disc_data Yh P rho) s).2 = Ok tt ->
  exists h, result_of s (a_restart (s_disc o)) h /\
    forall cs, a_noise (s_disc (sk_attempts lo hi (sk_train_attrs lo hi o Xh Yh Xl Yl sl (RhoBumpiness ((rho, s) :: qs) rho') sh).1 cs)) =
      Some (h_sigma h * stdev (sk_disc_data Yh P rho))%Re.
Proof. exact sk_learned_disc. Qed.
Print Assumptions C112_learned_first.
(** after any history the kernel is the initial one, and the noise attribute is missing or that of the
    discrepancy model *)
Theorem C112_noise : forall d (lo hi : 'rV[R]_d) noise r cs, let o := sk_attempts lo hi (sk_attrs_new d noise r) cs in
  s_kernel o = rbf_new 0 /\ (s_noise o = None \/ (s_noise o = a_noise (s_disc o) /\ a_noise (s_disc o) <> None)).
Proof. exact sk_noise_attr. Qed.
Print Assumptions C112_noise.
(** the hypotheses are met by a call that fails *)
Example C112_ok : exists P, (train_attrs (@Ordinary 1) fx_lo fx_hi (s_lf (sx_o None)) fx_X fx_Y fx_search).2 = Ok tt /\
  predict_attrs (@Ordinary 1) fx_lo fx_hi (train_attrs (@Ordinary 1) fx_lo fx_hi (s_lf (sx_o None)) fx_X fx_Y fx_search).1 fx_X = Ok P /\
  (train_attrs (@Ordinary 1) fx_lo fx_hi (s_disc (sx_o None)) fx_X (sk_disc_data sx_Y P 0%Re) fx_search).2 = Ok tt /\
  sx_3.2 = Raise UnboundLocalError.
Proof. exact sx_learn_ok. Qed.
