(** Theorems about failed trainings of a hierarchical Kriging model (C108).
    HKState.v models the object attribute by attribute: [b_lf] is the low-fidelity model, [b_xl] the stored
    low-fidelity samples, [b_hf] the attributes of the high-fidelity part.  [hk_attempts] applies a list of
    training calls and catches their exceptions.  [hk_train] is that of MF.v. *)
From Coq Require Import Reals Lra.
From Verif Require Import Fl.
From mathcomp Require Import all_ssreflect all_algebra.
From Verif Require Import RStruct LinAlg LinSpec Kernel Krig GP GPSpec GPMain MF MFMain GPState GPStateSpec GPStateFacts HKState HKStateSpec HKStateFacts.
Set Implicit Arguments.
Unset Strict Implicit.
Unset Printing Implicit Defensive.
Import GRing.Theory.
Local Open Scope ring_scope.

(** ** C108 failed trainings of hierarchical Kriging *)

(** the training fails in the low-fidelity stage, and only the data of the low-fidelity model are new; or
    in the high-fidelity stage, and the low-fidelity model is the new one while the high-fidelity part has
    new data and a new trend column but its old kernel, coefficients and factorisation *)
Theorem C108_stages : forall d (lo hi : 'rV[R]_d) nh nl (o : hk_attrs d) (Xh : 'M[R]_(nh, d)) (Yh : 'cV[R]_nh) (Xl : 'M[R]_(nl, d)) (Yl : 'cV[R]_nl) sl sh e,
  ~ constant Yl -> evaluated sl -> ~ constant Yh -> evaluated sh ->
  (hk_train_attrs lo hi o Xh Yh Xl Yl sl sh).2 = Raise e ->
  (e = UnboundLocalError \/ e = LinAlgError) /\
  let lf := train_attrs (@Ordinary d) lo hi (b_lf o) Xl Yl sl in
  (lf.2 = Raise e /\
   (hk_train_attrs lo hi o Xh Yh Xl Yl sl sh).1 =
     HKAttrs (put_data (b_lf o) (Dataset Xl (normalize_input lo hi Xl) Yl (normalize_output Yl))) (b_xl o) (b_hf o)) \/
  (lf.2 = Ok tt /\ exists F0, predict_attrs (@Ordinary d) lo hi lf.1 Xh = Ok F0 /\
   (hk_train_attrs lo hi o Xh Yh Xl Yl sl sh).1 =
     HKAttrs lf.1 (Some (Columns Xl))
       (put_f (put_data (b_hf o) (Dataset Xh (normalize_input lo hi Xh) Yh (normalize_output Yh)))
              (Columns (\matrix_(i, j) Rdiv (Rminus (F0 i j) (mean Yh)) (stdev Yh))))).
Proof. exact hk_failed_kinds. Qed.
Print Assumptions C108_stages.
(** after a success, a failed high-fidelity stage with another number of high-fidelity samples: the
    low-fidelity predictions work, the high-fidelity ones raise *)
Theorem C108_other_size : forall d (lo hi : 'rV[R]_d) nh nl nh' nl' (o : hk_attrs d) (Xh : 'M[R]_(nh, d)) (Yh : 'cV[R]_nh) (Xl : 'M[R]_(nl, d)) (Yl : 'cV[R]_nl) sl sh
    (Xh' : 'M[R]_(nh', d)) (Yh' : 'cV[R]_nh') (Xl' : 'M[R]_(nl', d)) (Yl' : 'cV[R]_nl') sl' sh' e m (Xq : 'M[R]_(m, d)),
  let o1 := hk_train_attrs lo hi o Xh Yh Xl Yl sl sh in
  let o2 := hk_train_attrs lo hi o1.1 Xh' Yh' Xl' Yl' sl' sh' in
  o1.2 = Ok tt -> ~ constant Yh' -> evaluated sh' ->
  (train_attrs (@Ordinary d) lo hi (b_lf o1.1) Xl' Yl' sl').2 = Ok tt -> o2.2 = Raise e -> nh' <> nh ->
  (exists mu, hk_predict_lf_attrs lo hi o2.1 Xq = Ok mu) /\
  hk_predict_attrs lo hi o2.1 Xq = Raise ValueError /\ hk_predict_std_attrs lo hi o2.1 Xq = Raise ValueError.
Proof. exact hk_other_size. Qed.
Print Assumptions C108_other_size.
(** with the same high-fidelity sites: the new trend with the old trend coefficient, plus the old
    correction in the units of the new responses *)
Theorem C108_same_sites : forall d (lo hi : 'rV[R]_d) nh nl nl' (o : hk_attrs d) (Xh : 'M[R]_(nh, d)) (Yh Yh' : 'cV[R]_nh) (Xl : 'M[R]_(nl, d)) (Yl : 'cV[R]_nl) sl sh
    (Xl' : 'M[R]_(nl', d)) (Yl' : 'cV[R]_nl') sl' sh' e m (Xq : 'M[R]_(m, d)) l mu l' beta,
  let o1 := hk_train_attrs lo hi o Xh Yh Xl Yl sl sh in
  let o2 := hk_train_attrs lo hi o1.1 Xh Yh' Xl' Yl' sl' sh' in
  o1.2 = Ok tt -> ~ constant Yh' -> evaluated sh' ->
  (train_attrs (@Ordinary d) lo hi (b_lf o1.1) Xl' Yl' sl').2 = Ok tt -> o2.2 = Raise e ->
  hk_predict_lf_attrs lo hi o1.1 Xq = Ok l -> hk_predict_attrs lo hi o1.1 Xq = Ok mu -> a_beta (b_hf o1.1) = Some beta ->
  hk_predict_lf_attrs lo hi o2.1 Xq = Ok l' ->
  hk_predict_attrs lo hi o2.1 Xq = Ok (\col_j
    (mean Yh' + beta 0%R 0%R * (l' j 0%R - mean Yh') +
     stdev Yh' / stdev Yh * ((mu j 0%R - mean Yh) - beta 0%R 0%R * (l j 0%R - mean Yh)))%Re).
Proof. exact hk_stale_mix. Qed.
Print Assumptions C108_same_sites.
(** so a failed training is not undone: two calls with the same high-fidelity data, the second fails, and
    then the model no longer reproduces these data *)
Theorem C108_rollback_refuted : exists n (X : 'M[R]_(n, 1)) (Yh Yl Z : 'cV[R]_n) sl sh sl' sh' e (o := hk_attrs_new 1 (Some R0) 0),
  ~ constant Yh /\ ~ constant Yl /\ evaluated sl /\ evaluated sh /\ evaluated sl' /\ evaluated sh' /\
  let o1 := hk_train_attrs fx_lo fx_hi o X Yh X Yh sl sh in
  let o2 := hk_train_attrs fx_lo fx_hi o1.1 X Yh X Yl sl' sh' in
  o1.2 = Ok tt /\ o2.2 = Raise e /\
  hk_predict_attrs fx_lo fx_hi o1.1 X = Ok Yh /\ hk_predict_attrs fx_lo fx_hi o2.1 X = Ok Z /\ Z <> Yh.
Proof. exact hk_rollback_witness. Qed.
Print Assumptions C108_rollback_refuted.
(** with a given noise a training after any history of calls does what it does on a new object *)
Theorem C108_forgets : forall d (lo hi : 'rV[R]_d) noise r cs c,
  let o := hk_attempts lo hi (hk_attrs_new d (Some noise) r) cs in
  match hk_train lo hi (hk_new d (Some noise) r) (k_Xh c) (k_Yh c) (k_Xl c) (k_Yl c) (k_sl c) (k_sh c) with
  | Ok g => (hk_attempt lo hi o c).2 = Ok tt /\ hk_same_answers lo hi (hk_attempt lo hi o c).1 g
  | Raise e => (hk_attempt lo hi o c).2 = Raise e
  end.
Proof. exact hk_forgets. Qed.
Print Assumptions C108_forgets.
(** the attribute-level training and that of MF.v agree *)
Theorem C108_agrees : forall d (lo hi : 'rV[R]_d) nh nl (o : hk_attrs d) (Xh : 'M[R]_(nh, d)) (Yh : 'cV[R]_nh) (Xl : 'M[R]_(nl, d)) (Yl : 'cV[R]_nl) sl sh g,
  hk_train lo hi (plain_hk o) Xh Yh Xl Yl sl sh = Ok g ->
  let o' := hk_train_attrs lo hi o Xh Yh Xl Yl sl sh in
  o'.2 = Ok tt /\ hk_same_answers lo hi o'.1 g /\
  a_noise (b_hf o'.1) = hk_noise g /\ a_restart (b_hf o'.1) = hk_restart g /\ a_kernel (b_hf o'.1) = hk_kernel g /\
  a_noise (b_lf o'.1) = gp_noise (hk_lf g) /\ a_restart (b_lf o'.1) = gp_restart (hk_lf g) /\ a_kernel (b_lf o'.1) = gp_kernel (hk_lf g).
Proof. exact hk_train_answers. Qed.
Print Assumptions C108_agrees.
(** a success and then a failure of the high-fidelity stage, the low-fidelity stage having succeeded *)
Example C108_ok : hx_1.2 = Ok tt /\ ~ constant fx_Y /\ evaluated fx_nothing /\
  (train_attrs (@Ordinary 1) fx_lo fx_hi (b_lf hx_1.1) fx_X fx_Y' fx_search).2 = Ok tt /\ hx_2.2 = Raise UnboundLocalError.
Proof. split; first exact: hx_1_ok. split; first exact: fx_varied. split; first exact: (fx_ok').2. split; [exact: hx_lf_ok|exact: hx_2_fails]. Qed.
