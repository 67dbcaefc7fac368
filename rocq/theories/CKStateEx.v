(** Concrete failed trainings of a Co-Kriging model. *)
From Coq Require Import Reals Lra.
From Verif Require Import Fl FlFacts.
From mathcomp Require Import all_ssreflect all_algebra.
From Verif Require Import RStruct LinAlg LinSpec LinAlgFacts Kernel KernelFacts Krig KrigFacts GP GPSpec GPFacts GPMain MF CoKrig MFSpec CoKrigMain GPState GPStateSpec GPStateFacts CKState CKStateSpec CKStateFacts.
Set Implicit Arguments.
Unset Strict Implicit.
Unset Printing Implicit Defensive.
Import GRing.Theory.
Local Open Scope ring_scope.

(** low-fidelity responses that are all equal to the mean of the high-fidelity ones *)
Lemma flat_fit n p (K : 'M[R]_n) (F : 'M[R]_(n, p)) m : fit_spec K F 0 m -> kr_sigma2 m = R0.
Proof.
move=> H; have B : kr_beta m = 0 by rewrite (fs_beta H) !mulmx0.
by rewrite (fs_sigma2 H) B /gls mulmx0 subr0 /qf mulmx0 [X in Rdiv X _]mxE /Rdiv Rmult_0_l.
Qed.
Lemma flat_lf d n (o : lgp d) (X : 'M[R]_(n, d)) s o' t m (Xq : 'M[R]_(m, d)) noise :
  lgp_train o X 0 s = Ok (o', t) -> lg_noise o = Some noise -> lgp_predict_std o' t Xq = Ok (lgp_predict o' t Xq, const_mx (Rabs noise)).
Proof.
case/lgp_train_inv => h [k [_ [Hf [-> ->]]]] Hn. rewrite /lgp_predict_std /=. rewrite (fit_mse Hf) /=; congr Ok; congr pair.
apply/matrixP => i j; rewrite [LHS]mxE [RHS]mxE (flat_fit Hf) [(\col__ _) i 0]mxE mul0r Rmax_left; last exact: Rle_refl.
rewrite /lg_new_noise Hn Rplus_0_l. exact: sqrt_Rsqr_abs.
Qed.

Definition kx_search : search (ckhyper 1) := Lbfgs (fun _ => Trial [:: CKHyper 1 1 0] (CKHyper 1 1 0) f1).
Definition kx_nothing : search (ckhyper 1) := Lbfgs (fun _ => Trial [:: CKHyper 1 1 0] (CKHyper 1 1 0) fnan).
Definition kx_flat : 'cV[R]_2 := const_mx (Rdiv 1 2).
Definition kx_Y : 'cV[R]_2 := \col_i Rplus (INR i) 1.
Notation kx_train := (ck_train_attrs fx_lo fx_hi).
Lemma kx_mean : mean fx_Y = Rdiv 1 2. Proof. by rewrite /mean !big_ord_recl big_ord0 !mxE /=; toR; field. Qed.
Lemma kx_std : stdev fx_Y = Rdiv 1 2.
Proof.
rewrite /stdev kx_mean !big_ord_recl big_ord0 !mxE /=; toR.
have -> : Rdiv (Rplus (Rmult (Rminus 0 (Rdiv 1 2)) (Rminus 0 (Rdiv 1 2))) (Rplus (Rmult (Rminus 1 (Rdiv 1 2)) (Rminus 1 (Rdiv 1 2))) 0)) (Rplus 1 1) = Rmult (Rdiv 1 2) (Rdiv 1 2) by field.
by apply: sqrt_square; lra.
Qed.
Lemma kx_mean' : mean kx_Y = Rdiv 3 2. Proof. by rewrite /mean !big_ord_recl big_ord0 !mxE /=; toR; field. Qed.
Lemma kx_std' : stdev kx_Y = Rdiv 1 2.
Proof.
rewrite /stdev kx_mean' !big_ord_recl big_ord0 !mxE /=; toR.
have -> : Rdiv (Rplus (Rmult (Rminus (Rplus 0 1) (Rdiv 3 2)) (Rminus (Rplus 0 1) (Rdiv 3 2))) (Rplus (Rmult (Rminus (Rplus 1 1) (Rdiv 3 2)) (Rminus (Rplus 1 1) (Rdiv 3 2))) 0)) (Rplus 1 1) = Rmult (Rdiv 1 2) (Rdiv 1 2) by field.
by apply: sqrt_square; lra.
Qed.
Lemma kx_varied : ~ constant kx_Y. Proof. by move=> /(_ 0 1); rewrite !mxE /=; toR; lra. Qed.
Lemma kx_flat0 : ck_scale fx_Y kx_flat = 0.
Proof. by apply/matrixP => i j; rewrite !mxE kx_mean kx_std /Rdiv Rminus_diag_eq // Rmult_0_l. Qed.

Lemma kx_ok (o : ck_attrs 1) (Yl : 'cV[R]_2) : e_restart o = 0%N -> a_restart (e_lf o) = 0%N -> (kx_train o fx_X fx_Y fx_X Yl fx_search kx_search).2 = Ok tt.
Proof.
move=> H1 H2.
have [g Eg] : exists g, ck_train fx_lo fx_hi (plain_ck o) fx_X fx_Y fx_X Yl fx_search kx_search = Ok g.
  by apply: ck_train_ok => //; [exact: fx_varied|rewrite /= H2; exists 0%N|rewrite /= H1; exists 0%N].
by have := ck_train_answers fx_lo fx_hi o fx_X fx_Y fx_X Yl fx_search kx_search; rewrite Eg => -[].
Qed.
Lemma kx_lf_fails (o : attrs 1 1) (X : 'M[R]_(2, 1)) Y : a_restart o = 0%N -> (lgp_train_attrs o X Y fx_nothing).2 = Raise UnboundLocalError.
Proof.
move=> H; rewrite /lgp_train_attrs /= H.
by have [v ->] := @lgp_loglik_ok 1 2 (a_noise o) X Y (a_kernel o) (Hyper 0 1) isT.
Qed.
Lemma kx_fails (o : ck_attrs 1) (Yh Yl : 'cV[R]_2) : ~ constant Yh -> a_restart (e_lf o) = 0%N ->
  (kx_train o fx_X Yh fx_X Yl fx_nothing kx_search).2 = Raise UnboundLocalError.
Proof.
move=> /stdev_constant HY H. have := @train_stages 1 fx_lo fx_hi 2 2 o fx_X Yh fx_X Yl fx_nothing kx_search HY; cbv zeta.
have Hr : a_restart (e_lf (stored fx_lo fx_hi o fx_X Yh fx_X Yl)) = 0%N.
  by move/(congr1 (@lg_restart 1)): (stored_lf fx_lo fx_hi o fx_X Yh fx_X Yl) => /= ->.
have L := kx_lf_fails (normalize_input fx_lo fx_hi fx_X) (ck_scale Yh Yl) Hr.
case: (lgp_train _ _ _ _) => [[lf t]|e]; first by case=> E; rewrite E in L.
by case=> E ->; rewrite /= -L E.
Qed.
Lemma kx_restart (o : ck_attrs 1) (op : ck_op 1) s : op_ok op -> e_noise o = Some s -> e_restart o = 0%N -> a_restart (e_lf o) = 0%N ->
  e_restart (ck_call fx_lo fx_hi o op).1 = 0%N /\ a_restart (e_lf (ck_call fx_lo fx_hi o op).1) = 0%N.
Proof. by move=> H1 H2 H3 H4; have [-> [-> _]] := call_noise fx_lo fx_hi H1 H2. Qed.

(** ** a failed call changes the predictions *)
Definition kx_1 := kx_train (ck_attrs_new 1 (Some R0) 0) fx_X fx_Y fx_X fx_Y fx_search kx_search.
Definition kx_2 := kx_train kx_1.1 fx_X kx_Y fx_X fx_Y fx_nothing kx_search.
Lemma kx_1_ok : kx_1.2 = Ok tt. Proof. exact: kx_ok. Qed.
Lemma kx_1_restart : a_restart (e_lf kx_1.1) = 0%N.
Proof.
by have [_ R] := @kx_restart (ck_attrs_new 1 (Some R0) 0) (OpTrain fx_X fx_Y fx_X fx_Y fx_search kx_search) R0 (conj isT fx_varied) erefl erefl erefl.
Qed.
Lemma kx_2_fails : kx_2.2 = Raise UnboundLocalError. Proof. apply: kx_fails; [exact: kx_varied|exact: kx_1_restart]. Qed.
Lemma kx_2_lf : (lgp_train_attrs (e_lf (stored fx_lo fx_hi kx_1.1 fx_X kx_Y fx_X fx_Y)) (normalize_input fx_lo fx_hi fx_X) (ck_scale kx_Y fx_Y) fx_nothing).2 = Raise UnboundLocalError.
Proof. apply: kx_lf_fails. have /(congr1 (@lg_restart 1)) /= -> := stored_lf fx_lo fx_hi kx_1.1 fx_X kx_Y fx_X fx_Y. exact: kx_1_restart. Qed.
Lemma ck_rollback_refuted : kx_1.2 = Ok tt /\ kx_2.2 = Raise UnboundLocalError /\
  forall m (Xq : 'M[R]_(m, 1)), exists mu,
    ck_predict_attrs fx_lo fx_hi kx_1.1 Xq = Ok mu /\ ck_predict_attrs fx_lo fx_hi kx_2.1 Xq = Ok (\col_j Rplus (mu j 0) 1).
Proof.
split; first exact: kx_1_ok. split; first exact: kx_2_fails. move=> m Xq.
have [mu Em] : exists mu, ck_predict_attrs fx_lo fx_hi kx_1.1 Xq = Ok mu.
  have [HY [lf [t [h [L [LC [El [PC [EC E]]]]]]]]] := ck_trained_inv kx_1_ok. rewrite /kx_1 E.
  have P := @done_predict 1 fx_lo fx_hi 2 2 (ck_attrs_new 1 (Some R0) 0) fx_X fx_Y fx_X fx_Y fx_search lf t h L LC El m Xq (ck_noise1 (plain_ck (ck_attrs_new 1 (Some R0) 0)) fx_Y h).
  have [mu Em] := done_ok PC EC Xq (ck_noise1 (plain_ck (ck_attrs_new 1 (Some R0) 0)) fx_Y h). exists mu. by rewrite -Em -P.
exists mu; split=> //.
have := @ck_same_sites 1 fx_lo fx_hi 2 2 (ck_attrs_new 1 (Some R0) 0) fx_X fx_Y kx_Y fx_X fx_Y fx_Y fx_search kx_search fx_nothing kx_search UnboundLocalError m Xq mu kx_1_ok isT kx_varied kx_2_lf Em.
move=> ->. congr Ok; apply/matrixP => i j; rewrite [LHS]mxE [RHS]mxE kx_mean kx_mean' kx_std kx_std'. move: (mu i 0) => u. toR. field.
Qed.

(** ** a failed call changes what a later training does *)
Definition kx_new := ck_attrs_new 1 (Some (1 : R)) 0.
Definition kx_clean := kx_train kx_new fx_X fx_Y fx_X kx_flat fx_search kx_search.
Definition kx_first := kx_train kx_new fx_X fx_Y fx_X kx_flat fx_nothing kx_search.
Definition kx_retry := kx_train kx_first.1 fx_X fx_Y fx_X kx_flat fx_search kx_search.
Lemma kx_flat_std (o : ck_attrs 1) s m (Xq : 'M[R]_(m, 1)) : e_restart o = 0%N -> a_restart (e_lf o) = 0%N -> e_noise o = Some s -> (0 <= s)%Re ->
  exists mu, ck_predict_lf_std_attrs fx_lo fx_hi (kx_train o fx_X fx_Y fx_X kx_flat fx_search kx_search).1 Xq = Ok (mu, const_mx s).
Proof.
move=> H1 H2 Hs Ps. have [HY [lf [t [h [L [LC [El [PC [EC E]]]]]]]]] := ck_trained_inv (kx_ok kx_flat H1 H2).
rewrite E /ck_predict_lf_std_attrs [e_lf _]/=. have [_ [_ [_ ->]]] := done_lf fx_X El (normalize_input fx_lo fx_hi Xq).
move: El; rewrite kx_flat0 => El. have N : lg_noise (ck_lf0 (plain_ck o) fx_Y) = Some (Rdiv s (Rdiv 1 2)) by rewrite /ck_lf0 /ck_noise0 /= Hs /= kx_std.
rewrite (flat_lf _ El N) /= stored_data /=. eexists; congr Ok; congr pair. apply/matrixP => i j; rewrite !mxE kx_std.
rewrite Rabs_pos_eq; last by lra. field.
Qed.
Lemma kx_first_fails : kx_first.2 = Raise UnboundLocalError. Proof. by apply: kx_fails => //; exact: fx_varied. Qed.
Lemma ck_disturbed : kx_clean.2 = Ok tt /\ kx_first.2 = Raise UnboundLocalError /\ kx_retry.2 = Ok tt /\
  forall m (Xq : 'M[R]_(m, 1)),
    (exists mu, ck_predict_lf_std_attrs fx_lo fx_hi kx_clean.1 Xq = Ok (mu, const_mx 1%Re)) /\
    (exists mu, ck_predict_lf_std_attrs fx_lo fx_hi kx_retry.1 Xq = Ok (mu, const_mx 2%Re)).
Proof.
have A := kx_first_fails.
have O : op_ok (OpTrain fx_X fx_Y fx_X kx_flat fx_nothing kx_search) by split=> //; exact: fx_varied.
have [R1 R2] := @kx_restart kx_new (OpTrain fx_X fx_Y fx_X kx_flat fx_nothing kx_search) 1 O erefl erefl erefl.
have [_ [_ [N _]]] := call_noise fx_lo fx_hi (o := kx_new) (s := 1%R) O erefl. 
split; first exact: kx_ok. split=> //. split; first exact: kx_ok. move=> m Xq; split.
  by apply: kx_flat_std => //; exact: Rle_0_1.
apply: kx_flat_std => //; last by toR; lra. rewrite [LHS]N kx_std. congr Some. toR. field.
Qed.
(** learned noise: the second call has other low-fidelity data *)
Lemma kx_calls_ok : List.Forall (@op_ok 1) [:: OpTrain fx_X fx_Y fx_X fx_Y fx_nothing kx_search; OpPredictStd fx_X] /\
  ck_outcomes fx_lo fx_hi (ck_attrs_new 1 (Some R0) 0) [:: OpTrain fx_X fx_Y fx_X fx_Y fx_nothing kx_search; OpPredictStd fx_X] = [:: false; false].
Proof.
have F : (kx_train (ck_attrs_new 1 (Some R0) 0) fx_X fx_Y fx_X fx_Y fx_nothing kx_search).2 = Raise UnboundLocalError by apply: kx_fails => //; exact: fx_varied.
have HO : op_ok (OpTrain fx_X fx_Y fx_X fx_Y fx_nothing kx_search) by split=> //; exact: fx_varied.
split; first by constructor=> //; constructor.
rewrite [ck_outcomes _ _ _ _]/= F. congr (_ :: _ :: _). have [K _] := failed_keeps (isT : (0 < 2)%N) fx_varied F.
by rewrite /ck_predict_std_attrs /ck_predict_attrs K.
Qed.
Lemma kx_hf_fails (o : ck_attrs 1) (Yl : 'cV[R]_2) : e_restart o = 0%N -> a_restart (e_lf o) = 0%N ->
  (kx_train o fx_X fx_Y fx_X Yl fx_search kx_nothing).2 = Raise UnboundLocalError.
Proof.
move=> H1 H2. have HY := stdev_constant fx_varied.
have := @train_stages 1 fx_lo fx_hi 2 2 o fx_X fx_Y fx_X Yl fx_search kx_nothing HY; cbv zeta.
have U : usable (lg_restart (ck_lf0 (plain_ck o) fx_Y)) fx_search by rewrite /= H2; exists 0%N.
have [[lf t] ->] := lgp_train_ok (normalize_input fx_lo fx_hi fx_X) (ck_scale fx_Y Yl) (isT : (0 < 2)%N) U.
case=> _. rewrite H1 /hyper_search /=.
have [v ->] := @ck_loglik_ok 1 2 (ck_noise0 (plain_ck o) fx_Y) (normalize_input fx_lo fx_hi fx_X) (normalize_output fx_Y) (lgp_predict lf t (normalize_input fx_lo fx_hi fx_X)) (stdev fx_Y) (e_kernel o) (CKHyper 1 1 0).
by rewrite /= => ->.
Qed.
Lemma kx_learn_ok (o := ck_attrs_new 1 None 0) : (kx_train o fx_X fx_Y fx_X fx_Y fx_search kx_nothing).2 = Raise UnboundLocalError /\
  (lgp_train_attrs (e_lf o) (normalize_input fx_lo fx_hi fx_X) (ck_scale fx_Y fx_Y) fx_search).2 = Ok tt.
Proof.
split; first exact: kx_hf_fails.
have U : usable (lg_restart (plain_lgp (e_lf o))) fx_search by exists 0%N.
have [r Er] := lgp_train_ok (normalize_input fx_lo fx_hi fx_X) (ck_scale fx_Y fx_Y) (isT : (0 < 2)%N) U.
by have [] := lgp_predict_fitted fx_X Er.
Qed.
