(** A concrete failed training of a scaled Kriging model: two samples of both fidelities, rho_method="error". *)
From Coq Require Import Reals Lra.
From Verif Require Import Fl FlFacts.
From mathcomp Require Import all_ssreflect all_algebra.
From Verif Require Import RStruct LinAlg LinSpec LinAlgFacts Kernel KernelFacts Krig KrigFacts GP GPSpec GPFacts GPMain MF MFMain GPState GPStateSpec GPStateFacts SKState SKStateSpec SKStateFacts.
Set Implicit Arguments.
Unset Strict Implicit.
Unset Printing Implicit Defensive.
Import GRing.Theory.
Local Open Scope ring_scope.

Local Notation Ord := (@Ordinary 1).
Local Notation gtrain := (train_attrs Ord fx_lo fx_hi).
Lemma fx_works (o : attrs 1 1) (Y : 'cV[R]_2) : a_restart o = 0%N -> ~ constant Y -> (gtrain o fx_X Y fx_search).2 = Ok tt.
Proof.
move=> Hr HY. have [g Eg] : exists g, gp_train Ord fx_lo fx_hi (plain o) fx_X Y fx_search = Ok g.
  by apply: gp_train_ordinary => //; exists 0%N.
exact: (train_answers Eg).1.
Qed.
Lemma fx_fails_any (o : attrs 1 1) (Y : 'cV[R]_2) : a_restart o = 0%N -> ~ constant Y -> (gtrain o fx_X Y fx_nothing).2 = Raise UnboundLocalError.
Proof.
move=> Hr HV; apply/train_raise_attrs; rewrite /gp_train; case: (Req_EM_T _ _) => [E|HY]; first by case: (stdev_constant HV).
rewrite /= Hr. have [v ->] := @loglik_ok 1 1 Ord 2 (a_noise o) (normalize_input fx_lo fx_hi fx_X) (normalize_output Y) (stdev Y) (a_kernel o) (Hyper 0 1) (@ordinary_full 1 2 (normalize_input fx_lo fx_hi fx_X) isT).
by [].
Qed.
Lemma fx_exact (o : attrs 1 1) (Y : 'cV[R]_2) : a_restart o = 0%N -> a_noise o = Some R0 -> ~ constant Y ->
  predict_attrs Ord fx_lo fx_hi (gtrain o fx_X Y fx_search).1 fx_X = Ok Y /\ predict_std_attrs Ord fx_lo fx_hi (gtrain o fx_X Y fx_search).1 fx_X = Ok (Y, 0).
Proof.
move=> Hr Hn HY. have [g Eg] : exists g, gp_train Ord fx_lo fx_hi (plain o) fx_X Y fx_search = Ok g.
  by apply: gp_train_ordinary => //; exists 0%N.
have [Ep Es] := @gp_interpolates _ _ _ _ _ _ (plain o) g fx_X Y fx_search Hn Eg.
by have [_ [/(_ _ fx_X) [-> ->] _]] := train_answers Eg.
Qed.

(** the high-fidelity responses 0, 2 *)
Definition sx_Y : 'cV[R]_2 := \col_i Rmult 2 (INR i).
Definition sx_o noise : sk_attrs 1 := sk_attrs_new 1 noise 0.
Definition sx_1 := sk_train_attrs fx_lo fx_hi (sx_o (Some R0)) fx_X sx_Y fx_X fx_Y fx_search (RhoError 1 1%Re) fx_search.
Definition sx_2 := sk_train_attrs fx_lo fx_hi sx_1.1 fx_X sx_Y fx_X fx_Y fx_search (RhoError 1 3%Re) fx_nothing.
Definition sx_Z : 'cV[R]_2 := \col_i (4 * INR i - 1)%Re.

Lemma sx_D1 : sk_disc_data sx_Y fx_Y 1%Re = fx_Y.
Proof. by apply/matrixP => i j; rewrite !mxE; toR; ring. Qed.
Definition sx_D2 : 'cV[R]_2 := sk_disc_data sx_Y fx_Y 3%Re.
Lemma sx_varied : ~ constant sx_D2. Proof. move=> /(_ 0 1); rewrite !mxE /=; toR; lra. Qed.
Lemma train_error d (lo hi : 'rV[R]_d) nh nl (o : sk_attrs d) (Xh : 'M[R]_(nh, d)) (Yh : 'cV[R]_nh) (Xl : 'M[R]_(nl, d)) (Yl : 'cV[R]_nl) sl r sh P :
  let l := train_attrs (@Ordinary d) lo hi (s_lf o) Xl Yl sl in
  let t := train_attrs (@Ordinary d) lo hi (s_disc o) Xh (sk_disc_data Yh P r) sh in
  l.2 = Ok tt -> predict_attrs (@Ordinary d) lo hi l.1 Xh = Ok P ->
  sk_train_attrs lo hi o Xh Yh Xl Yl sl (RhoError d r) sh =
    (SKAttrs l.1 (Some (Columns Xl)) (Some (HFData Xh Yh)) t.1 r (s_kernel o) (if t.2 is Ok _ then a_noise t.1 else s_noise o),
     if t.2 is Raise e then Raise e else Ok tt).
Proof.
move=> l t El EP; rewrite /sk_train_attrs -/l El /sk_train_hf_attrs /= EP /= -/t. by case: (t.2).
Qed.
Lemma sx_1E : sx_1.2 = Ok tt /\ sx_1.1 = SKAttrs (gtrain (attrs_new 1 1 (Some R0) 0) fx_X fx_Y fx_search).1 (Some (Columns fx_X)) (Some (HFData fx_X sx_Y))
  (gtrain (attrs_new 1 1 (Some R0) 0) fx_X fx_Y fx_search).1 1%Re (rbf_new 0) (a_noise (gtrain (attrs_new 1 1 (Some R0) 0) fx_X fx_Y fx_search).1).
Proof.
have W := @fx_works (attrs_new 1 1 (Some R0) 0) fx_Y erefl fx_varied.
have [E _] := @fx_exact (attrs_new 1 1 (Some R0) 0) fx_Y erefl erefl fx_varied.
rewrite /sx_1 (@train_error 1 fx_lo fx_hi 2 2 (sx_o (Some R0)) fx_X sx_Y fx_X fx_Y fx_search 1%Re fx_search fx_Y W E) sx_D1.
by rewrite [s_disc _]/= W.
Qed.
Lemma sx_restart (o : attrs 1 1) n (X : 'M[R]_(n, 1)) Y s : a_restart o = 0%N -> a_restart (gtrain o X Y s).1 = 0%N.
Proof. by rewrite gtrain_restart. Qed.
Lemma sx_2E : sx_2.2 = Raise UnboundLocalError /\
  (gtrain (s_lf sx_1.1) fx_X fx_Y fx_search).2 = Ok tt /\
  sk_predict_lf_attrs fx_lo fx_hi sx_1.1 fx_X = Ok fx_Y /\ sk_predict_lf_attrs fx_lo fx_hi sx_2.1 fx_X = Ok fx_Y /\
  predict_attrs Ord fx_lo fx_hi (s_disc sx_1.1) fx_X = Ok fx_Y /\
  sk_predict_std_attrs fx_lo fx_hi sx_1.1 fx_X = Ok (sx_Y, 0).
Proof.
have [_ E1] := sx_1E. set l := gtrain (attrs_new 1 1 (Some R0) 0) fx_X fx_Y fx_search in E1.
have Rl : a_restart l.1 = 0%N by exact: sx_restart.
have Nl : a_noise l.1 = Some R0 by exact: gtrain_noise.
have [E Es] := @fx_exact (attrs_new 1 1 (Some R0) 0) fx_Y erefl erefl fx_varied. rewrite -/l in E Es.
have W : (gtrain (s_lf sx_1.1) fx_X fx_Y fx_search).2 = Ok tt by rewrite E1; apply: fx_works => //; exact: fx_varied.
have [E' _] : predict_attrs Ord fx_lo fx_hi (gtrain (s_lf sx_1.1) fx_X fx_Y fx_search).1 fx_X = Ok fx_Y /\ True.
  by rewrite E1; have [-> _] := @fx_exact l.1 fx_Y Rl Nl fx_varied.
have T := @train_error 1 fx_lo fx_hi 2 2 sx_1.1 fx_X sx_Y fx_X fx_Y fx_search 3%Re fx_nothing fx_Y W E'.
have F : (gtrain (s_disc sx_1.1) fx_X (sk_disc_data sx_Y fx_Y 3%Re) fx_nothing).2 = Raise UnboundLocalError.
  by rewrite E1; apply: fx_fails_any => //; exact: sx_varied.
split; first by rewrite /sx_2 T F.
split=> //; split; first by rewrite E1. split; first by rewrite /sx_2 T. split; first by rewrite E1.
rewrite /sk_predict_std_attrs E1 /= Es /=; congr Ok; congr pair; apply/matrixP => i j; rewrite !mxE; toR; first ring.
by rewrite !Rmult_0_r Rplus_0_r sqrt_0.
Qed.
Lemma sx_meanD : mean sx_D2 = (- (1 / 2))%Re. Proof. by rewrite /mean !big_ord_recl big_ord0 !mxE /=; toR; field. Qed.
Lemma sx_mean : mean fx_Y = (1 / 2)%Re. Proof. by rewrite /mean !big_ord_recl big_ord0 !mxE /=; toR; field. Qed.
Lemma sx_stdev : stdev sx_D2 = stdev fx_Y.
Proof.
rewrite /stdev sx_mean sx_meanD; congr (sqrt (Rdiv _ _)); rewrite !big_ord_recl !big_ord0 !mxE /=; toR; field.
Qed.
(** the same data twice: the second call changes rho, raises, and the model no longer reproduces the data *)
Lemma sk_rollback_refuted : sx_1.2 = Ok tt /\ sx_2.2 = Raise UnboundLocalError /\
  sk_predict_std_attrs fx_lo fx_hi sx_1.1 fx_X = Ok (sx_Y, 0) /\
  (exists sd, sk_predict_std_attrs fx_lo fx_hi sx_2.1 fx_X = Ok (sx_Z, sd)) /\ sx_Z <> sx_Y.
Proof.
have [E1 _] := sx_1E; have [E2 [L2 [P1 [P2 [D1 S1]]]]] := sx_2E. split=> //; split=> //; split=> //.
have V : evaluated fx_nothing by move=> i; left.
have N : UnboundLocalError <> ExternalError by [].
have NR : RhoError 1 3%Re <> RhoOther 1 by [].
have [_ [sd Sd]] := @sk_disc_same_sites 1 fx_lo fx_hi 2 2 2 (sx_o (Some R0)) fx_X sx_Y sx_Y fx_X fx_Y fx_search (RhoError 1 1%Re) fx_search
  fx_X fx_Y fx_search (RhoError 1 3%Re) fx_nothing UnboundLocalError 2 fx_X fx_Y fx_Y fx_Y fx_Y E1 V N E2 L2 erefl NR P1 P2 D1 P2.
split.
  exists sd; rewrite [LHS]Sd; congr Ok; congr pair; apply/matrixP => i j; rewrite !mxE /rho_chosen.
  rewrite -[sk_disc_data sx_Y fx_Y 3%Re]/sx_D2 sx_meanD sx_stdev.
  have -> : s_rho (sk_train_attrs fx_lo fx_hi (sx_o (Some R0)) fx_X sx_Y fx_X fx_Y fx_search (RhoError 1 1%Re) fx_search).1 = 1%Re.
    by rewrite -/sx_1; have [_ ->] := sx_1E.
  rewrite sx_D1 sx_mean. have H := stdev_constant fx_varied. toR. field. exact: H.
by move/matrixP => /(_ 0 0); rewrite !mxE /=; toR; lra.
Qed.
(** noise to be learned: the search for rho tries 0 twice, and the second training of the discrepancy model fails *)
Definition sx_sr : rho_search 1 := RhoBumpiness [:: (0%Re, fx_search); (0%Re, fx_nothing)] 0%Re.
Definition sx_3 := sk_train_attrs fx_lo fx_hi (sx_o None) fx_X sx_Y fx_X fx_Y fx_search sx_sr fx_search.
Lemma sx_D0 P : sk_disc_data sx_Y P 0%Re = sx_Y. Proof. by apply/matrixP => i j; rewrite !mxE; toR; ring. Qed.
Lemma sx_varied0 : ~ constant sx_Y. Proof. move=> /(_ 0 1); rewrite !mxE /=; toR; lra. Qed.
Lemma sx_learn_ok : exists P, (gtrain (s_lf (sx_o None)) fx_X fx_Y fx_search).2 = Ok tt /\
  predict_attrs Ord fx_lo fx_hi (gtrain (s_lf (sx_o None)) fx_X fx_Y fx_search).1 fx_X = Ok P /\
  (gtrain (s_disc (sx_o None)) fx_X (sk_disc_data sx_Y P 0%Re) fx_search).2 = Ok tt /\
  sx_3.2 = Raise UnboundLocalError.
Proof.
have W : (gtrain (s_lf (sx_o None)) fx_X fx_Y fx_search).2 = Ok tt by apply: fx_works => //; exact: fx_varied.
have [P [_ [EP _]]] := gtrain_predict fx_X W.
have W2 : (gtrain (s_disc (sx_o None)) fx_X (sk_disc_data sx_Y P 0%Re) fx_search).2 = Ok tt by rewrite sx_D0; apply: fx_works => //; exact: sx_varied0.
exists P; split=> //; split=> //; split=> //.
have F : (gtrain (gtrain (s_disc (sx_o None)) fx_X (sk_disc_data sx_Y P 0%Re) fx_search).1 fx_X (sk_disc_data sx_Y P 0%Re) fx_nothing).2 = Raise UnboundLocalError.
  by rewrite sx_D0; apply: fx_fails_any; [exact: sx_restart|exact: sx_varied0].
rewrite /sx_3 /sk_train_attrs W /sk_train_hf_attrs.
have -> : s_lf (SKAttrs (gtrain (s_lf (sx_o None)) fx_X fx_Y fx_search).1 (Some (Columns fx_X)) (s_hf (sx_o None)) (s_disc (sx_o None)) (s_rho (sx_o None)) (s_kernel (sx_o None)) (s_noise (sx_o None))) = (gtrain (s_lf (sx_o None)) fx_X fx_Y fx_search).1 by [].
set oo := SKAttrs _ _ (Some _) _ _ _ _.
have -> : s_lf oo = (gtrain (s_lf (sx_o None)) fx_X fx_Y fx_search).1 by [].
rewrite EP. have -> : rho_attrs fx_lo fx_hi (s_disc oo) (s_rho oo) fx_X sx_Y P sx_sr = ((gtrain (gtrain (s_disc (sx_o None)) fx_X (sk_disc_data sx_Y P 0%Re) fx_search).1 fx_X (sk_disc_data sx_Y P 0%Re) fx_nothing).1, Raise UnboundLocalError).
  rewrite /sx_sr /rho_attrs /bumps_attrs. have -> : s_disc oo = s_disc (sx_o None) by []. by rewrite W2 F.
by [].
Qed.
