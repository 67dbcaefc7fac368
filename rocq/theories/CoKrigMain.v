(** The properties of Co-Kriging. *)
From Coq Require Import Reals Lra.
From Verif Require Import Fl FlFacts.
From mathcomp Require Import all_ssreflect all_algebra.
From Verif Require Import RStruct LinAlg LinSpec LinAlgFacts Kernel KernelFacts Krig KrigFacts GP GPSpec GPFacts GPMain MF CoKrig MFSpec.
Set Implicit Arguments.
Unset Strict Implicit.
Unset Printing Implicit Defensive.
Import GRing.Theory.
Local Open Scope ring_scope.

(** ** the joint covariance is positive definite *)
Lemma kpure_stack d n m (w : 'rV[R]_d) (X : 'M[R]_(n, d)) (Y : 'M[R]_(m, d)) :
  kpure w (col_mx X Y) (col_mx X Y) = block_mx (kpure w X X) (kpure w X Y) (kpure w Y X) (kpure w Y Y).
Proof.
apply/matrixP => i j; rewrite mxE. case: (splitP i) => i' Hi; case: (splitP j) => j' Hj.
- have -> : i = lshift m i' by apply: val_inj. have -> : j = lshift m j' by apply: val_inj.
  by rewrite block_mxEul !mxE !rowKu.
- have -> : i = lshift m i' by apply: val_inj. have -> : j = rshift n j' by apply: val_inj.
  by rewrite block_mxEur !mxE rowKu rowKd.
- have -> : i = rshift n i' by apply: val_inj. have -> : j = lshift m j' by apply: val_inj.
  by rewrite block_mxEdl !mxE rowKu rowKd.
- have -> : i = rshift n i' by apply: val_inj. have -> : j = rshift n j' by apply: val_inj.
  by rewrite block_mxEdr !mxE !rowKd.
Qed.
Lemma eye_gram N n m : (n <= N)%N -> (eye N n)^T *m eye N m = eye n m.
Proof.
move=> H; apply/matrixP => i j; rewrite !mxE (bigD1 (widen_ord H i)) //= !mxE /= eqxx mul1r.
rewrite big1 ?addr0 // => k Hk; rewrite !mxE.
have -> : ((k : nat) == i) = false; last by rewrite mul0r.
by apply/negbTE; move: Hk; apply: contra => /eqP E; apply/eqP; apply: val_inj.
Qed.
Lemma semi_gram n m (B : 'M[R]_(n, m)) : possemi (B^T *m B).
Proof.
have -> : B^T *m B = B^T *m 1%:M *m B by rewrite mulmx1.
apply: semi_congr; split; first by rewrite trmx1. move=> x; exact: sq_sum_ge0.
Qed.
Lemma ck_cov_semi d nl nh (kl kd : rbf d) (Xl : 'M[R]_(nl, d)) (Xh : 'M[R]_(nh, d)) sl sd rho a b :
  positive_params (rbf_param kl) -> positive_params (rbf_param kd) -> (0 <= sl)%Re -> (0 <= sd)%Re ->
  possemi (ck_cov kl (noise_matrix Xl kl a) (noise_matrix Xh kd b) sl sd rho Xl Xh).
Proof.
move=> Hl Hd Sl Sd. set w := rbf_param kl.
pose D : 'M[R]_(nl + nh) := block_mx 1%:M 0 0 rho%:M.
pose W : 'M[R]_(nl + nh, nl + nh) := row_mx (eye (nl + nh) nl) (rho *: eye (nl + nh) nh).
pose U : 'M[R]_(nl, nl + nh) := row_mx a%:M 0.
pose V : 'M[R]_(nh, nl + nh) := row_mx 0 1%:M.
have -> : ck_cov kl (noise_matrix Xl kl a) (noise_matrix Xh kd b) sl sd rho Xl Xh =
  sl *: (D^T *m kpure w (col_mx Xl Xh) (col_mx Xl Xh) *m D + jitter *: (W^T *m W) + U^T *m U) + sd *: (V^T *m noise_matrix Xh kd b *m V).
  have ED : D^T *m kpure w (col_mx Xl Xh) (col_mx Xl Xh) *m D =
    block_mx (kpure w Xl Xl) (rho *: kpure w Xl Xh) (rho *: kpure w Xh Xl) (Rmult rho rho *: kpure w Xh Xh).
    have -> : D^T = D by rewrite /D tr_block_mx trmx1 !trmx0 tr_scalar_mx.
    rewrite kpure_stack /D !mulmx_block !mul1mx !mul0mx !mulmx0 !mulmx1 !addr0 !add0r.
    by rewrite !mul_mx_scalar !mul_scalar_mx scalerA.
  have EW : W^T *m W = block_mx (eye nl nl) (rho *: eye nl nh) (rho *: eye nh nl) (Rmult rho rho *: eye nh nh).
    rewrite /W tr_row_mx mul_col_row [(rho *: _)^T]linearZ /= -!scalemxAl -!scalemxAr scalerA.
    by rewrite !eye_gram ?leq_addr ?leq_addl.
  have EU : U^T *m U = block_mx (Rmult a a)%:M 0 0 0.
    by rewrite /U tr_row_mx mul_col_row trmx0 tr_scalar_mx !mul0mx !mulmx0 -scalar_mxM.
  have EV : V^T *m noise_matrix Xh kd b *m V = block_mx 0 0 0 (noise_matrix Xh kd b).
    rewrite /V tr_row_mx trmx0 trmx1 -mulmxA mul_mx_row mulmx0 mulmx1 mul_col_row !mul0mx mul1mx.
    by rewrite mul1mx.
  rewrite ED EW EU EV !scale_block_mx !add_block_mx !scale_block_mx !add_block_mx !scaler0 !addr0 /ck_cov.
  congr block_mx; rewrite /noise_matrix ?kernelE //.
  - by rewrite !scalerDr !scalerA -RmultE; congr (_ *: _ + _ *: _); toR; ring.
  - by rewrite !scalerDr !scalerA -RmultE; congr (_ *: _ + _ *: _); toR; ring.
  - by rewrite !scalerDr !scalerA; congr (_ *: _ + _ *: _ + _); toR; ring.
apply: semi_add; apply: semi_scale => //; last by apply: semi_congr; apply: posdef_semi; exact: kernel_noise_pos.
apply: semi_add; last exact: semi_gram. apply: semi_add; first by apply: semi_congr; exact: kpure_semi.
by apply: semi_scale; [exact: Rlt_le jitter_pos|exact: semi_gram].
Qed.

(** ** the low-fidelity model *)
Section LGP.
Variables (d n : nat).
Definition lg_new_noise (o : lgp d) (h : hyper d) : R := if lg_noise o is Some s then s else h_sigma h.
Lemma lgp_train_inv (o o' : lgp d) (X : 'M[R]_(n, d)) (Y : 'cV[R]_n) s t :
  lgp_train o X Y s = Ok (o', t) -> exists h m,
    let K := noise_matrix X (set_params (lg_kernel o) (h_theta h)) (lg_new_noise o h) in
    result_of s (lg_restart o) h /\ fit_spec K (regr_matrix (@Ordinary d) X) Y m /\
    o' = MkLGP (Some (lg_new_noise o h)) (lg_restart o) (set_params (lg_kernel o) (h_theta h)) /\
    t = LGPTrained X Y K m (Rminus (Rmult (Rmult (Ropp (Rdiv 1 2)) (INR n)) (kr_sigma2 m)) (sum_log_diag (kr_L m))).
Proof.
rewrite /lgp_train; case Eh: (hyper_search _ _ _) => [h|//] /=; rewrite /lgp_update -/(lg_new_noise o h).
rewrite -/(noise_matrix X (set_params (lg_kernel o) (h_theta h)) (lg_new_noise o h)).
case Em: (krig_fit _ _ _) => [m|//] [<- <-]; exists h, m; split; first exact: search_result Eh.
split=> //. apply: krig_fit_spec Em. apply: (kernel_noise_pos _ _ _).1. exact: set_params_pos.
Qed.
Lemma lgp_train_ok (o : lgp d) (X : 'M[R]_(n, d)) (Y : 'cV[R]_n) s : (0 < n)%N -> usable (lg_restart o) s ->
  exists r, lgp_train o X Y s = Ok r.
Proof.
move=> Hn Us. have HF : full_rank (regr_matrix (@Ordinary d) X) by exact: ordinary_full.
have LO q : exists v, lgp_loglik (lg_noise o) X Y (lg_kernel o) q = Ok v.
  rewrite /lgp_loglik kernel_callE.
  have [m ->] := krig_fit_ok Y (kernel_noise_pos X (if lg_noise o is Some s0 then s0 else h_sigma q) (set_params_pos (lg_kernel o) (h_theta q))) HF.
  by rewrite /=; eexists.
have [h Eh] := search_ok LO Us. rewrite /lgp_train Eh /= /lgp_update.
have [m ->] := krig_fit_ok Y (kernel_noise_pos X (if lg_noise o is Some s0 then s0 else h_sigma h) (set_params_pos (lg_kernel o) (h_theta h))) HF.
by rewrite /=; eexists.
Qed.
Lemma lgp_interpolates (o o' : lgp d) (X : 'M[R]_(n, d)) (Y : 'cV[R]_n) s t :
  lgp_train o X Y s = Ok (o', t) -> lg_noise o = Some R0 ->
  lgp_predict o' t X = Y /\ lgp_predict_std o' t X = Ok (Y, 0).
Proof.
move=> /lgp_train_inv [h [m [_ [Hf [-> ->]]]]] Hn.
set K := noise_matrix _ _ _ in Hf *.
have E : K = get_kernel_matrix (set_params (lg_kernel o) (h_theta h)) X X.
  rewrite /K /noise_matrix /lg_new_noise Hn Rmult_0_l. by rewrite -scalemx1 scale0r addr0.
have EP : lgp_predict (MkLGP (Some (lg_new_noise o h)) (lg_restart o) (set_params (lg_kernel o) (h_theta h)))
   (LGPTrained X Y K m (Rminus (Rmult (Rmult (Ropp (Rdiv 1 2)) (INR n)) (kr_sigma2 m)) (sum_log_diag (kr_L m)))) X = Y.
  by rewrite /lgp_predict /= -E (fit_interpolates Hf).
split=> //. rewrite /lgp_predict_std EP /= -E (fit_mse_train Hf) /=. congr Ok; congr pair.
apply/matrixP => j l; rewrite [LHS]mxE [RHS]mxE [(\col__ _) j 0]mxE.
have -> : K j j = Rplus 1 jitter.
  rewrite E kernel_self; last exact: set_params_pos. rewrite addE !mxE wdist_self eqxx RoppE oppr0 exp_0 /=.
  by rewrite mulr1n.
rewrite /lg_new_noise Hn Rmult_0_l. have S2 := fit_sigma2_ge0 Hf. have J := jitter_pos.
rewrite Rmax_right; first by rewrite Rplus_0_l; exact: sqrt_0.
have -> : kr_sigma2 m * (1 - Rplus 1 jitter) = Ropp (Rmult (kr_sigma2 m) jitter) by toR; ring.
apply: Rge_le; apply: Ropp_0_le_ge_contravar. apply: Rmult_le_pos => //. exact: Rlt_le.
Qed.
End LGP.

(** ** the discrepancy fit *)
Lemma ones_pos n (K : 'M[R]_n) : (0 < n)%N -> posdef K -> (0 < qf K (const_mx 1%R))%Re.
Proof.
move=> Hn PK; apply: PK.2; apply/eqP => /matrixP/(_ (Ordinal Hn) 0); rewrite !mxE => E; exact: R1_neq_R0.
Qed.
(** the weighted mean of [D] and the variance around it *)
Definition gls_mean n (K : 'M[R]_n) (D : 'cV[R]_n) : R :=
  Rdiv (((const_mx 1 : 'cV[R]_n)^T *m (invmx K *m D)) 0 0) (qf (invmx K) (const_mx 1)).
Lemma ck_fit_ok n (K : 'M[R]_n) (D : 'cV[R]_n) : posdef K ->
  exists L, chol K = Ok L /\ ck_fit K D = Ok (L, gls_mean K D, Rdiv (qf (invmx K) (D - const_mx (gls_mean K D))) (INR n)).
Proof.
move=> PK; have [L EL] := chol_pos PK; exists L; split=> //; rewrite /ck_fit EL /= !(chol_solve_ok _ PK.1 EL) /=.
rewrite !(chol_solve_ok _ PK.1 EL) /=.
have -> : Rdiv (((const_mx 1 : 'cV[R]_n)^T *m (invmx K *m D)) 0 0) (((const_mx 1 : 'cV[R]_n)^T *m (invmx K *m (const_mx 1 : 'cV[R]_n))) 0 0) = gls_mean K D.
  by rewrite /gls_mean /qf -mulmxA.
by rewrite /qf -mulmxA.
Qed.
Lemma div_ge0 x n : (0 <= x)%Re -> (0 <= x / INR n)%Re.
Proof.
move=> H; apply: Rmult_le_pos => //. case: (posnP n) => [->|P]; last by apply: Rlt_le; apply: Rinv_0_lt_compat; apply: lt_0_INR; apply/ltP.
rewrite /= Rinv_0. exact: Rle_refl.
Qed.

(** ** what a successful training has done *)
Section CK.
Variables (d : nat) (lo hi : 'rV[R]_d).
Definition ck_scale nh nl (Yh : 'cV[R]_nh) (Yl : 'cV[R]_nl) : 'cV[R]_nl := \col_i Rdiv (Rminus (Yl i 0) (mean Yh)) (stdev Yh).
Definition ck_noise0 nh (o : ck d) (Yh : 'cV[R]_nh) : option R := omap (fun s => Rdiv s (stdev Yh)) (ck_noise o).
Definition ck_lf0 nh (o : ck d) (Yh : 'cV[R]_nh) : lgp d :=
  MkLGP (if ck_noise0 o Yh is Some s then Some s else lg_noise (ck_lf o)) (lg_restart (ck_lf o)) (lg_kernel (ck_lf o)).
Definition ck_noise1 nh (o : ck d) (Yh : 'cV[R]_nh) (h : ckhyper d) : R := if ck_noise0 o Yh is Some s then s else ch_sigma h.
Definition ck_disc n (K : 'M[R]_n) (D : 'cV[R]_n) : R := Rdiv (qf (invmx K) (D - const_mx (gls_mean K D))) (INR n).
Definition ck_state nh nl (o : ck d) (Xh : 'M[R]_(nh, d)) (Yh : 'cV[R]_nh) (Xl : 'M[R]_(nl, d)) (Yl : 'cV[R]_nl)
    (lf : lgp d) (t : lgp_trained d nl) (h : ckhyper d) (L : 'M[R]_nh) LC : ck_trained d :=
  let Xhs := normalize_input lo hi Xh in let Xls := normalize_input lo hi Xl in
  let kernel := set_params (ck_kernel o) (ch_theta h) in
  let K := noise_matrix Xhs kernel (ck_noise1 o Yh h) in
  let sd := ck_disc K (normalize_output Yh - ch_rho h *: lgp_predict lf t Xhs) in
  let C := ck_cov (lg_kernel lf) (lt_K t) K (kr_sigma2 (lt_krig t)) sd (ch_rho h) Xls Xhs in
  let y := col_mx (ck_scale Yh Yl) (normalize_output Yh) in
  let logp := Rminus (Rmult (Rmult (Ropp (Rdiv 1 2)) (INR nh)) (ln sd)) (sum_log_diag L) in
  CKTrained Xls Xhs (mean Yh) (stdev Yh) t (ch_rho h) K sd logp C LC y (gls_mean (C + jitter%:M) y).
Definition ck_result nh nl (o : ck d) (Xh : 'M[R]_(nh, d)) (Yh : 'cV[R]_nh) (Xl : 'M[R]_(nl, d)) (Yl : 'cV[R]_nl)
    (lf : lgp d) (t : lgp_trained d nl) (h : ckhyper d) (L : 'M[R]_nh) LC : ck d :=
  MkCK (Some (ck_noise1 o Yh h)) (ck_restart o) (set_params (ck_kernel o) (ch_theta h)) lf
    (Some (ck_state o Xh Yh Xl Yl lf t h L LC)).

Lemma ck_disc_ge0 n (K : 'M[R]_n) D : posdef K -> (0 <= ck_disc K D)%Re.
Proof. move=> PK; apply: div_ge0. exact: (posdef_semi (pos_inv PK)).2. Qed.
Lemma ck_joint_pos nl nh (Xl : 'M[R]_(nl, d)) (Xh : 'M[R]_(nh, d)) (lf0 lf : lgp d) Yl sl t kd noise rho D :
  lgp_train lf0 Xl Yl sl = Ok (lf, t) -> positive_params (rbf_param kd) ->
  posdef (ck_cov (lg_kernel lf) (lt_K t) (noise_matrix Xh kd noise) (kr_sigma2 (lt_krig t)) (ck_disc (noise_matrix Xh kd noise) D) rho Xl Xh + jitter%:M).
Proof.
case/lgp_train_inv => h [m [_ [Hf [-> ->]]]] Hk /=. apply: semi_pos; last exact: jitter_pos.
apply: ck_cov_semi => //; first exact: set_params_pos; first exact: (fit_sigma2_ge0 Hf).
apply: ck_disc_ge0. exact: kernel_noise_pos.
Qed.
Lemma ck_train_inv nh nl (o o' : ck d) (Xh : 'M[R]_(nh, d)) (Yh : 'cV[R]_nh) (Xl : 'M[R]_(nl, d)) (Yl : 'cV[R]_nl) sl sh :
  ck_train lo hi o Xh Yh Xl Yl sl sh = Ok o' ->
  stdev Yh <> R0 /\ exists lf t h L LC,
    lgp_train (ck_lf0 o Yh) (normalize_input lo hi Xl) (ck_scale Yh Yl) sl = Ok (lf, t) /\
    hyper_search (ck_restart o) (ck_loglik (ck_noise0 o Yh) (normalize_input lo hi Xh) (normalize_output Yh)
      (lgp_predict lf t (normalize_input lo hi Xh)) (stdev Yh) (ck_kernel o)) sh = Ok h /\
    o' = ck_result o Xh Yh Xl Yl lf t h L LC /\
    chol (noise_matrix (normalize_input lo hi Xh) (set_params (ck_kernel o) (ch_theta h)) (ck_noise1 o Yh h)) = Ok L /\
    (if ck_model o' is Some r then chol (ct_C r + jitter%:M) = Ok (ct_LC r) /\ posdef (ct_C r + jitter%:M) else False).
Proof.
rewrite /ck_train; case: (Req_EM_T _ _) => // HY E; split=> //; move: E.
rewrite -/(ck_noise0 o Yh) -/(ck_lf0 o Yh) -/(ck_scale Yh Yl).
case El: (lgp_train _ _ _ _) => [[lf t]|//] /=; case Eh: (hyper_search _ _ _) => [h|//] /=.
rewrite /ck_update -/(ck_noise1 o Yh h).
set kernel := set_params _ _. rewrite -/(noise_matrix (normalize_input lo hi Xh) kernel (ck_noise1 o Yh h)).
set K := noise_matrix _ _ _. set D := _ - _.
have Hk : positive_params (rbf_param kernel) by exact: set_params_pos.
have [L [EK ->]] := ck_fit_ok D (kernel_noise_pos (normalize_input lo hi Xh) (ck_noise1 o Yh h) Hk).
rewrite -/K -/(ck_disc K D) /=. set C := ck_cov _ _ _ _ _ _ _ _.
have PC : posdef (C + jitter%:M) by exact: ck_joint_pos El Hk.
case EL: (chol (C + _)) => [LC|//] /=; rewrite !(chol_solve_ok _ PC.1 EL) /= => -[<-].
exists lf, t, h, L, LC; split=> //; split=> //; split; last by [].
rewrite /ck_result. congr MkCK; congr Some; rewrite /ck_state; congr CKTrained. by rewrite /gls_mean /qf -mulmxA.
Qed.
(** ** C84 *)
Lemma ck_train_ok nh nl (o : ck d) (Xh : 'M[R]_(nh, d)) (Yh : 'cV[R]_nh) (Xl : 'M[R]_(nl, d)) (Yl : 'cV[R]_nl) sl sh :
  (0 < nl)%N -> ~ constant Yh -> usable (lg_restart (ck_lf o)) sl -> usable (ck_restart o) sh ->
  exists o', ck_train lo hi o Xh Yh Xl Yl sl sh = Ok o'.
Proof.
move=> Hn Hh Ul Uh. have HY := nonconstant Hh.
rewrite /ck_train; case: (Req_EM_T _ _) => [E|N]; first by case: HY.
rewrite -/(ck_noise0 o Yh) -/(ck_lf0 o Yh) -/(ck_scale Yh Yl).
have [[lf t] El] := lgp_train_ok (o := ck_lf0 o Yh) (normalize_input lo hi Xl) (ck_scale Yh Yl) Hn Ul. rewrite El /=.
have LO q : exists v, ck_loglik (ck_noise0 o Yh) (normalize_input lo hi Xh) (normalize_output Yh)
      (lgp_predict lf t (normalize_input lo hi Xh)) (stdev Yh) (ck_kernel o) q = Ok v.
  rewrite /ck_loglik kernel_callE.
  have [L [_ ->]] := ck_fit_ok (normalize_output Yh - ch_rho q *: lgp_predict lf t (normalize_input lo hi Xh))
     (kernel_noise_pos (normalize_input lo hi Xh) (if ck_noise0 o Yh is Some s then Rdiv s (stdev Yh) else ch_sigma q) (set_params_pos (ck_kernel o) (ch_theta q))).
  by rewrite /=; eexists.
have [h Eh] := search_ok LO Uh. rewrite Eh /= /ck_update -/(ck_noise1 o Yh h).
set kernel := set_params _ _. rewrite -/(noise_matrix (normalize_input lo hi Xh) kernel (ck_noise1 o Yh h)).
set K := noise_matrix _ _ _. set D := _ - _.
have Hk : positive_params (rbf_param kernel) by exact: set_params_pos.
have [L [_ ->]] := ck_fit_ok D (kernel_noise_pos (normalize_input lo hi Xh) (ck_noise1 o Yh h) Hk).
rewrite -/K -/(ck_disc K D) /=. set C := ck_cov _ _ _ _ _ _ _ _.
have PC : posdef (C + jitter%:M) by exact: ck_joint_pos El Hk.
have [LC EL] := chol_pos PC. rewrite EL /= !(chol_solve_ok _ PC.1 EL) /=. by eexists.
Qed.

(** ** predictions of a trained model *)
Lemma ck_predictE m (o : ck d) t (Xq : 'M[R]_(m, d)) : ck_model o = Some t ->
  posdef (ct_C t + jitter%:M) -> chol (ct_C t + jitter%:M) = Ok (ct_LC t) ->
  let c := ck_cross o t (normalize_input lo hi Xq) in
  ck_predict lo hi o Xq = Ok (\col_j Rplus (Rmult (Rplus (ct_mu t) ((c^T *m (invmx (ct_C t + jitter%:M) *m (ct_y t - const_mx (ct_mu t)))) j 0)) (ct_std t)) (ct_mean t)).
Proof.
move=> Et PC EL c; rewrite /ck_predict Et (chol_solve_ok _ PC.1 EL) /=; congr Ok; apply/matrixP => j k; rewrite [LHS]mxE [RHS]mxE.
by rewrite addE [const_mx _ _ _]mxE.
Qed.
Lemma ck_model_of nh nl (o o' : ck d) (Xh : 'M[R]_(nh, d)) (Yh : 'cV[R]_nh) (Xl : 'M[R]_(nl, d)) (Yl : 'cV[R]_nl) sl sh :
  ck_train lo hi o Xh Yh Xl Yl sl sh = Ok o' -> exists t noise, ck_model o' = Some t /\ ck_noise o' = Some noise /\
    ct_mean t = mean Yh /\ ct_std t = stdev Yh /\ stdev Yh <> R0 /\
    chol (ct_C t + jitter%:M) = Ok (ct_LC t) /\ posdef (ct_C t + jitter%:M).
Proof.
move/ck_train_inv => [HY [lf [t [h [L [LC [El [Eh [-> [EK [E1 E2]]]]]]]]]]]. by do 2 eexists.
Qed.

(** ** C55 *)
Lemma ck_cov_blocks nh nl (o o' : ck d) (Xh : 'M[R]_(nh, d)) (Yh : 'cV[R]_nh) (Xl : 'M[R]_(nl, d)) (Yl : 'cV[R]_nl) sl sh t noise nlf :
  ck_train lo hi o Xh Yh Xl Yl sl sh = Ok o' -> ck_model o' = Some t -> ck_noise o' = Some noise -> lg_noise (ck_lf o') = Some nlf ->
  let k := lg_kernel (ck_lf o') in let s_l := kr_sigma2 (lt_krig (ct_lf t)) in
  posdef (ct_C t + (Rinv (10 ^ 10))%:M) /\ (0 <= s_l)%Re /\ (0 <= ct_sigma2 t)%Re /\
  ulsubmx (ct_C t) = s_l *: (get_kernel_matrix k (ct_Xl t) (ct_Xl t) + (Rmult nlf nlf)%:M) /\
  ursubmx (ct_C t) = Rmult (ct_rho t) s_l *: get_kernel_matrix k (ct_Xl t) (ct_Xh t) /\
  dlsubmx (ct_C t) = (ursubmx (ct_C t))^T /\
  drsubmx (ct_C t) = Rmult (Rmult (ct_rho t) (ct_rho t)) s_l *: get_kernel_matrix k (ct_Xh t) (ct_Xh t) +
     ct_sigma2 t *: (get_kernel_matrix (ck_kernel o') (ct_Xh t) (ct_Xh t) + (Rmult noise noise)%:M).
Proof.
move/ck_train_inv => [HY [lf [t' [h [L [LC [El [Eh [-> [EK [E1 E2]]]]]]]]]]] [<-] [<-] /= Hn.
split; first exact: E2. have [hl [m [_ [Hf [Elf Et]]]]] := lgp_train_inv El.
split; first by rewrite Et; exact: (fit_sigma2_ge0 Hf).
split; first by apply: ck_disc_ge0; apply: kernel_noise_pos; exact: set_params_pos.
rewrite /ck_cov block_mxKul block_mxKur block_mxKdl block_mxKdr; split.
  by move: Hn; rewrite Et Elf /= => -[<-].
split=> //; split; last by []. rewrite [(_ *: _)^T]linearZ /=; congr (_ *: _).
rewrite Elf /= !kernelE; try exact: set_params_pos. rewrite [(_ + _)^T]linearD /= [(jitter *: _)^T]linearZ /=; congr (_ + _ *: _).
  by apply/matrixP => i j; rewrite !mxE wdist_sym.
by apply/matrixP => i j; rewrite !mxE eq_sym.
Qed.

(** ** C81 *)
Lemma joint_smooth nl nh (M : 'M[R]_(nl + nh)) (c : 'M[R]_(nl + nh, nh)) (y : 'cV[R]_(nl + nh)) e : posdef M ->
  c = rsubmx M - e *: col_mx 0 1%:M -> forall j, (c^T *m (invmx M *m y)) j 0 = y (rshift nl j) 0 - e * (invmx M *m y) (rshift nl j) 0.
Proof.
move=> PM -> j; rewrite [(_ - _)^T]linearB /= mulmxBl addE oppE.
have -> : (rsubmx M)^T *m (invmx M *m y) = dsubmx y.
  by rewrite trmx_rsub PM.1 mul_dsub_mx mulKVmx // pos_unit. 
rewrite [(e *: _)^T]linearZ /= -scalemxAl scaleE; congr (_ - e * _); first by rewrite mxE.
rewrite tr_col_mx trmx0 trmx1 -{1}[invmx M *m y]vsubmxK mul_row_col mul0mx mul1mx add0r. by rewrite mxE.
Qed.
Lemma cov_samples nl nh (kl kd : rbf d) (Kl : 'M[R]_nl) (Xl : 'M[R]_(nl, d)) (Xh : 'M[R]_(nh, d)) s_l s_d rho s :
  col_mx (Rmult rho s_l *: get_kernel_matrix kl Xl Xh)
         (Rmult (Rmult rho rho) s_l *: get_kernel_matrix kl Xh Xh + s_d *: get_kernel_matrix kd Xh Xh) =
  rsubmx (ck_cov kl Kl (noise_matrix Xh kd s) s_l s_d rho Xl Xh + jitter%:M) - Rplus jitter (Rmult s_d (Rmult s s)) *: col_mx 0 1%:M.
Proof.
rewrite scalar_mx_block /ck_cov add_block_mx block_mxEh row_mxKr scale_col_mx opp_col_mx add_col_mx scaler0 oppr0 !addr0.
congr col_mx; rewrite /noise_matrix; move: (get_kernel_matrix kd Xh Xh) (_ *: get_kernel_matrix kl Xh Xh) => A B.
rewrite scalerDr -!addrA; congr (_ + _). rewrite -[LHS]addr0; congr (_ + _).
rewrite  scalemx1 scale_scalar_mx -raddfB -raddfD /= -[LHS](raddf0 (scalar_mx_additive _ _)). congr (_%:M). toR. ring.
Qed.
Lemma ck_at_samples nh nl (o o' : ck d) (Xh : 'M[R]_(nh, d)) (Yh : 'cV[R]_nh) (Xl : 'M[R]_(nl, d)) (Yl : 'cV[R]_nl) sl sh :
  ck_train lo hi o Xh Yh Xl Yl sl sh = Ok o' ->
  exists t noise mu (E : ct_nh t = nh), ck_model o' = Some t /\ ck_noise o' = Some noise /\ ck_predict lo hi o' Xh = Ok mu /\
    let alpha := invmx (ct_C t + (Rinv (10 ^ 10))%:M) *m (ct_y t - const_mx (ct_mu t)) in
    forall j, mu (cast_ord E j) 0 = Rminus (Yh (cast_ord E j) 0)
      (Rmult (Rmult (Rplus (Rinv (10 ^ 10)) (Rmult (ct_sigma2 t) (Rmult noise noise))) (alpha (rshift (ct_nl t) j) 0)) (stdev Yh)).
Proof.
move/ck_train_inv => [HY [lf [t' [h [L [LC [El [Eh [-> [EK [E1 E2]]]]]]]]]]].
exists (ck_state o Xh Yh Xl Yl lf t' h L LC), (ck_noise1 o Yh h).
have PE := ck_predictE Xh (erefl (ck_model (ck_result o Xh Yh Xl Yl lf t' h L LC))) E2 E1.
eexists; exists (erefl nh : ct_nh (ck_state o Xh Yh Xl Yl lf t' h L LC) = nh); split; first by []. split; first by []. split; first exact: PE.
set r := ck_state _ _ _ _ _ _ _ _ _ _ in E1 E2 PE *. move=> alpha j.
have -> : cast_ord (erefl nh : ct_nh r = nh) j = j by apply: val_inj.
rewrite [LHS]mxE (joint_smooth (e := Rplus jitter (Rmult (ct_sigma2 r) (Rmult (ck_noise1 o Yh h) (ck_noise1 o Yh h)))) _ E2); last first.
  exact: cov_samples.
rewrite -/alpha addE oppE [const_mx _ _ _]mxE.
have -> : ct_y r (rshift (ct_nl r) j) 0 = normalize_output Yh j 0 by rewrite /= col_mxEd.
rewrite [normalize_output Yh j 0]mxE.
have Q (mu y e a s m : R) : s <> R0 -> Rplus (Rmult (Rplus mu (Rdiv (Rminus y m) s - mu - e * a)) s) m = Rminus y (Rmult (Rmult e a) s).
  by move=> Hs; toR; field.
exact: Q.
Qed.
(** the low-fidelity side interpolates its own data when the noise is 0 *)
Lemma ck_lf_interpolates nh nl (o o' : ck d) (Xh : 'M[R]_(nh, d)) (Yh : 'cV[R]_nh) (Xl : 'M[R]_(nl, d)) (Yl : 'cV[R]_nl) sl sh :
  ck_noise o = Some R0 -> ck_train lo hi o Xh Yh Xl Yl sl sh = Ok o' ->
  ck_predict_lf lo hi o' Xl = Ok Yl /\ ck_predict_lf_std lo hi o' Xl = Ok (Yl, 0).
Proof.
move=> Hn /ck_train_inv [HY [lf [t' [h [L [LC [El [Eh [-> _]]]]]]]]].
have Hn' : lg_noise (ck_lf0 o Yh) = Some R0 by rewrite /ck_lf0 /ck_noise0 Hn /= /Rdiv Rmult_0_l.
have [I1 I2] := lgp_interpolates El Hn'.
have Q (y m s : R) : s <> R0 -> Rplus (Rmult (Rdiv (Rminus y m) s) s) m = y by move=> Hs; field.
rewrite /ck_predict_lf /ck_predict_lf_std /= I1 I2 /=; split; congr Ok.
  by apply/matrixP => i j; rewrite !mxE Q // ord1.
congr pair; apply/matrixP => i j; rewrite !mxE ?Q ?ord1 //. by rewrite Rmult_0_l.
Qed.

(** ** C56 and C57: the noise through a history of calls *)
Lemma ck_train_noise nh nl (o o' : ck d) (Xh : 'M[R]_(nh, d)) (Yh : 'cV[R]_nh) (Xl : 'M[R]_(nl, d)) (Yl : 'cV[R]_nl) sl sh noise :
  ck_noise o = Some noise -> ck_train lo hi o Xh Yh Xl Yl sl sh = Ok o' ->
  ck_noise o' = Some (Rdiv noise (stdev Yh)) /\ lg_noise (ck_lf o') = Some (Rdiv noise (stdev Yh)) /\ std_of o' = stdev Yh.
Proof.
move=> Hn /ck_train_inv [HY [lf [t' [h [L [LC [El [Eh [-> _]]]]]]]]]; rewrite /= /ck_noise1 /ck_noise0 Hn /=; split=> //; split=> //.
have [hl [m [_ [_ [-> _]]]]] := lgp_train_inv El. by rewrite /= /lg_new_noise /ck_lf0 /ck_noise0 Hn.
Qed.
Lemma ck_std_inv m (o o' : ck d) (X : 'M[R]_(m, d)) r : ck_predict_std lo hi o X = Ok (o', r) ->
  exists t s, ck_model o = Some t /\ ck_noise o = Some s /\
   o' = MkCK (Some (Rmult s (ct_std t))) (ck_restart o) (ck_kernel o) (ck_lf o) (ck_model o).
Proof.
rewrite /ck_predict_std; case: (ck_model o) => [t|//]; case: (ck_predict _ _ _ _) => [mu|//] /=.
case: (chol_solve _ _) => [b|//] /=; case: (ck_noise o) => [s|//] [<- _]. by exists t, s.
Qed.
Lemma ck_noise_history ops (o o' : ck d) noise : ck_noise o = Some noise -> ck_run lo hi o ops = Ok o' ->
  ck_noise o' = Some (noise_history noise (std_of o) ops).
Proof.
elim: ops o noise => [|op ops IH] o noise Hn /=; first by case=> <-.
case: op => [nh nl Xh Yh Xl Yl sl sh|m X|m X] /=.
- case Et: (ck_train _ _ _ _ _ _ _ _ _) => [o1|//] /= H. have [N1 [_ E1]] := ck_train_noise Hn Et. by rewrite (IH _ _ N1 H) E1.
- case: (ck_predict _ _ _ _) => [mu|//] /=. exact: IH.
- case Es: (ck_predict_std _ _ _ _) => [[o1 r]|//] /=; have [t [s [Et [Hs ->]]]] := ck_std_inv Es.
  move: Hs; rewrite Hn => -[<-] H. by rewrite (IH _ (Rmult noise (ct_std t)) _ H) // /std_of /= Et.
Qed.
Lemma ck_noise_learned nh nl (o o' : ck d) (Xh : 'M[R]_(nh, d)) (Yh : 'cV[R]_nh) (Xl : 'M[R]_(nl, d)) (Yl : 'cV[R]_nl) sl sh :
  ck_noise o = None -> ck_train lo hi o Xh Yh Xl Yl sl sh = Ok o' -> exists h, result_of sh (ck_restart o) h /\ ck_noise o' = Some (ch_sigma h).
Proof.
move=> Hn /ck_train_inv [HY [lf [t' [h [L [LC [El [Eh [-> _]]]]]]]]]; exists h; split; first exact: search_result Eh.
by rewrite /= /ck_noise1 /ck_noise0 Hn.
Qed.

(** predictions only, after a training *)
Lemma ck_std_history nh nl m (o o' : ck d) (Xh : 'M[R]_(nh, d)) (Yh : 'cV[R]_nh) (Xl : 'M[R]_(nl, d)) (Yl : 'cV[R]_nl) sl sh noise (Xq : 'M[R]_(m, d)) :
  ck_train lo hi o Xh Yh Xl Yl sl sh = Ok o' -> ck_noise o' = Some noise ->
  exists mu (epi : 'cV[R]_m), (forall j, (0 <= epi j 0%R)%Re) /\
  forall (qs : seq {q : nat & 'M[R]_(q, d)}),
  exists o2 o3 sd, ck_run lo hi o' [seq OpPredictStd (projT2 q) | q <- qs] = Ok o2 /\
    ck_predict lo hi o2 Xq = Ok mu /\ ck_predict_std lo hi o2 Xq = Ok (o3, (mu, sd)) /\
    forall j, sd j 0 = sqrt (Rplus (Rmult (epi j 0) (epi j 0)) (Rsqr (Rmult noise (pow (stdev Yh) (size qs).+1)))).
Proof.
move=> Ht; have [t [s [Et [Hs [Em [Es [HY [EL PC]]]]]]]] := ck_model_of Ht; rewrite Hs => -[<-] {noise}.
have PS p (X : 'M[R]_(p, d)) u : let o1 := MkCK (Some u) (ck_restart o') (ck_kernel o') (ck_lf o') (ck_model o') in
   exists r, ck_predict_std lo hi o1 X = Ok (MkCK (Some (Rmult u (stdev Yh))) (ck_restart o') (ck_kernel o') (ck_lf o') (ck_model o'), r).
  rewrite /ck_predict_std /ck_predict /= Et !(chol_solve_ok _ PC.1 EL) /= Es. by eexists.
have RN (qs : seq {q : nat & 'M[R]_(q, d)}) u : ck_run lo hi (MkCK (Some u) (ck_restart o') (ck_kernel o') (ck_lf o') (ck_model o')) [seq OpPredictStd (projT2 q) | q <- qs] =
   Ok (MkCK (Some (Rmult u (pow (stdev Yh) (size qs)))) (ck_restart o') (ck_kernel o') (ck_lf o') (ck_model o')).
  elim: qs u => [|q qs IH] u /=; first by rewrite Rmult_1_r.
  have [r ->] := PS _ (projT2 q) u. rewrite /= IH. by congr (Ok (MkCK (Some _) _ _ _ _)); ring.
have Eo : o' = MkCK (Some s) (ck_restart o') (ck_kernel o') (ck_lf o') (ck_model o') by case: (o') Hs => /= a b c e f ->.
pose c := ck_cross o' t (normalize_input lo hi Xq).
pose s2 j := Rminus (Rplus (Rmult (Rmult (ct_rho t) (ct_rho t)) (kr_sigma2 (lt_krig (ct_lf t)))) (ct_sigma2 t)) ((c^T *m (invmx (ct_C t + jitter%:M) *m c)) j j).
have PE := ck_predictE Xq Et PC EL. rewrite /= -/c in PE.
eexists; exists (\col_j Rmult (sqrt (Rmax (s2 j) 0)) (ct_std t)); split.
  move=> j; rewrite mxE; apply: Rmult_le_pos; first exact: sqrt_pos. rewrite Es; exact: stdev_ge0.
move=> qs; rewrite {1}Eo RN; do 3 eexists; split; first by [].
split; first exact: PE.
split.
  rewrite /ck_predict_std /= Et. set o1 := MkCK _ _ _ _ _.
  have -> : ck_predict lo hi o1 Xq = ck_predict lo hi o' Xq by rewrite /ck_predict /o1 /= Et.
  have -> : ck_cross o1 t (normalize_input lo hi Xq) = c by [].
  by rewrite PE /= (chol_solve_ok _ PC.1 EL) /=.
move=> j; rewrite [LHS]mxE [(\col__ _) j 0]mxE /s2 /Rsqr Es /=. congr (sqrt (Rplus _ _)). ring.
Qed.

(** ** C86 the objective at the chosen parameters *)
Lemma ck_logp nh nl (o o' : ck d) (Xh : 'M[R]_(nh, d)) (Yh : 'cV[R]_nh) (Xl : 'M[R]_(nl, d)) (Yl : 'cV[R]_nl) sl sh t :
  ck_train lo hi o Xh Yh Xl Yl sl sh = Ok o' -> ck_model o' = Some t ->
  let pred := lgp_predict (ck_lf o') (ct_lf t) (normalize_input lo hi Xh) in
  let objective noise := ck_loglik noise (normalize_input lo hi Xh) (normalize_output Yh) pred (stdev Yh) (ck_kernel o) in
  exists h, result_of sh (ck_restart o) h /\ ct_rho t = ch_rho h /\
    (ck_noise o = Some R0 -> objective (Some R0) h = Ok (Ropp (ct_logp t))) /\
    (ck_noise o = None -> objective None h = Ok (Rplus (Ropp (ct_logp t)) (Rmult (Rdiv (INR nh) 2) (Rminus (ct_sigma2 t) (ln (ct_sigma2 t)))))).
Proof.
move/ck_train_inv => [HY [lf [t' [h [L [LC [El [Eh [-> [EK _]]]]]]]]]] [<-] /=.
exists h; split; first exact: search_result Eh. split=> //.
set kernel := set_params _ _ in EK *. set K := noise_matrix _ _ _ in EK *. set D := _ - _.
have PK : posdef K by apply: kernel_noise_pos; exact: set_params_pos.
have [L' [EK' EF]] := ck_fit_ok D PK; move: EK'; rewrite EK => -[EL]; rewrite -EL in EF.
split=> Hn; rewrite /ck_loglik kernel_callE.
  have -> : get_kernel_matrix kernel (normalize_input lo hi Xh) (normalize_input lo hi Xh) + (Rmult (Rdiv 0 (stdev Yh)) (Rdiv 0 (stdev Yh)))%:M = K.
    by rewrite /K /noise_matrix /ck_noise1 /ck_noise0 Hn /=.
  rewrite -/D EF /=; case: (Req_EM_T R0 0) => [E|N] /=; last by case: N. by [].
have -> : get_kernel_matrix kernel (normalize_input lo hi Xh) (normalize_input lo hi Xh) + (Rmult (ch_sigma h) (ch_sigma h))%:M = K.
  by rewrite /K /noise_matrix /ck_noise1 /ck_noise0 Hn.
rewrite -/D EF /= -/(ck_disc K D). congr Ok. field.
Qed.

(** two successive predictions with standard deviation *)
Lemma ck_drift nh nl m (o o' o1 o2 : ck d) (Xh : 'M[R]_(nh, d)) (Yh : 'cV[R]_nh) (Xl : 'M[R]_(nl, d)) (Yl : 'cV[R]_nl) sl sh noise (Xq : 'M[R]_(m, d)) mu1 mu2 sd1 sd2 :
  ck_train lo hi o Xh Yh Xl Yl sl sh = Ok o' -> ck_noise o' = Some noise ->
  ck_predict_std lo hi o' Xq = Ok (o1, (mu1, sd1)) -> ck_predict_std lo hi o1 Xq = Ok (o2, (mu2, sd2)) ->
  mu2 = mu1 /\ forall j, (sd2 j 0 = sd1 j 0 <-> noise = 0 \/ stdev Yh = 1).
Proof.
move=> Ht Hn E1 E2; have [mu [epi [He H]]] := ck_std_history Xq Ht Hn.
have [o3 [o4 [s1 [R1 [_ [P1 S1]]]]]] := H [::]. have [o5 [o6 [s2 [R2 [_ [P2 S2]]]]]] := H [:: existT _ m Xq].
move: R1 P1 => /= [<-]; rewrite E1 => -[_ Em Es]; move: R2 P2 => /=; rewrite E1 /= => -[<-]; rewrite E2 => -[_ Em2 Es2].
split; first by rewrite Em Em2.
have [t [s [_ [_ [_ [_ [HY _]]]]]]] := ck_model_of Ht.
have PY : (0 < stdev Yh)%Re by case: (stdev_ge0 Yh) => // E; case: HY.
move=> j; rewrite Es Es2 S1 S2 /Rsqr /=; move: (stdev Yh) (epi j 0) PY => y e Py; rewrite !Rmult_1_r.
have Q (a b : R) : (0 <= a)%Re -> (0 <= b)%Re -> sqrt a = sqrt b <-> a = b by move=> Ha Hb; split=> [|->] //; exact: sqrt_inj.
rewrite Q.
- split=> [E|[->|->]]; [|by toR; ring|by toR; ring].
  case: (Req_dec noise 0) => [|N]; first by left. right.
  have : Rmult (Rmult (Rmult noise noise) (Rmult y y)) (Rminus (Rmult y y) 1) = R0 by nra.
  move/Rmult_integral => [K|K]; last by toR; nra.
  exfalso; have P1 : (0 < noise * noise)%Re by exact: Rsqr_pos_lt. 
  have P2 : (0 < y * y)%Re by exact: Rmult_lt_0_compat. have P3 := Rmult_lt_0_compat _ _ P1 P2. lra.
- have := Rle_0_sqr e; have := Rle_0_sqr (noise * (y * y))%Re; rewrite /Rsqr; lra.
- have := Rle_0_sqr e; have := Rle_0_sqr (noise * y)%Re; rewrite /Rsqr; lra.
Qed.
Lemma ck_noise_zero ops (o o' : ck d) : ck_noise o = Some R0 -> ck_run lo hi o ops = Ok o' -> ck_noise o' = Some R0.
Proof.
move=> Hn H; rewrite (ck_noise_history Hn H). congr Some. move: (std_of o) => y; elim: ops y {H} => [|[] *] //=.
- by rewrite /Rdiv Rmult_0_l.
- by rewrite Rmult_0_l.
Qed.
End CK.
Lemma ck_cov_pos d nl nh (kl kd : rbf d) (Xl : 'M[R]_(nl, d)) (Xh : 'M[R]_(nh, d)) sl sd rho a b :
  positive_params (rbf_param kl) -> positive_params (rbf_param kd) -> (0 <= sl)%Re -> (0 <= sd)%Re ->
  let Kl := get_kernel_matrix kl Xl Xl + (Rmult a a)%:M in
  let Kd := get_kernel_matrix kd Xh Xh + (Rmult b b)%:M in
  let C := ck_cov kl Kl Kd sl sd rho Xl Xh in
  posdef (C + (Rinv (10 ^ 10))%:M) /\ exists L, chol (C + jitter%:M) = Ok L.
Proof.
move=> Hl Hd Sl Sd Kl Kd C. have P : posdef (C + jitter%:M) by apply: semi_pos; [exact: ck_cov_semi|exact: jitter_pos].
by split=> //; have [L ->] := chol_pos P; exists L.
Qed.
Lemma ck_predict_ok d (lo hi : 'rV[R]_d) nh nl m (o o' : ck d) (Xh : 'M[R]_(nh, d)) (Yh : 'cV[R]_nh) (Xl : 'M[R]_(nl, d)) (Yl : 'cV[R]_nl) sl sh (Xq : 'M[R]_(m, d)) :
  ck_train lo hi o Xh Yh Xl Yl sl sh = Ok o' ->
  exists mu sd o2, ck_predict lo hi o' Xq = Ok mu /\ ck_predict_std lo hi o' Xq = Ok (o2, (mu, sd)).
Proof.
move=> H; have [t [s [_ [Hs _]]]] := ck_model_of H. have [mu [epi [_ K]]] := ck_std_history Xq H Hs.
have [o2 [o3 [sd [[<-] [E1 [E2 _]]]]]] := K [::]. by exists mu, sd, o3.
Qed.
