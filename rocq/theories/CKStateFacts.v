(** Proofs about failed trainings of a Co-Kriging model. *)
From Coq Require Import Reals Lra.
From Verif Require Import Fl FlFacts.
From mathcomp Require Import all_ssreflect all_algebra.
From Verif Require Import RStruct LinAlg LinSpec LinAlgFacts Kernel KernelFacts Krig KrigFacts GP GPSpec GPFacts GPMain MF CoKrig MFSpec CoKrigMain GPState GPStateSpec GPStateFacts CKState CKStateSpec.
Set Implicit Arguments.
Unset Strict Implicit.
Unset Printing Implicit Defensive.
Import GRing.Theory.
Local Open Scope ring_scope.

Local Arguments chol : simpl never.
Section LGP.
Variable d : nat.
Local Notation Ord := (@Ordinary d).
Local Notation attrs := (attrs d 1).
Definition lg_noise1 (o : attrs) (h : hyper d) : R := if a_noise o is Some s then s else h_sigma h.
Definition lgp_fitted n (o : attrs) (X : 'M[R]_(n, d)) (h : hyper d) (alpha : 'cV[R]_n) (m : krig n 1) : attrs :=
  let noise := lg_noise1 o h in
  let k := set_params (a_kernel o) (h_theta h) in
  Attrs (Some noise) (a_restart o) k (a_data o) (a_opt o)
    (Some (Square (noise_matrix X k noise)))
    (Some (Square (kr_L m))) (Some (Columns (kr_F m))) (Some (Columns alpha)) (Some (kr_ld m)) (Some (kr_beta m))
    (Some (Columns (kr_gamma m))) (Some (kr_sigma2 m))
    (Some (Rminus (Rmult (Rmult (Ropp (Rdiv 1 2)) (INR n)) (kr_sigma2 m)) (sum_log_diag (kr_L m)))).
Lemma lgp_update_ok n (o : attrs) (X : 'M[R]_(n, d)) (Y : 'cV[R]_n) h m :
  krig_fit (noise_matrix X (set_params (a_kernel o) (h_theta h)) (lg_noise1 o h)) (regr_matrix Ord X) Y = Ok m ->
  exists alpha, lgp_update_attrs o X Y h = (lgp_fitted o X h alpha m, Ok tt).
Proof.
rewrite /krig_fit /lgp_update_attrs /lgp_fitted /= -/(lg_noise1 o h) -/(noise_matrix X (set_params (a_kernel o) (h_theta h)) (lg_noise1 o h)).
case: (chol _) => [L|//] /=; case: (chol_solve L Y) => [alpha|//] /=; case: (chol_solve L _) => [KF|//] /=.
case: (chol _) => [ld|//] /=; case: (chol_solve ld _) => [beta|//] /=; case: (chol_solve L _) => [gamma|//] /= [<-] /=.
by exists alpha.
Qed.
Lemma lgp_update_raise n (o : attrs) (X : 'M[R]_(n, d)) (Y : 'cV[R]_n) h e :
  krig_fit (noise_matrix X (set_params (a_kernel o) (h_theta h)) (lg_noise1 o h)) (regr_matrix Ord X) Y = Raise e ->
  (lgp_update_attrs o X Y h).2 = Raise e.
Proof.
rewrite /krig_fit /lgp_update_attrs /= -/(lg_noise1 o h) -/(noise_matrix X (set_params (a_kernel o) (h_theta h)) (lg_noise1 o h)).
case: (chol _) => [L|?] /=; last by case=> ->. case: (chol_solve L Y) => [alpha|?] /=; last by case=> ->.
case: (chol_solve L _) => [KF|?] /=; last by case=> ->. case: (chol _) => [ld|?] /=; last by case=> ->.
by case: (chol_solve ld _) => [beta|?] /=; last (by case=> ->); case: (chol_solve L _) => [gamma|?] //= [->].
Qed.
Notation after o X Y := (put_data o (Dataset X X Y Y)).
Lemma lgp_train_attrs_ok n (o : attrs) (X : 'M[R]_(n, d)) (Y : 'cV[R]_n) s r :
  lgp_train (plain_lgp o) X Y s = Ok r -> exists h alpha m, result_of s (a_restart o) h /\
  fit_spec (noise_matrix X (set_params (a_kernel o) (h_theta h)) (lg_noise1 o h)) (regr_matrix Ord X) Y m /\
  lgp_train_attrs o X Y s = (lgp_fitted (put_opt (after o X Y) h) X h alpha m, Ok tt) /\
  r = (MkLGP (Some (lg_noise1 o h)) (a_restart o) (set_params (a_kernel o) (h_theta h)),
       LGPTrained X Y (noise_matrix X (set_params (a_kernel o) (h_theta h)) (lg_noise1 o h)) m
         (Rminus (Rmult (Rmult (Ropp (Rdiv 1 2)) (INR n)) (kr_sigma2 m)) (sum_log_diag (kr_L m)))).
Proof.
rewrite /lgp_train /lgp_train_attrs /=; case Eh: (hyper_search _ _ _) => [h|//] /=; rewrite /lgp_update /= -/(lg_noise1 o h).
rewrite -/(noise_matrix X (set_params (a_kernel o) (h_theta h)) (lg_noise1 o h)).
case Em: (krig_fit _ _ _) => [m|//] /= [<-].
have [alpha Ea] := @lgp_update_ok n (put_opt (after o X Y) h) X Y h m Em.
exists h, alpha, m; split; first exact: search_result Eh. split; last by split.
apply: krig_fit_spec Em. apply: (kernel_noise_pos _ _ _).1. exact: set_params_pos.
Qed.
Lemma lgp_train_attrs_raise n (o : attrs) (X : 'M[R]_(n, d)) (Y : 'cV[R]_n) s e :
  lgp_train (plain_lgp o) X Y s = Raise e -> (lgp_train_attrs o X Y s).2 = Raise e.
Proof.
rewrite /lgp_train /lgp_train_attrs /=; case: (hyper_search _ _ _) => [h|e'] /=; last by case=> ->.
rewrite /lgp_update /= -/(lg_noise1 o h) -/(noise_matrix X (set_params (a_kernel o) (h_theta h)) (lg_noise1 o h)).
case Em: (krig_fit _ _ _) => [m|e'] //= [<-]. exact: (@lgp_update_raise n (put_opt (after o X Y) h) X Y h e' Em).
Qed.
(** with a sample only the search can fail *)
Lemma lgp_loglik_ok n noise (X : 'M[R]_(n, d)) (Y : 'cV[R]_n) k h : (0 < n)%N -> exists v, lgp_loglik noise X Y k h = Ok v.
Proof.
move=> Hn; have HF : full_rank (regr_matrix Ord X) by exact: ordinary_full. rewrite /lgp_loglik kernel_callE.
have [m ->] := krig_fit_ok Y (kernel_noise_pos X (if noise is Some s0 then s0 else h_sigma h) (set_params_pos k (h_theta h))) HF.
by rewrite /=; eexists.
Qed.
Lemma search_fails A r (f : A -> result R) s e : (forall q, exists v, f q = Ok v) -> hyper_search r f s = Raise e -> e = UnboundLocalError.
Proof.
move=> H; case: s => [oracle|qs x]; rewrite /hyper_search run_queries_ok //=. by case/multistart_raise.
Qed.
Lemma lgp_failed n (o : attrs) (X : 'M[R]_(n, d)) (Y : 'cV[R]_n) s e : (0 < n)%N ->
  (lgp_train_attrs o X Y s).2 = Raise e -> e = UnboundLocalError /\ lgp_train_attrs o X Y s = (after o X Y, Raise e).
Proof.
move=> Hn; rewrite /lgp_train_attrs /=; case Es: (hyper_search _ _ _) => [h|e'] /=; last first.
  case=> <-; split=> //. apply: search_fails Es => q; exact: lgp_loglik_ok.
have [m Em] := krig_fit_ok Y (kernel_noise_pos X (lg_noise1 o h) (set_params_pos (a_kernel o) (h_theta h))) (ordinary_full (X := X) Hn).
by have [alpha ->] := @lgp_update_ok n (put_opt (after o X Y) h) X Y h m Em.
Qed.
Lemma lgp_train_cases n (o : attrs) (X : 'M[R]_(n, d)) (Y : 'cV[R]_n) s : (lgp_train_attrs o X Y s).2 = Ok tt -> exists r, lgp_train (plain_lgp o) X Y s = Ok r.
Proof. by move=> H; case E: (lgp_train _ _ _ _) => [r|e]; [exists r|move/lgp_train_attrs_raise: E; rewrite H]. Qed.
Lemma step_inv A (P : attrs -> Prop) (o : attrs) (r : result A) k : P o -> (forall v, P (k v).1) -> P (step o r k).1.
Proof. by move=> H H'; case: r. Qed.
Lemma lgp_update_keeps n (o : attrs) (X : 'M[R]_(n, d)) (Y : 'cV[R]_n) h :
  a_restart (lgp_update_attrs o X Y h).1 = a_restart o /\ a_noise (lgp_update_attrs o X Y h).1 = Some (lg_noise1 o h).
Proof.
pose P (o' : attrs) := a_restart o' = a_restart o /\ a_noise o' = Some (lg_noise1 o h).
suff: P (lgp_update_attrs o X Y h).1 by []. rewrite /lgp_update_attrs; cbv zeta.
by do 6 (apply: (@step_inv _ P); [by []|move=> ?]).
Qed.
Lemma lgp_train_keeps n (o : attrs) (X : 'M[R]_(n, d)) (Y : 'cV[R]_n) s :
  a_restart (lgp_train_attrs o X Y s).1 = a_restart o /\ (forall v, a_noise o = Some v -> a_noise (lgp_train_attrs o X Y s).1 = Some v).
Proof.
rewrite /lgp_train_attrs; cbv zeta. case: (hyper_search _ _ _) => [h|e]; last by [].
have [A B] := lgp_update_keeps (put_opt (after o X Y) h) X Y h. split; first exact: A.
by move=> v Hv; rewrite [LHS]B /lg_noise1 /= Hv.
Qed.
End LGP.

Section CK.
Variables (d : nat) (lo hi : 'rV[R]_d).
Notation train := (ck_train_attrs lo hi).
Notation norm := (normalize_input lo hi).

Lemma lgp_predict_fitted n m (o : attrs d 1) (X : 'M[R]_(n, d)) (Y : 'cV[R]_n) s r (Xq : 'M[R]_(m, d)) :
  lgp_train (plain_lgp o) X Y s = Ok r ->
  let l := lgp_train_attrs o X Y s in
  l.2 = Ok tt /\ plain_lgp l.1 = r.1 /\ a_sigma2 l.1 = Some (kr_sigma2 (lt_krig r.2)) /\ a_K l.1 = Some (Square (lt_K r.2)) /\ lgp_predict_attrs l.1 Xq = Ok (lgp_predict r.1 r.2 Xq) /\ lgp_predict_std_attrs l.1 Xq = lgp_predict_std r.1 r.2 Xq.
Proof.
case/lgp_train_attrs_ok => h [alpha [m' [_ [Hf [-> ->]]]]] /=; split=> //.
split=> //; split=> //; split=> //.
have P : lgp_predict_attrs (lgp_fitted (put_opt (put_data o (Dataset X X Y Y)) h) X h alpha m') Xq =
  Ok (lgp_predict (MkLGP (Some (lg_noise1 o h)) (a_restart o) (set_params (a_kernel o) (h_theta h)))
     (LGPTrained X Y (noise_matrix X (set_params (a_kernel o) (h_theta h)) (lg_noise1 o h)) m'
         (Rminus (Rmult (Rmult (Ropp (Rdiv 1 2)) (INR n)) (kr_sigma2 m')) (sum_log_diag (kr_L m')))) Xq).
  by rewrite /lgp_predict_attrs /lgp_predict /= with_rows_id.
split=> //. rewrite /lgp_predict_std_attrs P /lgp_predict_std /= with_order_id /= /krig_mse.
case: (chol_solve (kr_L m') _) => [delta|//] /=. rewrite with_rows_id /= (fs_F Hf).
case: (chol_solve (kr_ld m') _) => [S|//] /=. congr Ok; congr pair; apply/matrixP => i j; rewrite !mxE //.
Qed.

Definition ck_done nh nl (o : ck_attrs d) (Xh : 'M[R]_(nh, d)) (Yh : 'cV[R]_nh) (Xl : 'M[R]_(nl, d)) (Yl : 'cV[R]_nl) (la : attrs d 1)
    (lf : lgp d) (t : lgp_trained d nl) (h : ckhyper d) (L : 'M[R]_nh) LC : ck_attrs d :=
  let r := ck_state lo hi (plain_ck o) Xh Yh Xl Yl lf t h L LC in
  let D := normalize_output Yh - ch_rho h *: lgp_predict lf t (norm Xh) in
  CKAttrs (Some (ck_noise1 (plain_ck o) Yh h)) (e_restart o) (set_params (e_kernel o) (ch_theta h)) la
    (e_data (stored lo hi o Xh Yh Xl Yl)) (Some (Columns (lgp_predict lf t (norm Xh)))) (Some h) (Some (ch_rho h))
    (CKParams (Some (Square (ct_K r))) (Some (Columns D)) (Some (gls_mean (ct_K r) D)) (Some (ct_sigma2 r)) (Some (ct_logp r))
       (Some (Square (ct_C r))) (Some (Columns (ct_y r))) (Some (Square (ct_LC r))) (Some (ct_mu r))).
Lemma stored_lf nh nl (o : ck_attrs d) (Xh : 'M[R]_(nh, d)) (Yh : 'cV[R]_nh) (Xl : 'M[R]_(nl, d)) (Yl : 'cV[R]_nl) :
  plain_lgp (e_lf (stored lo hi o Xh Yh Xl Yl)) = ck_lf0 (plain_ck o) Yh.
Proof. by rewrite /stored /ck_lf0 /ck_noise0 /=; case: (e_noise o). Qed.
Lemma stored_noise nh nl (o : ck_attrs d) (Xh : 'M[R]_(nh, d)) (Yh : 'cV[R]_nh) (Xl : 'M[R]_(nl, d)) (Yl : 'cV[R]_nl) :
  e_noise (stored lo hi o Xh Yh Xl Yl) = ck_noise0 (plain_ck o) Yh.
Proof. by rewrite /stored /ck_noise0 /=; case E: (e_noise o) => [s|] //=; rewrite E. Qed.
Lemma stored_rest nh nl (o : ck_attrs d) (Xh : 'M[R]_(nh, d)) (Yh : 'cV[R]_nh) (Xl : 'M[R]_(nl, d)) (Yl : 'cV[R]_nl) :
  let o' := stored lo hi o Xh Yh Xl Yl in
  e_restart o' = e_restart o /\ e_kernel o' = e_kernel o /\ e_pred o' = e_pred o /\ e_opt o' = e_opt o /\ e_rho o' = e_rho o /\ e_params o' = e_params o.
Proof. by rewrite /stored /=; case: (e_noise o). Qed.

Lemma train_unfold nh nl (o : ck_attrs d) (Xh : 'M[R]_(nh, d)) (Yh : 'cV[R]_nh) (Xl : 'M[R]_(nl, d)) (Yl : 'cV[R]_nl) sl sh :
  stdev Yh <> R0 -> train o Xh Yh Xl Yl sl sh =
  let o := stored lo hi o Xh Yh Xl Yl in
  let l := lgp_train_attrs (e_lf o) (norm Xl) (ck_scale Yh Yl) sl in
  let o := set_lf o l.1 in
  if l.2 is Raise e then (o, Raise e) else
  ck_step o (lgp_predict_attrs (e_lf o) (norm Xh)) (fun pred_ylh =>
  let o := set_pred o (Columns pred_ylh) in
  ck_step o (hyper_search (e_restart o) (ck_loglik (e_noise o) (norm Xh) (normalize_output Yh) pred_ylh (stdev Yh) (e_kernel o)) sh) (fun opt_param =>
  let o := set_opt o opt_param in
  let o := set_rho o (ch_rho opt_param) in
  let noise := if e_noise o is Some s then s else ch_sigma opt_param in
  let o := set_noise o noise in
  let o := set_kernel o (set_params (e_kernel o) (ch_theta opt_param)) in
  ck_step o (attr (a_sigma2 (e_lf o))) (fun lf_sigma2 =>
  ck_step o (attr (a_K (e_lf o))) (fun lf_K =>
  ck_step o (with_order nl (sq_mx lf_K)) (fun lf_K =>
  ck_update_attrs o noise (ch_rho opt_param) lf_sigma2 lf_K (norm Xl) (ck_scale Yh Yl) (norm Xh) (normalize_output Yh) pred_ylh))))).
Proof. by rewrite /ck_train_attrs; case: (Req_EM_T _ _). Qed.
Lemma plain_train nh nl (o : ck_attrs d) (Xh : 'M[R]_(nh, d)) (Yh : 'cV[R]_nh) (Xl : 'M[R]_(nl, d)) (Yl : 'cV[R]_nl) sl sh :
  stdev Yh <> R0 -> ck_train lo hi (plain_ck o) Xh Yh Xl Yl sl sh =
  bind (lgp_train (ck_lf0 (plain_ck o) Yh) (norm Xl) (ck_scale Yh Yl) sl) (fun lt =>
  let pred_ylh := lgp_predict lt.1 lt.2 (norm Xh) in
  bind (hyper_search (e_restart o) (ck_loglik (ck_noise0 (plain_ck o) Yh) (norm Xh) (normalize_output Yh) pred_ylh (stdev Yh) (e_kernel o)) sh) (fun opt_param =>
  ck_update (plain_ck o) (ck_noise1 (plain_ck o) Yh opt_param) (ch_rho opt_param) (set_params (e_kernel o) (ch_theta opt_param)) lt.1 lt.2
    (norm Xl) (ck_scale Yh Yl) (norm Xh) (normalize_output Yh) pred_ylh (mean Yh) (stdev Yh))).
Proof. by rewrite /ck_train; case: (Req_EM_T _ _). Qed.
(** the update always succeeds *)
Lemma ck_update_attrs_ok nl nh (o : ck_attrs d) noise rho s2 (lfK : 'M[R]_nl) (Xl : 'M[R]_(nl, d)) (Yl : 'cV[R]_nl) (Xh : 'M[R]_(nh, d)) (Yh pred : 'cV[R]_nh) L LC :
  let K := noise_matrix Xh (e_kernel o) noise in
  let D := Yh - rho *: pred in
  let C := ck_cov (a_kernel (e_lf o)) lfK K s2 (ck_disc K D) rho Xl Xh in
  posdef K -> chol K = Ok L -> posdef (C + jitter%:M) -> chol (C + jitter%:M) = Ok LC ->
  ck_update_attrs o noise rho s2 lfK Xl Yl Xh Yh pred =
  (set_par o (CKParams (Some (Square K)) (Some (Columns D)) (Some (gls_mean K D)) (Some (ck_disc K D))
     (Some (Rminus (Rmult (Rmult (Ropp (Rdiv 1 2)) (INR nh)) (ln (ck_disc K D))) (sum_log_diag L)))
     (Some (Square C)) (Some (Columns (col_mx Yl Yh))) (Some (Square LC)) (Some (gls_mean (C + jitter%:M) (col_mx Yl Yh)))), Ok tt).
Proof.
move=> K D C PK EL PC ELC; rewrite /ck_update_attrs; cbv zeta. rewrite -/(noise_matrix Xh (e_kernel o) noise) -/K -/D EL.
rewrite [ck_step _ (Ok L) _]/= (chol_solve_ok _ PK.1 EL) [ck_step _ (Ok _) _]/= (chol_solve_ok _ PK.1 EL) [ck_step _ (Ok _) _]/=.
have EM : Rdiv (((const_mx 1 : 'cV[R]_nh)^T *m (invmx K *m D)) 0 0) (((const_mx 1 : 'cV[R]_nh)^T *m (invmx K *m (const_mx 1 : 'cV[R]_nh))) 0 0) = gls_mean K D.
  by rewrite /gls_mean /qf -mulmxA.
have ES : Rdiv (((D - const_mx (gls_mean K D))^T *m (invmx K *m (D - const_mx (gls_mean K D)))) 0 0) (INR nh) = ck_disc K D.
  by rewrite /ck_disc /qf -mulmxA.
rewrite EM (chol_solve_ok _ PK.1 EL) [ck_step _ (Ok _) _]/= ES -/C ELC.
rewrite [ck_step _ (Ok LC) _]/= (chol_solve_ok _ PC.1 ELC) [ck_step _ (Ok _) _]/= (chol_solve_ok _ PC.1 ELC) [ck_step _ (Ok _) _]/=.
by congr (set_par _ _, _); congr CKParams; congr Some; rewrite /gls_mean /qf -mulmxA.
Qed.
Lemma ck_update_ok nl nh (o : ck d) noise rho kernel lf (t : lgp_trained d nl) (Xl : 'M[R]_(nl, d)) (Yl : 'cV[R]_nl) (Xh : 'M[R]_(nh, d)) (Yh pred : 'cV[R]_nh) m s L LC :
  let K := noise_matrix Xh kernel noise in
  let D := Yh - rho *: pred in
  let C := ck_cov (lg_kernel lf) (lt_K t) K (kr_sigma2 (lt_krig t)) (ck_disc K D) rho Xl Xh in
  posdef K -> chol K = Ok L -> posdef (C + jitter%:M) -> chol (C + jitter%:M) = Ok LC ->
  ck_update o noise rho kernel lf t Xl Yl Xh Yh pred m s =
  Ok (MkCK (Some noise) (ck_restart o) kernel lf (Some (CKTrained Xl Xh m s t rho K (ck_disc K D)
     (Rminus (Rmult (Rmult (Ropp (Rdiv 1 2)) (INR nh)) (ln (ck_disc K D))) (sum_log_diag L)) C LC (col_mx Yl Yh) (gls_mean (C + jitter%:M) (col_mx Yl Yh))))).
Proof.
move=> K D C PK EL PC ELC; rewrite /ck_update; cbv zeta. rewrite -/(noise_matrix Xh kernel noise) -/K -/D.
have [L' [EL' ->]] := ck_fit_ok D PK. move: EL'; rewrite EL => -[<-] /=. rewrite -/(ck_disc K D) -/C ELC /= !(chol_solve_ok _ PC.1 ELC) /=.
by congr (Ok (MkCK _ _ _ _ (Some (CKTrained _ _ _ _ _ _ _ _ _ _ _ _ _)))); rewrite /gls_mean /qf -mulmxA.
Qed.
(** the stages of a training *)
Lemma train_stages nh nl (o : ck_attrs d) (Xh : 'M[R]_(nh, d)) (Yh : 'cV[R]_nh) (Xl : 'M[R]_(nl, d)) (Yl : 'cV[R]_nl) sl sh :
  stdev Yh <> R0 ->
  let o0 := stored lo hi o Xh Yh Xl Yl in
  let l := lgp_train_attrs (e_lf o0) (norm Xl) (ck_scale Yh Yl) sl in
  match lgp_train (ck_lf0 (plain_ck o) Yh) (norm Xl) (ck_scale Yh Yl) sl with
  | Raise e => l.2 = Raise e /\ train o Xh Yh Xl Yl sl sh = (set_lf o0 l.1, Raise e)
  | Ok (lf, t) => l.2 = Ok tt /\
    match hyper_search (e_restart o) (ck_loglik (ck_noise0 (plain_ck o) Yh) (norm Xh) (normalize_output Yh)
      (lgp_predict lf t (norm Xh)) (stdev Yh) (e_kernel o)) sh with
    | Raise e => train o Xh Yh Xl Yl sl sh = (set_pred (set_lf o0 l.1) (Columns (lgp_predict lf t (norm Xh))), Raise e)
    | Ok h => exists L LC, train o Xh Yh Xl Yl sl sh = (ck_done o Xh Yh Xl Yl l.1 lf t h L LC, Ok tt) /\
        ck_train lo hi (plain_ck o) Xh Yh Xl Yl sl sh = Ok (ck_result lo hi (plain_ck o) Xh Yh Xl Yl lf t h L LC)
    end
  end.
Proof.
move=> HY; cbv zeta. rewrite train_unfold // plain_train //; cbv zeta.
set o0 := stored lo hi o Xh Yh Xl Yl. set lf0 := ck_lf0 _ _. have Elf : plain_lgp (e_lf o0) = lf0 by exact: stored_lf.
have En : e_noise o0 = ck_noise0 (plain_ck o) Yh by exact: stored_noise.
have [E1 [E2 [E3 [E4 [E5 E6]]]]] := stored_rest o Xh Yh Xl Yl. rewrite -/o0 in E1 E2 E3 E4 E5 E6.
set l := lgp_train_attrs _ _ _ _.
case El: (lgp_train lf0 _ _ _) => [[lf t]|e]; last first.
  move: (El); rewrite -Elf => /lgp_train_attrs_raise; rewrite -/l => ->. by [].
move: (El); rewrite -Elf => El'. have [F1 [F2 [F3 [F4 [F5 F6]]]]] := lgp_predict_fitted (norm Xh) El'. rewrite -/l in F1 F2 F3 F4 F5 F6.
split=> //; rewrite F1 [e_lf (set_lf o0 l.1)]/= F5 [(lf, t).1]/= [(lf, t).2]/= [ck_step _ (Ok _) _]/=.
rewrite [bind (Ok _) _]/= [e_restart _]/= E1 En E2.
case Eh: (hyper_search _ _ _) => [h|e]; last by [].
rewrite [ck_step _ (Ok h) _]/= [bind (Ok h) _]/= F3 [ck_step _ (attr _) _]/= F4 [ck_step _ (attr _) _]/= with_order_id [ck_step _ (Ok _) _]/=.
rewrite ?E2 ?En -/(ck_noise1 (plain_ck o) Yh h). set kernel := set_params _ _.
have Hk : positive_params (rbf_param kernel) by exact: set_params_pos.
have PK : posdef (noise_matrix (norm Xh) kernel (ck_noise1 (plain_ck o) Yh h)) by exact: kernel_noise_pos. have [L EL] := chol_pos PK.
have Ek : a_kernel l.1 = lg_kernel lf by rewrite -[lf]F2.
have PC := ck_joint_pos (norm Xh) (ck_noise1 (plain_ck o) Yh h) (ch_rho h) (normalize_output Yh - ch_rho h *: lgp_predict lf t (norm Xh)) El Hk.
have [LC ELC] := chol_pos PC. exists L, LC; split; last exact: (ck_update_ok _ _ _ _ PK EL PC ELC).
etransitivity; first by apply: (@ck_update_attrs_ok _ _ _ _ _ _ _ _ _ _ _ _ L LC); rewrite [e_kernel _]/= ?[e_lf _]/= ?Ek.
by rewrite /set_par /= Ek E1.
Qed.

(** ** a successful training answers like the object of CoKrig.v *)
Definition g_noise (g : ck d) s : ck d := MkCK (Some s) (ck_restart g) (ck_kernel g) (ck_lf g) (ck_model g).
Section Done.
Variables (nh nl : nat) (o : ck_attrs d) (Xh : 'M[R]_(nh, d)) (Yh : 'cV[R]_nh) (Xl : 'M[R]_(nl, d)) (Yl : 'cV[R]_nl).
Variables (sl : search (hyper d)) (lf : lgp d) (t : lgp_trained d nl) (h : ckhyper d) (L : 'M[R]_nh) (LC : 'M[R]_(nl + nh)).
Hypothesis El : lgp_train (ck_lf0 (plain_ck o) Yh) (norm Xl) (ck_scale Yh Yl) sl = Ok (lf, t).
Let r := ck_state lo hi (plain_ck o) Xh Yh Xl Yl lf t h L LC.
Hypothesis PC : posdef (ct_C r + jitter%:M).
Hypothesis EC : chol (ct_C r + jitter%:M) = Ok LC.
Local Notation la := (lgp_train_attrs (e_lf (stored lo hi o Xh Yh Xl Yl)) (norm Xl) (ck_scale Yh Yl) sl).1.
Local Notation done := (ck_done o Xh Yh Xl Yl la lf t h L LC).
Local Notation g := (ck_result lo hi (plain_ck o) Xh Yh Xl Yl lf t h L LC).
Lemma done_lf m (Xq : 'M[R]_(m, d)) : plain_lgp la = lf /\ a_sigma2 la = Some (kr_sigma2 (lt_krig t)) /\
  lgp_predict_attrs la Xq = Ok (lgp_predict lf t Xq) /\ lgp_predict_std_attrs la Xq = lgp_predict_std lf t Xq.
Proof.
have El' : lgp_train (plain_lgp (e_lf (stored lo hi o Xh Yh Xl Yl))) (norm Xl) (ck_scale Yh Yl) sl = Ok (lf, t) by rewrite stored_lf.
by have [_ [F2 [F3 [_ [F5 F6]]]]] := lgp_predict_fitted Xq El'.
Qed.
Lemma stored_data : e_data (stored lo hi o Xh Yh Xl Yl) =
  Some (CKData Xh Yh Xl Yl (norm Xh) (norm Xl) (normalize_output Yh) (ck_scale Yh Yl) (mean Yh) (stdev Yh)).
Proof. by rewrite /stored /=; case: (e_noise o). Qed.
Lemma done_predict m (Xq : 'M[R]_(m, d)) s : ck_predict_attrs lo hi (set_noise done s) Xq = ck_predict lo hi (g_noise g s) Xq.
Proof.
have [P1 [P2 _]] := done_lf Xq. rewrite /ck_predict_attrs /ck_predict /ck_cross_attrs /ck_cross /= P2 stored_data /= with_rows_id /=.
have -> : a_kernel la = lg_kernel lf by rewrite -P1.
by case: (chol_solve LC _) => [a|//] /=; rewrite with_rows_id.
Qed.
Lemma done_ok m (Xq : 'M[R]_(m, d)) s : exists mu, ck_predict lo hi (g_noise g s) Xq = Ok mu.
Proof. by rewrite (@ck_predictE d lo hi m (g_noise g s) r Xq erefl PC EC); eexists. Qed.
Lemma done_std m (Xq : 'M[R]_(m, d)) s : exists v,
  ck_predict_std_attrs lo hi (set_noise done s) Xq = (set_noise done (Rmult s (stdev Yh)), Ok v) /\
  ck_predict_std lo hi (g_noise g s) Xq = Ok (g_noise g (Rmult s (stdev Yh)), v).
Proof.
have [P1 [P2 _]] := done_lf Xq. have [mu Emu] := done_ok Xq s.
rewrite /ck_predict_std_attrs done_predict Emu /ck_predict_std Emu /ck_cross_attrs /ck_cross /= P2 stored_data /= with_order_id /=.
have -> : a_kernel la = lg_kernel lf by rewrite -P1.
by rewrite !(chol_solve_ok _ PC.1 EC) /=; eexists; split.
Qed.
Lemma done_now s : ck_same_now lo hi (set_noise done s) (g_noise g s).
Proof.
split=> // m Xq. have [P1 [P2 [P3 P4]]] := done_lf (norm Xq).
split; first by rewrite /ck_predict_lf_attrs /= P3 stored_data.
split; first by rewrite /ck_predict_lf_std_attrs /ck_predict_lf_std /= P4 stored_data.
split; first exact: done_predict. by have [v [-> ->]] := done_std Xq s.
Qed.
Lemma done_answers s : ck_same_answers lo hi (set_noise done s) (g_noise g s).
Proof.
move=> qs; elim: qs s => [|q qs IH] s; first by exists (g_noise g s); split=> //; exact: done_now.
have [v [E1 E2]] := done_std (projT2 q) s.
have [g' [R1 R2]] := IH (Rmult s (stdev Yh)). exists g'. by rewrite /asked /= E1 E2.
Qed.
End Done.
Lemma ck_train_answers nh nl (o : ck_attrs d) (Xh : 'M[R]_(nh, d)) (Yh : 'cV[R]_nh) (Xl : 'M[R]_(nl, d)) (Yl : 'cV[R]_nl) sl sh :
  match ck_train lo hi (plain_ck o) Xh Yh Xl Yl sl sh with
  | Ok g => (train o Xh Yh Xl Yl sl sh).2 = Ok tt /\ ck_same_answers lo hi (train o Xh Yh Xl Yl sl sh).1 g
  | Raise e => (train o Xh Yh Xl Yl sl sh).2 = Raise e
  end.
Proof.
case: (Req_EM_T (stdev Yh) 0) => [Z|HY].
  by rewrite /ck_train /ck_train_attrs; case: (Req_EM_T _ _).
have := @train_stages nh nl o Xh Yh Xl Yl sl sh HY. cbv zeta.
case El: (lgp_train _ _ _ _) => [[lf t]|e]; last by rewrite plain_train // El /=; case=> _ ->.
case=> _. case Eh: (hyper_search _ _ _) => [h|e]; last by rewrite plain_train // El /= Eh /= => ->.
case=> L [LC [-> Eg]]; rewrite Eg. have [_ [lf' [t' [h' [L' [LC' [_ [_ [_ [_ [E1 E2]]]]]]]]]]] := ck_train_inv Eg.
split=> //=. exact: (done_answers El E2 E1 (ck_noise1 (plain_ck o) Yh h)).
Qed.

(** ** failures *)
Lemma ck_loglik_ok n noise (X : 'M[R]_(n, d)) (Y pred : 'cV[R]_n) ys k q : exists v, ck_loglik noise X Y pred ys k q = Ok v.
Proof.
rewrite /ck_loglik kernel_callE.
have [L [_ ->]] := ck_fit_ok (Y - ch_rho q *: pred)
     (kernel_noise_pos X (if noise is Some s then Rdiv s ys else ch_sigma q) (set_params_pos k (ch_theta q))).
by rewrite /=; eexists.
Qed.
Lemma ck_failed nh nl (o : ck_attrs d) (Xh : 'M[R]_(nh, d)) (Yh : 'cV[R]_nh) (Xl : 'M[R]_(nl, d)) (Yl : 'cV[R]_nl) sl sh e :
  (0 < nl)%N -> ~ constant Yh -> (train o Xh Yh Xl Yl sl sh).2 = Raise e ->
  e = UnboundLocalError /\
  let o0 := stored lo hi o Xh Yh Xl Yl in
  let l := lgp_train_attrs (e_lf o0) (norm Xl) (ck_scale Yh Yl) sl in
  (l.2 = Raise e /\ (train o Xh Yh Xl Yl sl sh).1 = set_lf o0 (put_data (e_lf o0) (Dataset (norm Xl) (norm Xl) (ck_scale Yh Yl) (ck_scale Yh Yl))) \/
   l.2 = Ok tt /\ exists pred, lgp_predict_attrs l.1 (norm Xh) = Ok pred /\
     (train o Xh Yh Xl Yl sl sh).1 = set_pred (set_lf o0 l.1) (Columns pred)).
Proof.
move=> Hn /stdev_constant HY Er; cbv zeta. set o0 := stored _ _ _ _ _ _ _.
have := @train_stages nh nl o Xh Yh Xl Yl sl sh HY. cbv zeta. rewrite -/o0. set l := lgp_train_attrs _ _ _ _.
case El: (lgp_train _ _ _ _) => [[lf t]|e'].
  case=> E1. case Eh: (hyper_search _ _ _) => [h|e']; first by case=> L [LC [E _]]; rewrite E in Er.
  move=> E; rewrite E /= in Er; case: Er => <-; split.
    by apply: search_fails Eh => q; exact: ck_loglik_ok.
  right; split=> //; exists (lgp_predict lf t (norm Xh)); rewrite E; split=> //.
  by have [_ [_ [P _]]] := done_lf Xh El (norm Xh).
case=> E1 E; rewrite E /= in Er; case: Er => <-. have [-> E2] := lgp_failed Hn E1. split=> //.
by left; rewrite E /l E2.
Qed.

(** ** the noise through calls that may fail *)
Definition data_std (o : ck_attrs d) : R := if e_data o is Some D then cd_std D else 1.
Lemma call_noise (o : ck_attrs d) op s : op_ok op -> e_noise o = Some s ->
  let o' := (ck_call lo hi o op).1 in
  e_restart o' = e_restart o /\ a_restart (e_lf o') = a_restart (e_lf o) /\
  match op with
  | OpTrain _ _ _ Yh _ _ _ _ => e_noise o' = Some (Rdiv s (stdev Yh)) /\ data_std o' = stdev Yh
  | OpPredict _ _ => o' = o
  | OpPredictStd _ _ => e_noise o' = Some (if (ck_call lo hi o op).2 then Rmult s (data_std o) else s) /\ data_std o' = data_std o
  end.
Proof.
case: op => [nh nl Xh Yh Xl Yl sl sh|m X|m X] /=; last 1 first.
- move=> _ Hs. rewrite /ck_predict_std_attrs.
  case: (ck_predict_attrs _ _ _ _) => [mu|e] //=. case: (e_rho o) => [rho|] //=. case: (a_sigma2 _) => [s2|] //=.
  rewrite /data_std; case ED: (e_data o) => [D|] /=; last by rewrite ED Hs.
  case: (cp_sigma2 _) => [sd|] /=; last by rewrite ED Hs. case: (cp_LC _) => [LC|] /=; last by rewrite ED Hs.
  case: (with_order _ _) => [LC'|e] /=; last by rewrite ED Hs. case: (chol_solve _ _) => [b|e] /=; last by rewrite ED Hs.
  by rewrite Hs /= ED.
- move=> [_ /stdev_constant HY] Hs.
  have := @train_stages nh nl o Xh Yh Xl Yl sl sh HY. cbv zeta.
  have N : ck_noise0 (plain_ck o) Yh = Some (Rdiv s (stdev Yh)) by rewrite /ck_noise0 /= Hs.
  have [R1 _] := stored_rest o Xh Yh Xl Yl. have Rl := stored_lf o Xh Yh Xl Yl.
  have R2 : a_restart (e_lf (stored lo hi o Xh Yh Xl Yl)) = a_restart (e_lf o) by move/(congr1 (@lg_restart d)): Rl.
  have R3 : a_restart (lgp_train_attrs (e_lf (stored lo hi o Xh Yh Xl Yl)) (norm Xl) (ck_scale Yh Yl) sl).1 = a_restart (e_lf o).
    by rewrite -R2; exact: (lgp_train_keeps _ _ _ _).1.
  case: (lgp_train _ _ _ _) => [[lf t]|e]; last first.
    by case=> _ -> /=; rewrite R1 R3 stored_noise N /data_std /= stored_data.
  case=> _; case: (hyper_search _ _ _) => [h|e]; last by move=> -> /=; rewrite R1 R3 stored_noise N /data_std /= stored_data.
  by case=> L [LC [-> _]] /=; rewrite R3 /ck_noise1 N /data_std /= stored_data.
- by [].
Qed.
Lemma calls_noise (o : ck_attrs d) ops s : List.Forall (@op_ok d) ops -> e_noise o = Some s ->
  let o' := ck_calls lo hi o ops in
  e_restart o' = e_restart o /\ a_restart (e_lf o') = a_restart (e_lf o) /\
  e_noise o' = Some (noise_calls s (data_std o) ops (ck_outcomes lo hi o ops)).
Proof.
elim: ops o s => [|op ops IH] o s //= /List.Forall_cons_iff [Hop Hops] Hs.
have := call_noise Hop Hs; cbv zeta.
case: op Hop => [nh nl Xh Yh Xl Yl sl sh|m X|m X] Hop [R1 [R2]].
- by case=> N D; have [Q1 [Q2 ->]] := IH _ _ Hops N; rewrite Q1 Q2 R1 R2 D.
- by move=> _; exact: IH.
- by case=> N D; have [Q1 [Q2 ->]] := IH _ _ Hops N; rewrite Q1 Q2 R1 R2 D.
Qed.
Lemma plain_given (o : ck_attrs d) s r nh nl (Xh : 'M[R]_(nh, d)) (Yh : 'cV[R]_nh) (Xl : 'M[R]_(nl, d)) (Yl : 'cV[R]_nl) sl sh :
  e_noise o = Some s -> e_restart o = r -> a_restart (e_lf o) = r ->
  ck_train lo hi (plain_ck o) Xh Yh Xl Yl sl sh = ck_train lo hi (ck_new d (Some s) r) Xh Yh Xl Yl sl sh.
Proof. by move=> A B C; rewrite /ck_train /ck_update /lgp_train /lgp_update /= A B C. Qed.
Lemma ck_forgets noise r ops nh nl (Xh : 'M[R]_(nh, d)) (Yh : 'cV[R]_nh) (Xl : 'M[R]_(nl, d)) (Yl : 'cV[R]_nl) sl sh :
  List.Forall (@op_ok d) ops ->
  let o := ck_calls lo hi (ck_attrs_new d (Some noise) r) ops in
  let noise' := noise_calls noise 1 ops (ck_outcomes lo hi (ck_attrs_new d (Some noise) r) ops) in
  match ck_train lo hi (ck_new d (Some noise') r) Xh Yh Xl Yl sl sh with
  | Ok g => (train o Xh Yh Xl Yl sl sh).2 = Ok tt /\ ck_same_answers lo hi (train o Xh Yh Xl Yl sl sh).1 g
  | Raise e => (train o Xh Yh Xl Yl sl sh).2 = Raise e
  end.
Proof.
move=> H; cbv zeta. set o := ck_calls _ _ _ _.
have [A [B C]] := @calls_noise (ck_attrs_new d (Some noise) r) ops noise H erefl. rewrite -/o in A B C.
rewrite -(plain_given Xh Yh Xl Yl sl sh C A B). exact: ck_train_answers.
Qed.
Lemma noise_calls0 ops oks std : @noise_calls d 0 std ops oks = R0.
Proof.
elim: ops oks std => [|op ops IH] [|ok oks] std //; first by case: op.
case: op => [nh nl Xh Yh Xl Yl sl sh|m X|m X] /=; rewrite ?IH // ?/Rdiv ?Rmult_0_l ?IH //.
by case: ok; rewrite IH.
Qed.
Lemma noise_repeated k nh nl (Xh : 'M[R]_(nh, d)) (Yh : 'cV[R]_nh) (Xl : 'M[R]_(nl, d)) (Yl : 'cV[R]_nl) sl sh s std oks : stdev Yh <> R0 -> size oks = k ->
  noise_calls s std (nseq k (OpTrain Xh Yh Xl Yl sl sh)) oks = Rdiv s (stdev Yh ^ k).
Proof.
move=> HY; elim: k s std oks => [|k IH] s std [|ok oks] //=; first by move=> _; rewrite /Rdiv Rinv_1 Rmult_1_r.
case=> /IH ->. field. split=> //. exact: pow_nonzero.
Qed.
Lemma outcomes_size (o : ck_attrs d) ops : size (ck_outcomes lo hi o ops) = size ops.
Proof. by elim: ops o => [|op ops IH] o //=; rewrite IH. Qed.

Lemma repeated_noise (noise : R) r k nh nl (Xh : 'M[R]_(nh, d)) (Yh : 'cV[R]_nh) (Xl : 'M[R]_(nl, d)) (Yl : 'cV[R]_nl) sl sh :
  (0 < nl)%N -> ~ constant Yh ->
  e_noise (ck_calls lo hi (ck_attrs_new d (Some noise) r) (nseq k (OpTrain Xh Yh Xl Yl sl sh))) = Some (Rdiv noise (stdev Yh ^ k)).
Proof.
move=> Hn HY. have H : List.Forall (@op_ok d) (nseq k (OpTrain Xh Yh Xl Yl sl sh)) by elim: k => [|k IH]; constructor.
have [_ [_ ->]] := @calls_noise (ck_attrs_new d (Some noise) r) _ noise H erefl. congr Some.
apply: noise_repeated; first exact: stdev_constant. by rewrite outcomes_size size_nseq.
Qed.
Lemma ck_forgets0 r ops nh nl (Xh : 'M[R]_(nh, d)) (Yh : 'cV[R]_nh) (Xl : 'M[R]_(nl, d)) (Yl : 'cV[R]_nl) sl sh :
  List.Forall (@op_ok d) ops ->
  let o := ck_calls lo hi (ck_attrs_new d (Some R0) r) ops in
  match ck_train lo hi (ck_new d (Some R0) r) Xh Yh Xl Yl sl sh with
  | Ok g => (train o Xh Yh Xl Yl sl sh).2 = Ok tt /\ ck_same_answers lo hi (train o Xh Yh Xl Yl sl sh).1 g
  | Raise e => (train o Xh Yh Xl Yl sl sh).2 = Raise e
  end.
Proof. by move=> H; have := @ck_forgets R0 r ops nh nl Xh Yh Xl Yl sl sh H; cbv zeta; rewrite noise_calls0. Qed.

(** ** predictions after failures *)
Lemma failed_keeps nh nl (o : ck_attrs d) (Xh : 'M[R]_(nh, d)) (Yh : 'cV[R]_nh) (Xl : 'M[R]_(nl, d)) (Yl : 'cV[R]_nl) sl sh e :
  (0 < nl)%N -> ~ constant Yh -> (train o Xh Yh Xl Yl sl sh).2 = Raise e ->
  let o' := (train o Xh Yh Xl Yl sl sh).1 in
  e_rho o' = e_rho o /\ e_params o' = e_params o /\ e_kernel o' = e_kernel o /\
  e_data o' = Some (CKData Xh Yh Xl Yl (norm Xh) (norm Xl) (normalize_output Yh) (ck_scale Yh Yl) (mean Yh) (stdev Yh)) /\
  e_noise o' = ck_noise0 (plain_ck o) Yh /\
  ((lgp_train_attrs (e_lf (stored lo hi o Xh Yh Xl Yl)) (norm Xl) (ck_scale Yh Yl) sl).2 = Raise e ->
   a_sigma2 (e_lf o') = a_sigma2 (e_lf o) /\ a_kernel (e_lf o') = a_kernel (e_lf o)) /\
  (a_sigma2 (e_lf o) <> None -> a_sigma2 (e_lf o') <> None).
Proof.
move=> Hn HY Er; cbv zeta. have [_] := ck_failed Hn HY Er. cbv zeta.
have [E1 [E2 [E3 [E4 [E5 E6]]]]] := stored_rest o Xh Yh Xl Yl.
have [S1 S2] : a_sigma2 (e_lf (stored lo hi o Xh Yh Xl Yl)) = a_sigma2 (e_lf o) /\ a_kernel (e_lf (stored lo hi o Xh Yh Xl Yl)) = a_kernel (e_lf o).
  by rewrite /stored /=; case: (e_noise o).
case=> [[El ->]|[El [pred [_ ->]]]] /=; rewrite E2 E5 E6 stored_data stored_noise.
  by rewrite El S1 S2.
rewrite El; do 5 (split=> //); split=> // _.
have [[lf t]] := lgp_train_cases El; rewrite stored_lf => El'.
by have [_ [-> _]] := done_lf Xh El' (norm Xh).
Qed.
Lemma never_trained_inv (o : ck_attrs d) ops : List.Forall (@op_ok d) ops -> e_rho o = None ->
  all (fun p => ~~ is_train p.1 || ~~ p.2) (zip ops (ck_outcomes lo hi o ops)) -> e_rho (ck_calls lo hi o ops) = None.
Proof.
elim: ops o => [|op ops IH] o //= /List.Forall_cons_iff [Hop Hops] Ho /andP [H1 H2]. apply: IH => //.
case: op Hop H1 {H2} => [nh nl Xh Yh Xl Yl sl sh|m X|m X] //=.
  move=> [Hn HY]; case Er: (train _ _ _ _ _ _ _).2 => [u|e] //= _. by have [-> _] := failed_keeps Hn HY Er.
by move=> _ _; rewrite /ck_predict_std_attrs /ck_predict_attrs Ho.
Qed.
Lemma never_trained noise r ops m (X : 'M[R]_(m, d)) : List.Forall (@op_ok d) ops ->
  all (fun p => ~~ is_train p.1 || ~~ p.2) (zip ops (ck_outcomes lo hi (ck_attrs_new d noise r) ops)) ->
  let o := ck_calls lo hi (ck_attrs_new d noise r) ops in
  ck_predict_attrs lo hi o X = Raise AttributeError /\ ck_predict_std_attrs lo hi o X = (o, Raise AttributeError).
Proof.
move=> H A; have Ho := never_trained_inv H (erefl : e_rho (ck_attrs_new d noise r) = None) A.
by rewrite /= /ck_predict_std_attrs /ck_predict_attrs Ho.
Qed.
Lemma ck_trained_inv nh nl (o : ck_attrs d) (Xh : 'M[R]_(nh, d)) (Yh : 'cV[R]_nh) (Xl : 'M[R]_(nl, d)) (Yl : 'cV[R]_nl) sl sh :
  (train o Xh Yh Xl Yl sl sh).2 = Ok tt -> stdev Yh <> R0 /\ exists lf t h L LC (r := ck_state lo hi (plain_ck o) Xh Yh Xl Yl lf t h L LC),
   lgp_train (ck_lf0 (plain_ck o) Yh) (norm Xl) (ck_scale Yh Yl) sl = Ok (lf, t) /\
   posdef (ct_C r + jitter%:M) /\ chol (ct_C r + jitter%:M) = Ok LC /\
   train o Xh Yh Xl Yl sl sh =
     (ck_done o Xh Yh Xl Yl (lgp_train_attrs (e_lf (stored lo hi o Xh Yh Xl Yl)) (norm Xl) (ck_scale Yh Yl) sl).1 lf t h L LC, Ok tt).
Proof.
move=> Ho. case: (Req_EM_T (stdev Yh) 0) => [Z|HY].
  by move: Ho; rewrite /ck_train_attrs; case: (Req_EM_T _ _).
split=> //. have := @train_stages nh nl o Xh Yh Xl Yl sl sh HY. cbv zeta.
case El: (lgp_train _ _ _ _) => [[lf t]|e]; last by case=> _ E; rewrite E in Ho.
case=> _. case Eh: (hyper_search _ _ _) => [h|e]; last by move=> E; rewrite E in Ho.
case=> L [LC [E Eg]]. have [_ [lf' [t' [h' [L' [LC' [_ [_ [_ [_ [E1 E2]]]]]]]]]]] := ck_train_inv Eg.
by exists lf, t, h, L, LC.
Qed.
Lemma ck_sizes nh nl nh' nl' (o : ck_attrs d) (Xh : 'M[R]_(nh, d)) (Yh : 'cV[R]_nh) (Xl : 'M[R]_(nl, d)) (Yl : 'cV[R]_nl) sl sh
   (Xh' : 'M[R]_(nh', d)) (Yh' : 'cV[R]_nh') (Xl' : 'M[R]_(nl', d)) (Yl' : 'cV[R]_nl') sl' sh' e m (Xq : 'M[R]_(m, d)) :
  let o1 := train o Xh Yh Xl Yl sl sh in
  let o2 := train o1.1 Xh' Yh' Xl' Yl' sl' sh' in
  o1.2 = Ok tt -> (0 < nl')%N -> ~ constant Yh' -> o2.2 = Raise e ->
  if (nl' + nh' == nl + nh)%N then
    (exists mu, ck_predict_attrs lo hi o2.1 Xq = Ok mu) /\ (exists v, (ck_predict_std_attrs lo hi o2.1 Xq).2 = Ok v)
  else ck_predict_attrs lo hi o2.1 Xq = Raise ValueError /\ ck_predict_std_attrs lo hi o2.1 Xq = (o2.1, Raise ValueError).
Proof.
move=> o1 o2 H1 Hn HY Er. have [_ [lf [t [h [L [LC [El [PC [EC E]]]]]]]]] := ck_trained_inv H1.
have [K1 [K2 [K3 [K4 [K5 [_ K7]]]]]] := failed_keeps Hn HY Er. rewrite -/o2 in K1 K2 K3 K4 K5 K7.
have [D1 [D2 _]] := done_lf Xh El (norm Xh).
have [s2 Es2] : exists s2, a_sigma2 (e_lf o2.1) = Some s2.
  by case Es: (a_sigma2 (e_lf o2.1)) => [s2|]; [exists s2|case: K7; rewrite // /o1 E /= D2].
have N : exists s, e_noise o2.1 = Some s by rewrite K5 /ck_noise0 /= /o1 E /=; eexists.
case: N => s Hs.
have R1 : e_rho o2.1 = Some (ch_rho h) by rewrite K1 /o1 E.
have P1 : cp_sigma2 (e_params o2.1) = Some (ct_sigma2 (ck_state lo hi (plain_ck o) Xh Yh Xl Yl lf t h L LC)) by rewrite K2 /o1 E.
have P2 : cp_mu (e_params o2.1) = Some (ct_mu (ck_state lo hi (plain_ck o) Xh Yh Xl Yl lf t h L LC)) by rewrite K2 /o1 E.
have P3 : cp_LC (e_params o2.1) = Some (Square LC) by rewrite K2 /o1 E.
have P4 : cp_y (e_params o2.1) = Some (Columns (ct_y (ck_state lo hi (plain_ck o) Xh Yh Xl Yl lf t h L LC))) by rewrite K2 /o1 E.
case: eqP => [Q|Q].
  have [mu Em] : exists mu, ck_predict_attrs lo hi o2.1 Xq = Ok mu.
    rewrite /ck_predict_attrs R1 /= Es2 /= K4 /= P1 /= P2 /= P3 /= P4 /= with_rows_id /= (chol_solve_ok _ PC.1 EC) /=.
    by rewrite /with_rows; case: eqP => [Q'|N]; [eexists|case: N; rewrite Q].
  split; first by exists mu.
  rewrite /ck_predict_std_attrs Em /= R1 /= Es2 /= K4 /= P1 /= P3 /=. rewrite {1}/with_order; case: eqP => [Q'|N]; last (by case: N; rewrite Q); rewrite /=.
  have [b ->] : exists b, chol_solve (castmx (Q', Q') LC) (ck_cross_attrs o2.1 (CKData Xh' Yh' Xl' Yl' (norm Xh') (norm Xl') (normalize_output Yh') (ck_scale Yh' Yl') (mean Yh') (stdev Yh')) (ch_rho h) s2
     (ct_sigma2 (ck_state lo hi (plain_ck o) Xh Yh Xl Yl lf t h L LC)) (norm Xq)) = Ok b.
    move: (ck_cross_attrs _ _ _ _ _ _) => c /=. move: (PC) (EC); move: (ct_C _ + _) => C PC' EC'. rewrite /= in c *.
    move: c Q'; rewrite Q => c Q'. rewrite castmx_id (chol_solve_ok _ PC'.1 EC'). by eexists.
  by rewrite Hs /=; eexists.
have P : ck_predict_attrs lo hi o2.1 Xq = Raise ValueError.
  rewrite /ck_predict_attrs R1 /= Es2 /= K4 /= P1 /= P2 /= P3 /= P4 /= with_rows_id /= (chol_solve_ok _ PC.1 EC) /=.
  by rewrite with_rows_ne // => E'; apply: Q.
by split=> //; rewrite /ck_predict_std_attrs P.
Qed.
Lemma ck_same_sites nh nl (o : ck_attrs d) (Xh : 'M[R]_(nh, d)) (Yh Yh' : 'cV[R]_nh) (Xl : 'M[R]_(nl, d)) (Yl Yl' : 'cV[R]_nl) sl sh sl' sh' e m (Xq : 'M[R]_(m, d)) mu :
  let o1 := train o Xh Yh Xl Yl sl sh in
  let o2 := train o1.1 Xh Yh' Xl Yl' sl' sh' in
  o1.2 = Ok tt -> (0 < nl)%N -> ~ constant Yh' ->
  (lgp_train_attrs (e_lf (stored lo hi o1.1 Xh Yh' Xl Yl')) (norm Xl) (ck_scale Yh' Yl') sl').2 = Raise e ->
  ck_predict_attrs lo hi o1.1 Xq = Ok mu ->
  ck_predict_attrs lo hi o2.1 Xq = Ok (\col_j Rplus (mean Yh') (Rmult (Rdiv (stdev Yh') (stdev Yh)) (Rminus (mu j 0) (mean Yh)))).
Proof.
move=> o1 o2 H1 Hn HY Er. have [HY0 [lf [t [h [L [LC [El [PC [EC E]]]]]]]]] := ck_trained_inv H1.
have Er2 : o2.2 = Raise e.
  have := @train_stages nh nl o1.1 Xh Yh' Xl Yl' sl' sh' (stdev_constant HY); cbv zeta.
  case: (lgp_train _ _ _ _) => [[lf' t']|e']; first by case=> Q; rewrite Q in Er.
  by case=> Q Q'; rewrite /o2 Q' /=; rewrite -Er Q.
have [K1 [K2 [K3 [K4 [K5 [K6 _]]]]]] := failed_keeps Hn HY Er2. have [K7 K8] := K6 Er. rewrite -/o2 in K1 K2 K3 K4 K5 K7 K8.
have [D1 [D2 _]] := done_lf Xh El (norm Xh).
rewrite /ck_predict_attrs K1 K2 K4 K7 /ck_cross_attrs K3 K8 /o1 E /= D2 /= stored_data /= !with_rows_id /= (chol_solve_ok _ PC.1 EC) /= with_rows_id /= => -[<-].
congr Ok; apply/matrixP => i j; rewrite [LHS]mxE [RHS]mxE [X in Rminus X _]mxE.
move: (fun_of_matrix (const_mx _ + _) i 0) => u. field. exact: HY0.
Qed.
(** a noise learned by the low-fidelity stage of a call that fails later *)
Lemma ck_learned nh nl (o : ck_attrs d) (Xh : 'M[R]_(nh, d)) (Yh : 'cV[R]_nh) (Xl : 'M[R]_(nl, d)) (Yl : 'cV[R]_nl) sl sh e
   nh' nl' (Xh' : 'M[R]_(nh', d)) (Yh' : 'cV[R]_nh') (Xl' : 'M[R]_(nl', d)) (Yl' : 'cV[R]_nl') sl' sh' :
  let o1 := train o Xh Yh Xl Yl sl sh in
  let o2 := train o1.1 Xh' Yh' Xl' Yl' sl' sh' in
  (0 < nl)%N -> ~ constant Yh -> ~ constant Yh' -> e_noise o = None -> a_noise (e_lf o) = None -> o1.2 = Raise e ->
  (lgp_train_attrs (e_lf o) (norm Xl) (ck_scale Yh Yl) sl).2 = Ok tt ->
  exists h, result_of sl (a_restart (e_lf o)) h /\ e_noise o1.1 = None /\
    a_noise (e_lf o1.1) = Some (h_sigma h) /\ a_noise (e_lf o2.1) = Some (h_sigma h).
Proof.
move=> o1 o2 Hn HY HY' N0 N1 Er El.
have Es : e_lf (stored lo hi o Xh Yh Xl Yl) = e_lf o by rewrite /stored /= N0.
have [_] := ck_failed Hn HY Er. cbv zeta. rewrite Es El. case=> [[//]|[_ [pred [_ E1]]]]. rewrite -/o1 in E1.
have [r Er1] := lgp_train_cases El. have [h [alpha [m [Hres [_ [E2 Er2]]]]]] := lgp_train_attrs_ok Er1.
have Ef : a_noise (e_lf o1.1) = Some (h_sigma h) by rewrite E1 /= E2 /= /lg_noise1 N1.
exists h; split=> //. have N2 : e_noise o1.1 = None by rewrite E1 /= stored_noise /ck_noise0 /= N0.
split=> //; split=> //.
have Es2 : e_lf (stored lo hi o1.1 Xh' Yh' Xl' Yl') = e_lf o1.1 by rewrite /stored /= N2.
have Ln : a_noise (lgp_train_attrs (e_lf o1.1) (norm Xl') (ck_scale Yh' Yl') sl').1 = Some (h_sigma h).
  exact: (lgp_train_keeps _ _ _ _).2.
have := @train_stages nh' nl' o1.1 Xh' Yh' Xl' Yl' sl' sh' (stdev_constant HY'); cbv zeta. rewrite Es2 -/o2.
case: (lgp_train _ _ _ _) => [[lf' t']|e']; last by case=> _ ->.
by case=> _; case: (hyper_search _ _ _) => [h'|e']; [case=> L' [LC' [-> _]]|move=> ->].
Qed.
End CK.
