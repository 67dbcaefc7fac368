(** The properties of hierarchical and scaled Kriging. *)
From Coq Require Import Reals Lra.
From Verif Require Import Fl FlFacts.
From mathcomp Require Import all_ssreflect all_algebra.
From Verif Require Import RStruct LinAlg LinSpec LinAlgFacts Kernel KernelFacts Krig KrigFacts GP GPSpec GPFacts GPMain MF CoKrig MFSpec.
Set Implicit Arguments.
Unset Strict Implicit.
Unset Printing Implicit Defensive.
Import GRing.Theory.
Local Open Scope ring_scope.

(** ** fits with a one-column basis *)
Lemma full_rank_col n (F : 'M[R]_(n, 1)) : full_rank F <-> exists i, F i 0 <> 0.
Proof.
split=> [H|[i Hi] x E].
  apply: Classical_Prop.NNPP => N. have Z : F = 0.
    apply/matrixP => i j; rewrite ord1 [RHS]mxE; apply: Classical_Prop.NNPP => E; apply: N; by exists i.
  have := H (const_mx 1) ltac:(by rewrite Z mul0mx) => /matrixP/(_ 0 0); rewrite !mxE => E. exact: R1_neq_R0.
apply/matrixP => j k; rewrite !ord1 [RHS]mxE. have := E => /matrixP/(_ i 0); rewrite !mxE big_ord_recl big_ord0 addr0.
by move/Rmult_integral => [E'|//]; case: Hi.
Qed.
(** responses proportional to the basis are fitted exactly *)
Lemma fit_proportional n (K : 'M[R]_n) (F : 'M[R]_(n, 1)) (c : R) k : fit_spec K F (c *: F) k ->
  kr_beta k = c%:M /\ kr_gamma k = 0 /\ kr_sigma2 k = 0.
Proof.
move=> H. have U := pos_unit (fs_N H).
have B : kr_beta k = c%:M.
  rewrite (fs_beta H) -scalemxAr -scalemxAr -scalemxAr -/(normal_mx K F) mulVmx //. exact: scalemx1.
have Z : c *: F - F *m kr_beta k = 0 by rewrite B mul_mx_scalar subrr.
split=> //; split; first by rewrite (fs_gamma H) Z mulmx0.
by rewrite (fs_sigma2 H) /gls Z qf0 /Rdiv Rmult_0_l.
Qed.

Section HK.
Variables (d : nat) (lo hi : 'rV[R]_d).
Local Notation Ordinary := (@Ordinary d).

(** the scaled low-fidelity predictions *)
Definition scale_col n m (Y : 'cV[R]_n) (F0 : 'cV[R]_m) : 'M[R]_(m, 1) := \matrix_(i, j) Rdiv (Rminus (F0 i j) (mean Y)) (stdev Y).
Definition hk_new_noise (o : hk d) (ys : R) (h : hyper d) : R := if hk_noise o is Some s then s else Rmult (h_sigma h) ys.

Lemma hk_train_inv nh nl (o o' : hk d) (Xh : 'M[R]_(nh, d)) (Yh : 'cV[R]_nh) (Xl : 'M[R]_(nl, d)) (Yl : 'cV[R]_nl) sl sh :
  hk_train lo hi o Xh Yh Xl Yl sl sh = Ok o' ->
  exists lf F0 h m, gp_train Ordinary lo hi (hk_lf o) Xl Yl sl = Ok lf /\ stdev Yh <> R0 /\
    gp_predict Ordinary lo hi lf Xh = Ok F0 /\
    let Xs := normalize_input lo hi Xh in
    let K := noise_matrix Xs (set_params (hk_kernel o) (h_theta h)) (Rdiv (hk_new_noise o (stdev Yh) h) (stdev Yh)) in
    let F := scale_col Yh F0 in
    hyper_search (hk_restart o) (hk_loglik (hk_noise o) Xs (normalize_output Yh) F (stdev Yh) (hk_kernel o)) sh = Ok h /\
    fit_spec K F (normalize_output Yh) m /\
    o' = MkHK (Some (hk_new_noise o (stdev Yh) h)) (hk_restart o) (set_params (hk_kernel o) (h_theta h)) lf
      (Some (HKTrained Xs (normalize_output Yh) F (mean Yh) (stdev Yh) K m
        (Rminus (Rmult (Rmult (Ropp (Rdiv 1 2)) (INR nh)) (kr_sigma2 m)) (sum_log_diag (kr_L m))))).
Proof.
rewrite /hk_train; case El: (gp_train _ _ _ _ _ _ _) => [lf|//] /=.
case: (Req_EM_T _ _) => // HY; case EF: (gp_predict _ _ _ _ _) => [F0|//] /=.
rewrite -/(scale_col Yh F0). case Eh: (hyper_search _ _ _) => [h|//] /=.
rewrite /hk_update -/(hk_new_noise o (stdev Yh) h).
rewrite -/(noise_matrix (normalize_input lo hi Xh) (set_params (hk_kernel o) (h_theta h)) (Rdiv (hk_new_noise o (stdev Yh) h) (stdev Yh))).
case Em: (krig_fit _ _ _) => [m|//] [<-]; exists lf, F0, h, m; do 5 (split=> //).
apply: krig_fit_spec Em. apply: (kernel_noise_pos _ _ _).1. exact: set_params_pos.
Qed.

Lemma hk_loglik_ok n noise (X : 'M[R]_(n, d)) (Y : 'cV[R]_n) F ys k h : full_rank F ->
  exists v, hk_loglik noise X Y F ys k h = Ok v.
Proof.
move=> HF; rewrite /hk_loglik kernel_callE.
have [m ->] := krig_fit_ok Y (kernel_noise_pos X (if noise is Some s then Rdiv s ys else h_sigma h) (set_params_pos k (h_theta h))) HF.
by rewrite /=; eexists.
Qed.

(** ** C83: when training succeeds *)
Lemma scale_col_nz n m (Y : 'cV[R]_n) (F0 : 'cV[R]_m) : stdev Y <> R0 ->
  (full_rank (scale_col Y F0) <-> exists i, F0 i 0 <> mean Y).
Proof.
move=> HY; have Q (x : R) : Rdiv (Rminus x (mean Y)) (stdev Y) = 0 <-> x = mean Y.
  split=> [|->]; last by rewrite /Rdiv Rminus_diag_eq // Rmult_0_l.
  move/Rmult_integral => [E|/Rinv_neq_0_compat]; last by []. exact: Rminus_diag_uniq.
split=> [/full_rank_col [i Hi]|[i Hi]]; last apply/full_rank_col; exists i; move: Hi; rewrite mxE => H E; apply: H; exact/Q.
Qed.
Lemma hk_train_iff nh nl (o : hk d) (Xh : 'M[R]_(nh, d)) (Yh : 'cV[R]_nh) (Xl : 'M[R]_(nl, d)) (Yl : 'cV[R]_nl) sl sh :
  ~ constant Yl -> ~ constant Yh -> usable (gp_restart (hk_lf o)) sl -> usable (hk_restart o) sh ->
  exists lf F0, gp_train Ordinary lo hi (hk_lf o) Xl Yl sl = Ok lf /\ gp_predict Ordinary lo hi lf Xh = Ok F0 /\
    ((exists o', hk_train lo hi o Xh Yh Xl Yl sl sh = Ok o') <-> exists i, F0 i 0 <> mean Yh).
Proof.
move=> Hl Hh Ul Uh. have [lf El] := gp_train_ordinary lo hi Xl Hl Ul.
have [F0 [sd [EF _]]] := gp_predict_ok Xh El. exists lf, F0; split=> //; split=> //.
have HY := nonconstant Hh.
split=> [[o' /hk_train_inv [lf' [F' [h [m [El' [_ [EF' [_ [Hf _]]]]]]]]]]|H].
  move: El' EF'; rewrite El => -[<-]; rewrite EF => -[EF']; rewrite -EF' in Hf.
  by apply/(scale_col_nz _ HY); apply: normal_full (fs_N Hf).
have HF := (scale_col_nz F0 HY).2 H.
rewrite /hk_train El /=; case: (Req_EM_T _ _) => [E|N]; first by case: HY.
rewrite EF /= -/(scale_col Yh F0).
have [h ->] := search_ok (f := hk_loglik (hk_noise o) (normalize_input lo hi Xh) (normalize_output Yh) (scale_col Yh F0) (stdev Yh) (hk_kernel o))
   (fun q => hk_loglik_ok _ _ _ _ _ _ HF) Uh.
rewrite /= /hk_update.
have [m ->] := krig_fit_ok (normalize_output Yh) (kernel_noise_pos (normalize_input lo hi Xh)
  (Rdiv (if hk_noise o is Some s0 then s0 else Rmult (h_sigma h) (stdev Yh)) (stdev Yh)) (set_params_pos (hk_kernel o) (h_theta h))) HF.
by rewrite /=; eexists.
Qed.

Lemma hk_predict_ok nh nl m (o o' : hk d) (Xh : 'M[R]_(nh, d)) (Yh : 'cV[R]_nh) (Xl : 'M[R]_(nl, d)) (Yl : 'cV[R]_nl) sl sh (Xq : 'M[R]_(m, d)) :
  hk_train lo hi o Xh Yh Xl Yl sl sh = Ok o' ->
  exists mu sd, hk_predict lo hi o' Xq = Ok mu /\ hk_predict_std lo hi o' Xq = Ok (mu, sd).
Proof.
case/hk_train_inv => lf [F0 [h [k [El [HY [EF [_ [Hf ->]]]]]]]].
have [f [_ [Ef _]]] := gp_predict_ok Xq El.
rewrite /hk_predict_std /hk_predict /hk_basis /= Ef /= (fit_mse Hf) /=. by eexists; eexists.
Qed.

(** ** C51 *)
Lemma hk_interpolates nh nl (o o' : hk d) (Xh : 'M[R]_(nh, d)) (Yh : 'cV[R]_nh) (Xl : 'M[R]_(nl, d)) (Yl : 'cV[R]_nl) sl sh :
  hk_noise o = Some R0 -> hk_train lo hi o Xh Yh Xl Yl sl sh = Ok o' ->
  hk_predict lo hi o' Xh = Ok Yh /\ hk_predict_std lo hi o' Xh = Ok (Yh, 0).
Proof.
move=> Hn /hk_train_inv [lf [F0 [h [k [El [HY [EF [_ [Hf Eo]]]]]]]]].
set K := noise_matrix _ _ _ in Hf Eo.
have E : K = get_kernel_matrix (set_params (hk_kernel o) (h_theta h)) (normalize_input lo hi Xh) (normalize_input lo hi Xh).
  rewrite /K /noise_matrix /hk_new_noise Hn /Rdiv !Rmult_0_l. by rewrite -scalemx1 scale0r addr0.
have EP : hk_predict lo hi o' Xh = Ok Yh.
  rewrite Eo /hk_predict /hk_basis /= EF /= -/(scale_col Yh F0) -E (fit_interpolates Hf); congr Ok; apply/matrixP => i j; rewrite !mxE !ord1.
  toR. field. exact: HY.
split=> //. rewrite /hk_predict_std EP Eo /hk_basis /= EF /= -/(scale_col Yh F0) -E (fit_mse_train Hf) /=. congr Ok; congr pair.
apply/matrixP => j l; rewrite [LHS]mxE [RHS]mxE [(\col__ _) j 0]mxE.
have -> : K j j = Rplus 1 jitter.
  rewrite E kernel_self; last exact: set_params_pos. rewrite addE !mxE wdist_self eqxx RoppE oppr0 exp_0 /=.
  by rewrite mulr1n.
rewrite /hk_new_noise Hn. have S2 := fit_sigma2_ge0 Hf. have J := jitter_pos.
rewrite Rmax_right.
  by rewrite sqrt_0 !Rmult_0_l Rplus_0_l; exact: sqrt_0.
have -> : kr_sigma2 k * (1 - Rplus 1 jitter) = Ropp (Rmult (kr_sigma2 k) jitter) by toR; ring.
apply: Rge_le; apply: Ropp_0_le_ge_contravar. apply: Rmult_le_pos => //. exact: Rlt_le.
Qed.

(** ** C52 *)
Lemma hk_proportional nh nl m (o o' : hk d) (Xh : 'M[R]_(nh, d)) (Yh : 'cV[R]_nh) (Xl : 'M[R]_(nl, d)) (Yl : 'cV[R]_nl) sl sh c (Xq : 'M[R]_(m, d)) F0 :
  hk_train lo hi o Xh Yh Xl Yl sl sh = Ok o' ->
  gp_predict Ordinary lo hi (hk_lf o') Xh = Ok F0 ->
  (forall i, Rminus (Yh i 0) (mean Yh) = Rmult c (Rminus (F0 i 0) (mean Yh))) ->
  exists t f noise, hk_model o' = Some t /\ kr_beta (hk_krig t) = c%:M /\ kr_gamma (hk_krig t) = 0 /\ kr_sigma2 (hk_krig t) = 0 /\
    gp_predict Ordinary lo hi (hk_lf o') Xq = Ok f /\ hk_noise o' = Some noise /\
    hk_predict_std lo hi o' Xq = Ok (\col_j Rplus (mean Yh) (Rmult c (Rminus (f j 0) (mean Yh))), \col_j Rabs noise).
Proof.
case/hk_train_inv => lf [F1 [h [k [El [HY [EF [_ [Hf ->]]]]]]]] /=; rewrite EF => -[<-] Hc.
have EY : normalize_output Yh = c *: scale_col Yh F1.
  apply/matrixP => i j; rewrite scaleE !mxE !ord1 Hc. have Q (x : R) : Rdiv (Rmult c x) (stdev Yh) = Rmult c (Rdiv x (stdev Yh)) by rewrite /Rdiv; ring.
  exact: Q.
rewrite EY in Hf *. have [B [G S2]] := fit_proportional Hf.
have [f [_ [Ef _]]] := gp_predict_ok Xq El.
eexists; exists f; eexists; split; first by []. rewrite /= B G S2; do 5 (split=> //).
rewrite /hk_predict_std /hk_predict /hk_basis /= Ef /= (fit_mse Hf) /= S2; congr Ok; congr pair.
  apply/matrixP => j l; rewrite [LHS]mxE [RHS]mxE /krig_mean B G mulmx0 addr0 mul_mx_scalar scaleE [(\matrix_(_, _) _) j 0]mxE.
  have Q (x y : R) : y <> R0 -> Rplus (Rmult (c * Rdiv (Rminus x (mean Yh)) y) y) (mean Yh) = Rplus (mean Yh) (Rmult c (Rminus x (mean Yh))).
    by move=> Hy; toR; field.
  exact: Q.
apply/matrixP => j l; rewrite [LHS]mxE [RHS]mxE [(\col__ _) j 0]mxE mul0r.
rewrite Rmax_left; last exact: Rle_refl. rewrite sqrt_0 !Rmult_0_l Rplus_0_l. exact: sqrt_Rsqr_abs.
Qed.

(** ** C83: the predicted deviation is at least the noise *)
Lemma hk_std nh nl m (o o' : hk d) (Xh : 'M[R]_(nh, d)) (Yh : 'cV[R]_nh) (Xl : 'M[R]_(nl, d)) (Yl : 'cV[R]_nl) sl sh (Xq : 'M[R]_(m, d)) mu sd noise t f :
  hk_train lo hi o Xh Yh Xl Yl sl sh = Ok o' -> hk_model o' = Some t -> hk_noise o' = Some noise ->
  gp_predict Ordinary lo hi (hk_lf o') Xq = Ok f ->
  hk_predict_std lo hi o' Xq = Ok (mu, sd) ->
  let c := get_kernel_matrix (hk_kernel o') (hk_X t) (normalize_input lo hi Xq) in
  let fs j := row j (scale_col Yh f) in
  let epi j := Rmult (stdev Yh) (sqrt (Rmax (Rmult (kr_sigma2 (hk_krig t)) (blup_var (hk_K t) (hk_F t) (col j c) (fs j))) 0)) in
  forall j,
  mu j 0 = Rplus (Rmult (blup_mean (hk_K t) (hk_F t) (hk_Y t) (kr_beta (hk_krig t)) (col j c) (fs j)) (stdev Yh)) (mean Yh) /\
  sd j 0 = sqrt (Rplus (Rmult (epi j) (epi j)) (Rmult noise noise)) /\ (Rabs noise <= sd j 0%R)%Re.
Proof.
case/hk_train_inv => lf [F0 [h [k [El [HY [EF [_ [Hf ->]]]]]]]] [<-] [<-] /= Ef.
rewrite /hk_predict_std /hk_predict /hk_basis /= Ef /= -/(scale_col Yh f).
case Em: (krig_mse _ _ _) => [mse|//] /= [<- <-] j.
set v := Rmult (kr_sigma2 k) _.
have Ev : mse j 0 = v by rewrite (fit_mse_entry Hf j Em) /v /blup_var.
split.
  rewrite mxE; congr (Rplus (Rmult _ _) _); rewrite /krig_mean /blup_mean addE; congr (_ + _).
    by rewrite !mxE; apply: eq_bigr => l _; rewrite !mxE.
  by rewrite (fs_gamma Hf) [LHS]mxE [RHS]mxE; apply: eq_bigr => l _; congr (_ * _); rewrite !trE [RHS]mxE.
rewrite [(\col__ _) j 0]mxE Ev; split; first by rewrite (Rmult_comm (sqrt _)).
rewrite -sqrt_Rsqr_abs; apply: sqrt_le_1_alt. rewrite /Rsqr.
have := Rle_0_sqr (Rmult (sqrt (Rmax v 0)) (stdev Yh)); rewrite /Rsqr; lra.
Qed.
Lemma hk_noise_kept nh nl (o o' : hk d) (Xh : 'M[R]_(nh, d)) (Yh : 'cV[R]_nh) (Xl : 'M[R]_(nl, d)) (Yl : 'cV[R]_nl) sl sh :
  hk_train lo hi o Xh Yh Xl Yl sl sh = Ok o' ->
  (forall noise, hk_noise o = Some noise -> hk_noise o' = Some noise) /\
  (hk_noise o = None -> exists h, result_of sh (hk_restart o) h /\ hk_noise o' = Some (Rmult (h_sigma h) (stdev Yh))).
Proof.
case/hk_train_inv => lf [F0 [h [k [El [HY [EF [Es [Hf ->]]]]]]]] /=; rewrite /hk_new_noise; split=> [noise ->|->] //.
exists h; split=> //; exact: search_result Es.
Qed.
End HK.

Section SK.
Variables (d : nat) (lo hi : 'rV[R]_d).
Local Notation Ordinary := (@Ordinary d).

Lemma sk_train_inv nh nl (o o' : sk d) (Xh : 'M[R]_(nh, d)) (Yh : 'cV[R]_nh) (Xl : 'M[R]_(nl, d)) (Yl : 'cV[R]_nl) sl sr sh :
  sk_train lo hi o Xh Yh Xl Yl sl sr sh = Ok o' ->
  exists l rd, gp_train Ordinary lo hi (sk_lf o) Xl Yl sl = Ok (sk_lf o') /\ gp_predict Ordinary lo hi (sk_lf o') Xh = Ok l /\
    sk_rho_optimize lo hi o Xh Yh l sr = Ok rd /\ sk_rho o' = rd.1 /\
    gp_train Ordinary lo hi rd.2 Xh (sk_disc_data Yh l rd.1) sh = Ok (sk_disc o') /\
    sk_kernel o' = sk_kernel o /\ sk_noise o' = gp_noise (sk_disc o').
Proof.
rewrite /sk_train; case El: (gp_train _ _ _ _ _ _ _) => [lf|//] /=.
case EF: (gp_predict _ _ _ _ _) => [l|//] /=; case Er: (sk_rho_optimize _ _ _ _ _ _ _) => [rd|//] /=.
case Ed: (gp_train _ _ _ _ _ _ _) => [dm|//] /= [<-] /=. by exists l, rd.
Qed.
Lemma train_noise n (g g' : gp d 1) (X : 'M[R]_(n, d)) (Y : 'cV[R]_n) s :
  gp_train Ordinary lo hi g X Y s = Ok g' -> exists h, result_of s (gp_restart g) h /\
  gp_noise g' = Some (if gp_noise g is Some v then v else Rmult (h_sigma h) (stdev Y)).
Proof.
move/train_inv => [_ [h [m [Es [_ ->]]]]]; exists h; split; first exact: search_result Es. by [].
Qed.
Lemma bumps_noise n qs (g g' : gp d 1) (X : 'M[R]_(n, d)) (Y l : 'cV[R]_n) v : gp_noise g = Some v ->
  sk_bumps lo hi g X Y l qs = Ok g' -> gp_noise g' = Some v.
Proof.
elim: qs g => [|[rho s] qs IH] g Hg /=; first by case=> <-.
case Et: (gp_train _ _ _ _ _ _ _) => [g1|//] /=. apply: IH. by have [h [_ ->]] := train_noise Et; rewrite Hg.
Qed.

(** ** training succeeds *)
Lemma sk_train_ok nh nl (o : sk d) (Xh : 'M[R]_(nh, d)) (Yh : 'cV[R]_nh) (Xl : 'M[R]_(nl, d)) (Yl : 'cV[R]_nl) sl sr sh :
  ~ constant Yl -> usable (gp_restart (sk_lf o)) sl -> usable (gp_restart (sk_disc o)) sh ->
  exists lf l, gp_train Ordinary lo hi (sk_lf o) Xl Yl sl = Ok lf /\ gp_predict Ordinary lo hi lf Xh = Ok l /\
  forall rho, ((sr = RhoFixed d /\ rho = sk_rho o) \/ sr = RhoError d rho) -> ~ constant (sk_disc_data Yh l rho) ->
  exists o', sk_train lo hi o Xh Yh Xl Yl sl sr sh = Ok o' /\ sk_rho o' = rho.
Proof.
move=> Hl Ul Uh. have [lf El] := gp_train_ordinary lo hi Xl Hl Ul.
have [l [sd [EF _]]] := gp_predict_ok Xh El. exists lf, l; split=> //; split=> // rho Hr Hd.
have [dm Ed] := gp_train_ordinary lo hi Xh Hd Uh.
exists (MkSK lf dm rho (sk_kernel o) (gp_noise dm)); split=> //.
by rewrite /sk_train El /= EF /=; case: Hr => [[-> E]| ->] /=; rewrite -?E Ed.
Qed.

(** ** C53 *)
Lemma sk_predictions m (o : sk d) (X : 'M[R]_(m, d)) mu mu' sd :
  sk_predict lo hi o X = Ok mu -> sk_predict_std lo hi o X = Ok (mu', sd) ->
  exists l sl e se, gp_predict_std Ordinary lo hi (sk_lf o) X = Ok (l, sl) /\ gp_predict_std Ordinary lo hi (sk_disc o) X = Ok (e, se) /\
  forall j, mu' j 0 = Rplus (Rmult (sk_rho o) (l j 0)) (e j 0) /\
    mu j 0 = Rplus (l j 0) (Rmult (sk_rho o) (e j 0)) /\
    Rmult (sd j 0) (sd j 0) = Rplus (Rmult (Rmult (sk_rho o) (sk_rho o)) (Rmult (sl j 0) (sl j 0))) (Rmult (se j 0) (se j 0)) /\
    (0 <= sd j 0%R)%Re /\
    (mu j 0 = mu' j 0 <-> Rmult (Rminus (sk_rho o) 1) (Rminus (l j 0) (e j 0)) = 0).
Proof.
rewrite /sk_predict /sk_predict_std.
have PS g (q r : 'cV[R]_m) : gp_predict_std Ordinary lo hi g X = Ok (q, r) -> gp_predict Ordinary lo hi g X = Ok q.
  rewrite /gp_predict_std; case: (gp_model g) => // t. case: (gp_predict _ _ _ _ _) => //= q'.
  by case: (krig_mse _ _ _) => //= mse; case: (gp_noise g) => //= v [<- _].
case El: (gp_predict_std _ _ _ (sk_lf o) _) => [[l sl]|//] /=.
case Ee: (gp_predict_std _ _ _ (sk_disc o) _) => [[e se]|//] /=.
rewrite (PS _ _ _ El) (PS _ _ _ Ee) /= => -[<-] [<- <-]. exists l, sl, e, se; split=> //; split=> // j.
rewrite ![(\col__ _) j 0]mxE; split=> //; split; first by rewrite Rplus_comm (Rmult_comm (e j 0)).
set a := Rmult _ (Rmult (sl j 0) _).
have Pa : (0 <= a)%Re.
  rewrite /a; apply: Rmult_le_pos; exact: Rle_0_sqr.
have Pb := Rle_0_sqr (se j 0); rewrite /Rsqr in Pb.
split; first by apply: sqrt_sqrt; lra.
split; first exact: sqrt_pos.
have Q (r x y : R) : Rplus (Rmult y r) x = Rplus (Rmult r x) y <-> Rmult (Rminus r 1) (Rminus x y) = R0 by split=> E; lra.
exact: Q.
Qed.
Lemma sk_interpolates nh nl (o o' : sk d) (Xh : 'M[R]_(nh, d)) (Yh : 'cV[R]_nh) (Xl : 'M[R]_(nl, d)) (Yl : 'cV[R]_nl) sl sr sh :
  gp_noise (sk_disc o) = Some R0 -> sk_train lo hi o Xh Yh Xl Yl sl sr sh = Ok o' ->
  exists l sdl, gp_predict_std Ordinary lo hi (sk_lf o') Xh = Ok (l, sdl) /\
  sk_predict_std lo hi o' Xh = Ok (Yh, \col_j Rmult (Rabs (sk_rho o')) (Rabs (sdl j 0))) /\
  sk_predict lo hi o' Xh = Ok (\col_j Rplus (Yh j 0) (Rmult (Rminus (sk_rho o') 1) (Rminus (Yh j 0) (Rmult (Rplus (sk_rho o') 1) (l j 0))))).
Proof.
move=> Hn /sk_train_inv [l [rd [El [EF [Er [Erho [Ed _]]]]]]].
have [l' [sdl [El' Es']]] := gp_predict_ok Xh El; move: El'; rewrite EF => -[El']; rewrite -El' in Es'.
have Nd : gp_noise rd.2 = Some R0.
  move: Er; rewrite /sk_rho_optimize; case: sr => [|rho|qs rho|] //; [by case=> <-|by case=> <-|].
  by case Eb: (sk_bumps _ _ _ _ _ _ _) => [g|//] [<-] /=; apply: bumps_noise Eb.
have [I1 I2] := gp_interpolates Nd Ed.
exists l, sdl; split=> //; split.
  rewrite /sk_predict_std Es' /= I2 /=; congr Ok; congr pair; apply/matrixP => j k; rewrite !mxE ?(ord1 k) ?Erho.
    have Q (y r x : R) : Rplus (Rmult r x) (Rminus y (Rmult r x)) = y by lra. exact: Q.
  rewrite Rmult_0_l Rplus_0_r.
  have -> : Rmult (Rmult rd.1 rd.1) (Rmult (sdl j 0) (sdl j 0)) = Rsqr (Rmult rd.1 (sdl j 0)) by rewrite /Rsqr; ring.
  by rewrite sqrt_Rsqr_abs Rabs_mult.
rewrite /sk_predict I1 /= EF /=; congr Ok; apply/matrixP => j k; rewrite !mxE ?(ord1 k) Erho.
have Q (y r x : R) : Rplus (Rmult (Rminus y (Rmult r x)) r) x = Rplus y (Rmult (Rminus r 1) (Rminus y (Rmult (Rplus r 1) x))) by ring.
exact: Q.
Qed.

(** ** C54 *)
Lemma sk_error_quadratic n (l Y : 'cV[R]_n) rho :
  let ll := \sum_i Rmult (l i 0) (l i 0) in let ly := \sum_i Rmult (l i 0) (Y i 0) in let yy := \sum_i Rmult (Y i 0) (Y i 0) in
  sk_eval_error l Y rho = Rplus (Rminus (Rmult ll (Rmult rho rho)) (Rmult (Rmult 2 rho) ly)) yy.
Proof.
move=> ll ly yy. have -> : Rplus (Rminus (Rmult ll (Rmult rho rho)) (Rmult (Rmult 2 rho) ly)) yy =
   (Rmult rho rho * ll + (- Rmult 2 rho) * ly + yy) by toR; ring.
rewrite /ll /ly /yy !mulr_sumr -!big_split /=; apply: eq_bigr => i _.
have Q (x y : R) : Rmult (Rminus (Rmult rho x) y) (Rminus (Rmult rho x) y) =
  Rplus (Rplus (Rmult (Rmult rho rho) (Rmult x x)) (Rmult (Ropp (Rmult 2 rho)) (Rmult x y))) (Rmult y y) by ring.
exact: Q.
Qed.
Lemma sk_error_min n (l Y : 'cV[R]_n) :
  let ll := \sum_i Rmult (l i 0) (l i 0) in let ly := \sum_i Rmult (l i 0) (Y i 0) in
  l <> 0 -> (0 < ll)%Re /\ forall rho, sk_eval_error l Y rho =
    Rplus (sk_eval_error l Y (Rdiv ly ll)) (Rmult ll (Rmult (Rminus rho (Rdiv ly ll)) (Rminus rho (Rdiv ly ll)))).
Proof.
move=> ll ly Hl. have P : (0 < ll)%Re by have := @sq_sum_pos n l; rewrite qf_scal; apply; apply/eqP.
split=> // rho. rewrite !sk_error_quadratic -/ll -/ly. field. lra.
Qed.
Lemma sk_error_convex n (l Y : 'cV[R]_n) a b t : (0 <= t <= 1)%Re ->
  (sk_eval_error l Y (t * a + (1 - t) * b) <= t * sk_eval_error l Y a + (1 - t) * sk_eval_error l Y b)%Re.
Proof.
move=> Ht; rewrite !sk_error_quadratic. set ll := \sum_i Rmult (l i 0) (l i 0).
have P : (0 <= ll)%Re by apply: sumR_ge0 => i; exact: Rle_0_sqr.
have D := Rle_0_sqr (a - b)%Re. rewrite /Rsqr in D.
have H : (0 <= ll * (t * (1 - t) * ((a - b) * (a - b))))%Re.
  apply: Rmult_le_pos => //; apply: Rmult_le_pos => //; nra.
lra.
Qed.
Lemma sk_error_zero n (l Y : 'cV[R]_n) rho : (0 <= sk_eval_error l Y rho)%Re /\
  (sk_eval_error l Y rho = 0 <-> forall i, Rmult rho (l i 0) = Y i 0).
Proof.
have P i : (0 <= Rmult (Rminus (Rmult rho (l i 0%R)) (Y i 0%R)) (Rminus (Rmult rho (l i 0%R)) (Y i 0%R)))%Re by exact: Rle_0_sqr.
split; first exact: sumR_ge0.
split=> [E i|H]; last first.
  by rewrite /sk_eval_error big1 // => i _; rewrite Rminus_diag_eq ?Rmult_0_l // H.
apply: Rminus_diag_uniq; case: (Req_dec (Rminus (Rmult rho (l i 0)) (Y i 0)) 0) => // N.
have : (0 < sk_eval_error l Y rho)%Re.
  by apply: sumR_gt0 => //; exists i; apply: Rsqr_pos_lt.
rewrite E. by move/Rlt_irrefl.
Qed.

(** ** C85 *)
Lemma sk_unknown_method nh nl (o : sk d) (Xh : 'M[R]_(nh, d)) (Yh : 'cV[R]_nh) (Xl : 'M[R]_(nl, d)) (Yl : 'cV[R]_nl) sl sh :
  ~ constant Yl -> usable (gp_restart (sk_lf o)) sl ->
  sk_train lo hi o Xh Yh Xl Yl sl (RhoOther d) sh = Raise UnboundLocalError.
Proof.
move=> Hl Ul. have [lf El] := gp_train_ordinary lo hi Xl Hl Ul. have [l [sd [EF _]]] := gp_predict_ok Xh El.
by rewrite /sk_train El /= EF.
Qed.
Lemma sk_bumpiness_noise nh nl (o o' : sk d) (Xh : 'M[R]_(nh, d)) (Yh : 'cV[R]_nh) (Xl : 'M[R]_(nl, d)) (Yl : 'cV[R]_nl) sl r1 s1 qs rho sh :
  gp_noise (sk_disc o) = None ->
  sk_train lo hi o Xh Yh Xl Yl sl (RhoBumpiness ((r1, s1) :: qs) rho) sh = Ok o' ->
  exists l h, gp_predict Ordinary lo hi (sk_lf o') Xh = Ok l /\ result_of s1 (gp_restart (sk_disc o)) h /\ sk_rho o' = rho /\
    sk_noise o' = Some (Rmult (h_sigma h) (stdev (sk_disc_data Yh l r1))).
Proof.
move=> Hn /sk_train_inv [l [rd [El [EF [Er [Erho [Ed [_ En]]]]]]]]; move: Er; rewrite /=.
case E1: (gp_train _ _ _ _ _ _ _) => [g1|//] /=; case Eb: (sk_bumps _ _ _ _ _ _ _) => [g|//] /= [E2].
have [h [Rh N1]] := train_noise E1; rewrite Hn in N1; exists l, h; split=> //; split=> //; split; first by rewrite Erho -E2.
have Ng := bumps_noise N1 Eb. by rewrite En; have [h' [_ ->]] := train_noise Ed; rewrite -E2 /= Ng.
Qed.
Lemma sk_noise_of nh nl (o o' : sk d) (Xh : 'M[R]_(nh, d)) (Yh : 'cV[R]_nh) (Xl : 'M[R]_(nl, d)) (Yl : 'cV[R]_nl) sl sr sh noise :
  gp_noise (sk_disc o) = Some noise -> sk_train lo hi o Xh Yh Xl Yl sl sr sh = Ok o' -> sk_noise o' = Some noise /\ gp_noise (sk_disc o') = Some noise.
Proof.
move=> Hn /sk_train_inv [l [rd [El [EF [Er [Erho [Ed [_ ->]]]]]]]].
have Nd : gp_noise rd.2 = Some noise.
  move: Er; rewrite /sk_rho_optimize; case: sr => [|rho|qs rho|] //; [by case=> <-|by case=> <-|].
  by case Eb: (sk_bumps _ _ _ _ _ _ _) => [g|//] [<-] /=; apply: bumps_noise Eb.
by have [h [_ ->]] := train_noise Ed; rewrite Nd.
Qed.

(** ** C82 *)
Lemma sk_kernel_kept (o o' : sk d) cs : sk_trains lo hi o cs = Ok o' -> sk_kernel o' = sk_kernel o.
Proof.
elim: cs o => [|c cs IH] o /=; first by case=> ->.
case E: (sk_train _ _ _ _ _ _ _ _ _ _) => [o1|//] /= /IH ->.
by have [_ [_ [_ [_ [_ [_ [_ [-> _]]]]]]]] := sk_train_inv E.
Qed.
Lemma sk_corr_untrained (o' : sk d) noise restart cs n m (X : 'M[R]_(n, d)) (X' : 'M[R]_(m, d)) :
  sk_trains lo hi (sk_new d noise restart) cs = Ok o' ->
  eval_corr lo hi (sk_kernel o') (sk_lf o') X X' 0 =
  Some (\matrix_(i, j) Rplus (exp (Ropp (wdist (const_mx 1) (row i (normalize_input lo hi X)) (row j (normalize_input lo hi X')))))
                            (if (i : nat) == j then Rinv (10 ^ 10) else 0)).
Proof.
move/sk_kernel_kept => E; rewrite /eval_corr E; congr Some; apply/matrixP => i j; rewrite [RHS]mxE.
have HP : positive_params (rbf_param (sk_kernel (sk_new d noise restart))) by move=> k; rewrite /= mxE; exact: exp_pos.
rewrite kernelE // !mxE. congr (_ + _); last by case: eqP => _; rewrite ?mulr1 ?mulr0.
congr exp; congr Ropp; apply: eq_bigr => k _; congr (_ * _); rewrite /= !mxE.
apply: Rpower_O; toR; lra.
Qed.
End SK.
Lemma corr_unknown d (lo hi : 'rV[R]_d) n m k (lf : gp d 1) (X : 'M[R]_(n, d)) (X' : 'M[R]_(m, d)) fid : (1 < fid)%N ->
  eval_corr lo hi k lf X X' fid = None.
Proof. by case: fid => [|[|]]. Qed.
(** the fidelity-0 correlation of a trained hierarchical Kriging model *)
Lemma hk_corr_trained d (lo hi : 'rV[R]_d) nh nl n m (o o' : hk d) (Xh : 'M[R]_(nh, d)) (Yh : 'cV[R]_nh) (Xl : 'M[R]_(nl, d)) (Yl : 'cV[R]_nl) sl sh (X : 'M[R]_(n, d)) (X' : 'M[R]_(m, d)) :
  hk_train lo hi o Xh Yh Xl Yl sl sh = Ok o' -> exists h, result_of sh (hk_restart o) h /\
  eval_corr lo hi (hk_kernel o') (hk_lf o') X X' 0 =
  Some (\matrix_(i, j) Rplus (exp (Ropp (wdist (\row_k Rpower 10 (h_theta h 0 k)) (row i (normalize_input lo hi X)) (row j (normalize_input lo hi X')))))
                            (if (i : nat) == j then Rinv (10 ^ 10) else 0)).
Proof.
case/hk_train_inv => lf [F0 [h [k [_ [_ [_ [Es [_ ->]]]]]]]] /=; exists h; split; first exact: search_result Es.
congr Some; apply/matrixP => i j; rewrite [RHS]mxE kernelE; last exact: set_params_pos. rewrite !mxE.
by congr (_ + _); case: eqP => _; rewrite ?mulr1 ?mulr0.
Qed.
(** the fidelity-1 correlation of trained models *)
Lemma lf_corr_trained d (lo hi : 'rV[R]_d) nl n m k (g g' : gp d 1) (Xl : 'M[R]_(nl, d)) (Yl : 'cV[R]_nl) sl (X : 'M[R]_(n, d)) (X' : 'M[R]_(m, d)) :
  gp_train (@Ordinary d) lo hi g Xl Yl sl = Ok g' -> exists h, result_of sl (gp_restart g) h /\
  eval_corr lo hi k g' X X' 1 =
  Some (\matrix_(i, j) Rplus (exp (Ropp (wdist (\row_k Rpower 10 (h_theta h 0 k)) (row i (normalize_input lo hi X)) (row j (normalize_input lo hi X')))))
                            (if (i : nat) == j then Rinv (10 ^ 10) else 0)).
Proof.
move/train_inv => [_ [h [mm [Es [_ ->]]]]] /=; exists h; split; first exact: search_result Es.
congr Some; apply/matrixP => i j; rewrite [RHS]mxE kernelE; last exact: set_params_pos. rewrite !mxE.
by congr (_ + _); case: eqP => _; rewrite ?mulr1 ?mulr0.
Qed.
Lemma hk_low_corr d (lo hi : 'rV[R]_d) nh nl n m (o o' : hk d) (Xh : 'M[R]_(nh, d)) (Yh : 'cV[R]_nh) (Xl : 'M[R]_(nl, d)) (Yl : 'cV[R]_nl) sl sh (X : 'M[R]_(n, d)) (X' : 'M[R]_(m, d)) :
  hk_train lo hi o Xh Yh Xl Yl sl sh = Ok o' -> exists h, result_of sl (gp_restart (hk_lf o)) h /\
  eval_corr lo hi (hk_kernel o') (hk_lf o') X X' 1 =
  Some (\matrix_(i, j) Rplus (exp (Ropp (wdist (\row_k Rpower 10 (h_theta h 0 k)) (row i (normalize_input lo hi X)) (row j (normalize_input lo hi X')))))
                            (if (i : nat) == j then Rinv (10 ^ 10) else 0)).
Proof. case/hk_train_inv => lf [F0 [h [k [E [_ [_ [_ [_ ->]]]]]]]] /=. exact: lf_corr_trained E. Qed.
Lemma sk_low_corr d (lo hi : 'rV[R]_d) nh nl n m (o o' : sk d) (Xh : 'M[R]_(nh, d)) (Yh : 'cV[R]_nh) (Xl : 'M[R]_(nl, d)) (Yl : 'cV[R]_nl) sl sr sh (X : 'M[R]_(n, d)) (X' : 'M[R]_(m, d)) :
  sk_train lo hi o Xh Yh Xl Yl sl sr sh = Ok o' -> exists h, result_of sl (gp_restart (sk_lf o)) h /\
  eval_corr lo hi (sk_kernel o') (sk_lf o') X X' 1 =
  Some (\matrix_(i, j) Rplus (exp (Ropp (wdist (\row_k Rpower 10 (h_theta h 0 k)) (row i (normalize_input lo hi X)) (row j (normalize_input lo hi X')))))
                            (if (i : nat) == j then Rinv (10 ^ 10) else 0)).
Proof. case/sk_train_inv => l [rd [E _]]. exact: lf_corr_trained E. Qed.
