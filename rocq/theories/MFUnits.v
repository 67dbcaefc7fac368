(** Proofs of C113 to C116, and of C44_objective and C86_numeric_noise: units in the surrogate models. *)
From Coq Require Import Reals Lra.
From Verif Require Import Fl.
From mathcomp Require Import all_ssreflect all_algebra.
From Verif Require Import RStruct LinAlg LinSpec LinAlgFacts Kernel KernelFacts Krig KrigFacts GP GPSpec GPFacts GPMain MF CoKrig MFSpec MFMain CoKrigMain.
Set Implicit Arguments.
Unset Strict Implicit.
Unset Printing Implicit Defensive.
Import GRing.Theory.
Local Open Scope ring_scope.

Local Notation aff a b Y := (\col_i Rplus (Rmult a (Y i 0)) b).

(** ** Hierarchical Kriging *)
Section HK.
Variables (d : nat) (lo hi : 'rV[R]_d).
Definition rescale_hkt a b (t : hk_trained d) : hk_trained d :=
  HKTrained (hk_X t) (hk_Y t) (hk_F t) (Rplus (Rmult a (hk_mean t)) b) (Rmult a (MF.hk_std t)) (hk_K t) (hk_krig t) (hk_logp t).
Definition rescale_hk a b (o : hk d) : hk d :=
  MkHK (omap (Rmult a) (hk_noise o)) (hk_restart o) (hk_kernel o) (rescale_gp a b (hk_lf o)) (omap (rescale_hkt a b) (hk_model o)).
Lemma hk_loglik_rescale n (noise : option R) (X : 'M[R]_(n, d)) (Y : 'cV[R]_n) F ys k h a : (0 < a)%Re -> ys <> R0 ->
  hk_loglik (omap (Rmult a) noise) X Y F (Rmult a ys) k h = hk_loglik noise X Y F ys k h.
Proof.
move=> Ha Hy; rewrite /hk_loglik. case: noise => [s|] //=.
have -> : Rdiv (Rmult a s) (Rmult a ys) = Rdiv s ys by field; split=> //; lra.
case: (krig_fit _ _ _) => //= m. case: (Req_EM_T s 0) => Hs; case: (Req_EM_T (Rmult a s) 0) => Ha' //=.
  by case: Ha'; rewrite Hs Rmult_0_r.
by case/Rmult_integral: Ha' => // E; lra.
Qed.
Lemma scaled_basis m n (F0 : 'cV[R]_m) (Y : 'cV[R]_n) a b : (0 < a)%Re -> stdev Y <> R0 ->
  (\matrix_(i, j) Rdiv (Rminus ((aff a b F0) i j) (Rplus (Rmult a (mean Y)) b)) (Rmult a (stdev Y)) : 'M[R]_(m, 1)) =
  \matrix_(i, j) Rdiv (Rminus (F0 i j) (mean Y)) (stdev Y).
Proof. move=> Ha HY; apply/matrixP => i j; rewrite !mxE !ord1; toR; field; lra. Qed.
Lemma hk_train_rescale nh nl (o o' : hk d) (Xh : 'M[R]_(nh, d)) (Yh : 'cV[R]_nh) (Xl : 'M[R]_(nl, d)) (Yl : 'cV[R]_nl) sl sh a b : (0 < a)%Re ->
  hk_train lo hi o Xh Yh Xl Yl sl sh = Ok o' ->
  hk_train lo hi (rescale_hk a b o) Xh (aff a b Yh) Xl (aff a b Yl) sl sh = Ok (rescale_hk a b o').
Proof.
move=> Ha; rewrite /hk_train. case E: (gp_train _ _ _ _ _ _ _) => [lf|//].
rewrite [hk_lf (rescale_hk _ _ _)]/= (train_rescale b Ha E) /=.
case: (Req_EM_T _ _) => // HY; have Hn := stdev_nz HY. have Ea : (0 <= a)%Re by lra.
rewrite stdev_affine // mean_affine // normalize_output_affine //.
case: (Req_EM_T _ _) => [E'|N]; first by exfalso; have [E2|E2] := Rmult_integral _ _ E'; [lra|exact: HY].
case EP: (gp_predict _ _ _ _ _) => [F0|//]; rewrite (predict_rescale a b EP) /=.
have EF := scaled_basis F0 b Ha HY. rewrite {}EF.
set F := \matrix_(i, j) _.
rewrite (hyper_search_ext _ _ (fun h => hk_loglik_rescale _ _ _ _ _ h Ha HY)) /=.
case: (hyper_search _ _ _) => //= h; rewrite /hk_update /=.
have -> : Rdiv match omap (Rmult a) (hk_noise o) with Some s0 => s0 | None => Rmult (h_sigma h) (Rmult a (stdev Yh)) end
   (Rmult a (stdev Yh)) = Rdiv match hk_noise o with Some s0 => s0 | None => Rmult (h_sigma h) (stdev Yh) end (stdev Yh).
  by case: (hk_noise o) => [s0|] /=; field; split=> //; lra.
case: (krig_fit _ _ _) => //= m [<-]. rewrite /rescale_hk /=. congr Ok; congr MkHK; congr Some.
by case: (hk_noise o) => [s0|] //=; ring.
Qed.
Lemma hk_basis_rescale m (o : hk d) t (X : 'M[R]_(m, d)) a b f : (0 < a)%Re -> MF.hk_std t <> R0 ->
  hk_basis lo hi o t X = Ok f -> hk_basis lo hi (rescale_hk a b o) (rescale_hkt a b t) X = Ok f.
Proof.
move=> Ha Ht; rewrite /hk_basis [hk_lf (rescale_hk _ _ _)]/=.
case E: (gp_predict _ _ _ _ _) => [f0|//] [<-]; rewrite (predict_rescale a b E) /=. congr Ok.
apply/matrixP => i j; rewrite !mxE !ord1; toR; field; lra.
Qed.
Lemma hk_predict_rescale m (o : hk d) t (X : 'M[R]_(m, d)) a b mu : (0 < a)%Re -> hk_model o = Some t -> MF.hk_std t <> R0 ->
  hk_predict lo hi o X = Ok mu -> hk_predict lo hi (rescale_hk a b o) X = Ok (aff a b mu).
Proof.
move=> Ha Et Ht; rewrite /hk_predict [hk_model (rescale_hk _ _ _)]/= Et /=.
case E: (hk_basis lo hi o t X) => [f|//]; rewrite (hk_basis_rescale b Ha Ht E) /= => -[<-]; congr Ok.
apply/matrixP => i j; rewrite !mxE; toR; ring.
Qed.
Lemma hk_predict_std_rescale m (o : hk d) t (X : 'M[R]_(m, d)) a b mu sd : (0 < a)%Re -> hk_model o = Some t -> MF.hk_std t <> R0 ->
  hk_predict_std lo hi o X = Ok (mu, sd) -> hk_predict_std lo hi (rescale_hk a b o) X = Ok (aff a b mu, \col_j Rmult a (sd j 0)).
Proof.
move=> Ha Et Ht; rewrite /hk_predict_std.
case Ep: (hk_predict lo hi o X) => [mu'|e]; last by rewrite Et.
rewrite (hk_predict_rescale b Ha Et Ht Ep) [hk_model (rescale_hk _ _ _)]/= Et /=.
case E: (hk_basis lo hi o t X) => [f|//]; rewrite (hk_basis_rescale b Ha Ht E) /=.
case: (krig_mse _ _ _) => [mse|//] /=; case: (hk_noise o) => [noise|//] /= [<- <-]. congr Ok; congr pair.
apply/matrixP => i j; rewrite !mxE.
set e := sqrt (Rmax _ _). toR.
have -> : Rplus (Rmult (Rmult e (Rmult a (MF.hk_std t))) (Rmult e (Rmult a (MF.hk_std t)))) (Rmult (Rmult a noise) (Rmult a noise)) =
  Rmult (Rmult a a) (Rplus (Rmult (Rmult e (MF.hk_std t)) (Rmult e (MF.hk_std t))) (Rmult noise noise)) by ring.
rewrite sqrt_mult_alt; last exact: Rle_0_sqr. rewrite sqrt_square //; lra.
Qed.
Lemma hk_equivariant nh nl m (o o' : hk d) (Xh : 'M[R]_(nh, d)) (Yh : 'cV[R]_nh) (Xl : 'M[R]_(nl, d)) (Yl : 'cV[R]_nl) sl sh a b (Xq : 'M[R]_(m, d)) mu sd : (0 < a)%Re ->
  hk_train lo hi o Xh Yh Xl Yl sl sh = Ok o' -> hk_predict_std lo hi o' Xq = Ok (mu, sd) ->
  exists o2, hk_train lo hi (MkHK (omap (Rmult a) (hk_noise o)) (hk_restart o) (hk_kernel o)
        (MkGP (omap (Rmult a) (gp_noise (hk_lf o))) (gp_restart (hk_lf o)) (gp_kernel (hk_lf o)) (gp_model (hk_lf o))) (hk_model o))
      Xh (aff a b Yh) Xl (aff a b Yl) sl sh = Ok o2 /\
    hk_noise o2 = omap (Rmult a) (hk_noise o') /\
    hk_predict lo hi o2 Xq = Ok (aff a b mu) /\
    hk_predict_std lo hi o2 Xq = Ok (aff a b mu, \col_j Rmult a (sd j 0)).
Proof.
move=> Ha Ht Hp; exists (rescale_hk a b o'); split.
  have := hk_train_rescale b Ha Ht; rewrite /hk_train /rescale_hk /=. by [].
have [t [Et Hs]] : exists t, hk_model o' = Some t /\ MF.hk_std t <> R0.
  move: Ht; rewrite /hk_train; case: (gp_train _ _ _ _ _ _ _) => [lf|//] /=; case: (Req_EM_T _ _) => // HY.
  case: (gp_predict _ _ _ _ _) => [F0|//] /=; case: (hyper_search _ _ _) => //= h; rewrite /hk_update; case: (krig_fit _ _ _) => //= k [<-] /=.
  by eexists; split; first reflexivity.
split=> //; split; last exact: (hk_predict_std_rescale b Ha Et Hs).
apply: (hk_predict_rescale b Ha Et Hs). move: Hp; rewrite /hk_predict_std Et; case: (hk_predict lo hi o' Xq) => [mu'|//] /=.
case: (hk_basis lo hi o' t Xq) => [f|//] /=; case: (krig_mse _ _ _) => [mse|//] /=; case: (hk_noise o') => [noise|//] /= [<- _]. by [].
Qed.
End HK.

(** ** Scaled Kriging *)
Section SK.
Variables (d : nat) (lo hi : 'rV[R]_d).
(** the second object is the first one in the new units, as far as training reads it *)
Definition in_units p a (o o2 : gp d p) := gp_noise o2 = omap (Rmult a) (gp_noise o) /\ gp_restart o2 = gp_restart o /\ gp_kernel o2 = gp_kernel o.
Lemma in_units_rescale p a b (o : gp d p) : in_units a o (rescale_gp a b o). Proof. by []. Qed.
Lemma train_units p phi n (o o2 o' : gp d p) (X : 'M[R]_(n, d)) (Y : 'cV[R]_n) s a b : (0 < a)%Re -> in_units a o o2 ->
  gp_train phi lo hi o X Y s = Ok o' -> gp_train phi lo hi o2 X (aff a b Y) s = Ok (rescale_gp a b o').
Proof.
move=> Ha [En [Er Ek]] Ht; have := train_rescale b Ha Ht. by rewrite /gp_train /gp_update /rescale_gp /= En Er Ek.
Qed.
Lemma disc_units n (Y P : 'cV[R]_n) a b rho :
  sk_disc_data (aff a b Y) (aff a b P) rho = aff a (Rmult b (Rminus 1 rho)) (sk_disc_data Y P rho).
Proof. apply/matrixP => i j; rewrite !mxE; toR; ring. Qed.
Lemma bumps_units n (X : 'M[R]_(n, d)) (Y P : 'cV[R]_n) a b qs : (0 < a)%Re -> forall (g g2 g' : gp d 1), in_units a g g2 ->
  sk_bumps lo hi g X Y P qs = Ok g' -> exists g2', sk_bumps lo hi g2 X (aff a b Y) (aff a b P) qs = Ok g2' /\ in_units a g' g2'.
Proof.
move=> Ha; elim: qs => [|[rho s] qs IH] g g2 g' U /=; first by move=> [<-]; exists g2.
case E: (gp_train _ _ _ _ _ _ _) => [g1|//] /= H.
rewrite disc_units (train_units _ Ha U E) /=. apply: IH H. exact: in_units_rescale.
Qed.
Lemma sk_train_units nh nl (o o2 o' : sk d) (Xh : 'M[R]_(nh, d)) (Yh : 'cV[R]_nh) (Xl : 'M[R]_(nl, d)) (Yl : 'cV[R]_nl) sl sr sh a b : (0 < a)%Re ->
  in_units a (sk_lf o) (sk_lf o2) -> in_units a (sk_disc o) (sk_disc o2) -> sk_rho o2 = sk_rho o ->
  sk_train lo hi o Xh Yh Xl Yl sl sr sh = Ok o' ->
  sk_train lo hi o2 Xh (aff a b Yh) Xl (aff a b Yl) sl sr sh =
    Ok (MkSK (rescale_gp a b (sk_lf o')) (rescale_gp a (Rmult b (Rminus 1 (sk_rho o'))) (sk_disc o')) (sk_rho o') (sk_kernel o2) (omap (Rmult a) (sk_noise o'))).
Proof.
move=> Ha Ul Ud Er; rewrite /sk_train. case E: (gp_train _ _ _ _ _ _ _) => [lf|//] /=; rewrite (train_units b Ha Ul E) /=.
case EP: (gp_predict _ _ _ _ _) => [P|//] /=; rewrite (predict_rescale a b EP) /=.
case Eo: (sk_rho_optimize _ _ _ _ _ _ _) => [[rho g]|//] /=.
have [g2 [E2 U2]] : exists g2, sk_rho_optimize lo hi o2 Xh (aff a b Yh) (aff a b P) sr = Ok (rho, g2) /\ in_units a g g2.
  move: Eo; rewrite /sk_rho_optimize; case: sr => [|r|qs r|].
  - by move=> [<- <-]; exists (sk_disc o2); rewrite Er.
  - by move=> [<- <-]; exists (sk_disc o2).
  - case Eb: (sk_bumps _ _ _ _ _ _ _) => [g'|//] /= [<- <-].
    by have [g2 [-> U]] := bumps_units b Ha Ud Eb; exists g2.
  - by [].
rewrite E2 /=. case ED: (gp_train _ _ _ _ _ _ _) => [disc|//] /= [<-] /=.
by rewrite disc_units (train_units _ Ha U2 ED).
Qed.
Lemma sk_equivariant nh nl m (o o' : sk d) (Xh : 'M[R]_(nh, d)) (Yh : 'cV[R]_nh) (Xl : 'M[R]_(nl, d)) (Yl : 'cV[R]_nl) sl sr sh a b (Xq : 'M[R]_(m, d)) mu mu1 sd : (0 < a)%Re ->
  sk_train lo hi o Xh Yh Xl Yl sl sr sh = Ok o' -> sk_predict_std lo hi o' Xq = Ok (mu, sd) -> sk_predict lo hi o' Xq = Ok mu1 ->
  let scaled (g : gp d 1) := MkGP (omap (Rmult a) (gp_noise g)) (gp_restart g) (gp_kernel g) (gp_model g) in
  exists o2, sk_train lo hi (MkSK (scaled (sk_lf o)) (scaled (sk_disc o)) (sk_rho o) (sk_kernel o) (sk_noise o))
      Xh (aff a b Yh) Xl (aff a b Yl) sl sr sh = Ok o2 /\
    sk_rho o2 = sk_rho o' /\ sk_noise o2 = omap (Rmult a) (sk_noise o') /\
    sk_predict_std lo hi o2 Xq = Ok (aff a b mu, \col_j Rmult a (sd j 0)) /\
    sk_predict lo hi o2 Xq = Ok (\col_j Rplus (Rplus (Rmult a (mu1 j 0)) b) (Rmult b (Rmult (sk_rho o') (Rminus 1 (sk_rho o'))))).
Proof.
move=> Ha Ht Hs Hp scaled. eexists; split; first by apply: (sk_train_units b Ha _ _ _ Ht).
split=> //; split=> //; split.
- move: Hs; rewrite /sk_predict_std /=.
  case El: (gp_predict_std _ _ _ _ _) => [[ml sl']|//] /=; rewrite (predict_std_rescale b Ha El) /=.
  case Ed: (gp_predict_std _ _ _ _ _) => [[md sd']|//] /=; rewrite (predict_std_rescale _ Ha Ed) /= => -[<- <-].
  congr Ok; congr pair; apply/matrixP => i j; rewrite !mxE; toR; first ring.
  set rho := sk_rho o'. set u := sl' i 0. set v := sd' i 0.
  have -> : Rplus (Rmult (Rmult rho rho) (Rmult (Rmult a u) (Rmult a u))) (Rmult (Rmult a v) (Rmult a v)) =
    Rmult (Rmult a a) (Rplus (Rmult (Rmult rho rho) (Rmult u u)) (Rmult v v)) by ring.
  rewrite sqrt_mult_alt; last exact: Rle_0_sqr. rewrite sqrt_square //; lra.
- move: Hp; rewrite /sk_predict /=.
  case Ed: (gp_predict _ _ _ _ _) => [md|//] /=; rewrite (predict_rescale a _ Ed) /=.
  case El: (gp_predict _ _ _ _ _) => [ml|//] /=; rewrite (predict_rescale a b El) /= => -[<-].
  congr Ok; apply/matrixP => i j; rewrite !mxE; toR; ring.
Qed.
Lemma error_units n (P Y : 'cV[R]_n) a rho : sk_eval_error (aff a 0 P) (aff a 0 Y) rho = Rmult (Rmult a a) (sk_eval_error P Y rho).
Proof. rewrite /sk_eval_error RmultE mulr_sumr; apply: eq_bigr => i _; rewrite !mxE; toR; ring. Qed.
End SK.
(** responses twice the low-fidelity predictions; then 1 is added to all *)
Definition eu_P : 'cV[R]_2 := \col_i (if i == 0 then 1%Re else 0%Re).
Definition eu_Y : 'cV[R]_2 := \col_i (if i == 0 then 2%Re else 0%Re).
Lemma error_shift : (forall rho, (sk_eval_error eu_P eu_Y 2 <= sk_eval_error eu_P eu_Y rho)%Re) /\
  (sk_eval_error (aff 1 1 eu_P) (aff 1 1 eu_Y) (7 / 5) < sk_eval_error (aff 1 1 eu_P) (aff 1 1 eu_Y) 2)%Re.
Proof.
rewrite /sk_eval_error; split=> [rho|].
  rewrite !big_ord_recl !big_ord0 !mxE /=; toR. have := Rle_0_sqr (rho - 2)%Re; rewrite /Rsqr. nra.
rewrite !big_ord_recl !big_ord0 !mxE /=; toR; lra.
Qed.

(** ** Co-Kriging *)
Lemma run_total A (f : A -> result R) qs : (forall q, exists v, f q = Ok v) -> run_queries f qs = Ok tt.
Proof. by move=> H; elim: qs => [|q qs IH] //=; have [v ->] := H q. Qed.
Lemma search_total A r (f g : A -> result R) s : (forall q, exists v, f q = Ok v) -> (forall q, exists v, g q = Ok v) ->
  hyper_search r f s = hyper_search r g s.
Proof. by move=> Hf Hg; case: s => [oracle|qs x]; rewrite /hyper_search !run_total. Qed.
Section CK.
Variables (d : nat) (lo hi : 'rV[R]_d).
Lemma ck_loglik_total n noise (X : 'M[R]_(n, d)) (Y pred : 'cV[R]_n) ys k q : exists v, ck_loglik noise X Y pred ys k q = Ok v.
Proof.
rewrite /ck_loglik kernel_callE.
have [L [_ ->]] := ck_fit_ok (Y - ch_rho q *: pred)
     (kernel_noise_pos X (if noise is Some s then Rdiv s ys else ch_sigma q) (set_params_pos k (ch_theta q))).
by rewrite /=; eexists.
Qed.
Definition rescale_ckt a b (t : ck_trained d) : ck_trained d :=
  CKTrained (ct_Xl t) (ct_Xh t) (Rplus (Rmult a (ct_mean t)) b) (Rmult a (ct_std t)) (ct_lf t) (ct_rho t) (ct_K t) (ct_sigma2 t)
    (ct_logp t) (ct_C t) (ct_LC t) (ct_y t) (ct_mu t).
Definition rescale_ck a b (o : ck d) : ck d :=
  MkCK (ck_noise o) (ck_restart o) (ck_kernel o) (ck_lf o) (omap (rescale_ckt a b) (ck_model o)).
Lemma ck_scale_units nh nl (Yh : 'cV[R]_nh) (Yl : 'cV[R]_nl) a b : (0 < a)%Re -> stdev Yh <> R0 ->
  (\col_i Rdiv (Rminus ((aff a b Yl) i 0) (mean (aff a b Yh))) (stdev (aff a b Yh))) = \col_i Rdiv (Rminus (Yl i 0) (mean Yh)) (stdev Yh).
Proof.
move=> Ha Hs; have Hn := stdev_nz Hs; rewrite (mean_affine _ _ _ Hn) (stdev_affine _ _ Hn (Rlt_le _ _ Ha)). apply/matrixP => i j; rewrite !mxE; toR; field; split=> //; lra.
Qed.
Lemma ck_noise_units nh (noise : option R) (Yh : 'cV[R]_nh) a : (0 < a)%Re -> stdev Yh <> R0 ->
  omap (fun s => Rdiv s (Rmult a (stdev Yh))) (omap (Rmult a) noise) = omap (fun s => Rdiv s (stdev Yh)) noise.
Proof. move=> Ha Hs; case: noise => [s|] //=; congr Some; field; split=> //; lra. Qed.
Lemma ck_train_units nh nl (o o' : ck d) (Xh : 'M[R]_(nh, d)) (Yh : 'cV[R]_nh) (Xl : 'M[R]_(nl, d)) (Yl : 'cV[R]_nl) sl sh a b : (0 < a)%Re ->
  ck_train lo hi o Xh Yh Xl Yl sl sh = Ok o' ->
  ck_train lo hi (MkCK (omap (Rmult a) (ck_noise o)) (ck_restart o) (ck_kernel o) (ck_lf o) (ck_model o)) Xh (aff a b Yh) Xl (aff a b Yl) sl sh =
    Ok (rescale_ck a b o').
Proof.
move=> Ha; rewrite /ck_train; case: (Req_EM_T (stdev Yh) _) => // HY.
have Hn := stdev_nz HY; rewrite ck_scale_units // normalize_output_affine // (mean_affine _ _ _ Hn) (stdev_affine _ _ Hn (Rlt_le _ _ Ha)).
case: (Req_EM_T (Rmult a (stdev Yh)) 0) => [E|N]; first by case: (Rmult_integral _ _ E) => // E'; lra.
rewrite [ck_noise _]/= ck_noise_units //=. set noise := omap _ _.
case El: (lgp_train _ _ _ _) => [[lf t]|//] /=.
set f := ck_loglik noise _ _ _ (Rmult a _) _. set g := ck_loglik _ _ _ _ (stdev Yh) _.
have -> : hyper_search (ck_restart o) f sh = hyper_search (ck_restart o) g sh by apply: search_total => q; exact: ck_loglik_total.
case: (hyper_search _ _ _) => [h|//] /=. rewrite /ck_update.
case: (ck_fit _ _) => [[[L mu] s2]|//] /=. case: (chol _) => [LC|//] /=.
case: (chol_solve _ _) => [u|//] /=. case: (chol_solve _ _) => [v|//] /= [<-]. by [].
Qed.
Lemma ck_predict_units m (o : ck d) (Xq : 'M[R]_(m, d)) mu a b : ck_predict lo hi o Xq = Ok mu ->
  ck_predict lo hi (rescale_ck a b o) Xq = Ok (aff a b mu).
Proof.
rewrite /ck_predict /=; case: (ck_model o) => [t|//] /=.
rewrite -[ck_cross (rescale_ck a b o) (rescale_ckt a b t) _]/(ck_cross o t (normalize_input lo hi Xq)).
case: (chol_solve _ _) => [u|//] /= [<-]. congr Ok; apply/matrixP => i j; rewrite !mxE; toR; ring.
Qed.
Lemma ck_predict_lf_units m (o : ck d) (Xq : 'M[R]_(m, d)) mu a b : ck_predict_lf lo hi o Xq = Ok mu ->
  ck_predict_lf lo hi (rescale_ck a b o) Xq = Ok (aff a b mu).
Proof.
rewrite /ck_predict_lf /=; case: (ck_model o) => [t|//] /= [<-]. congr Ok; apply/matrixP => i j; rewrite !mxE; toR; ring.
Qed.
Lemma ck_predict_std_units m (o o1 : ck d) (Xq : 'M[R]_(m, d)) mu sd a b : (0 < a)%Re -> ck_predict_std lo hi o Xq = Ok (o1, (mu, sd)) ->
  exists o2, ck_predict_std lo hi (rescale_ck a b o) Xq = Ok (o2, (aff a b mu, \col_j Rmult a (sd j 0))).
Proof.
move=> Ha; rewrite /ck_predict_std [ck_model (rescale_ck _ _ _)]/=; case Et: (ck_model o) => [t|//] /=.
rewrite -[ck_cross (rescale_ck a b o) (rescale_ckt a b t) _]/(ck_cross o t (normalize_input lo hi Xq)).
case EP: (ck_predict _ _ _ _) => [mu'|//] /=; rewrite (ck_predict_units a b EP) /=.
case: (chol_solve _ _) => [u|//] /=. case: (ck_noise o) => [s|//] /= [_ <- <-].
eexists; congr (Ok (_, (_, _))). apply/matrixP => i j; rewrite [LHS]mxE [RHS]mxE [(\col__ _) i 0]mxE; toR.
set e := sqrt (Rmax _ _). set st := ct_std t.
have -> : Rplus (Rmult (Rmult e (Rmult a st)) (Rmult e (Rmult a st))) (Rmult (Rmult s (Rmult a st)) (Rmult s (Rmult a st))) =
  Rmult (Rmult a a) (Rplus (Rmult (Rmult e st) (Rmult e st)) (Rmult (Rmult s st) (Rmult s st))) by ring.
rewrite sqrt_mult_alt; last exact: Rle_0_sqr. rewrite sqrt_square //; lra.
Qed.
Lemma ck_equivariant nh nl m (o o' o1 : ck d) (Xh : 'M[R]_(nh, d)) (Yh : 'cV[R]_nh) (Xl : 'M[R]_(nl, d)) (Yl : 'cV[R]_nl) sl sh a b (Xq : 'M[R]_(m, d)) mu sd mul : (0 < a)%Re ->
  ck_train lo hi o Xh Yh Xl Yl sl sh = Ok o' -> ck_predict_std lo hi o' Xq = Ok (o1, (mu, sd)) -> ck_predict_lf lo hi o' Xq = Ok mul ->
  exists o2 o3, ck_train lo hi (MkCK (omap (Rmult a) (ck_noise o)) (ck_restart o) (ck_kernel o) (ck_lf o) (ck_model o))
        Xh (aff a b Yh) Xl (aff a b Yl) sl sh = Ok o2 /\
    ck_predict lo hi o2 Xq = Ok (aff a b mu) /\ ck_predict_lf lo hi o2 Xq = Ok (aff a b mul) /\
    ck_predict_std lo hi o2 Xq = Ok (o3, (aff a b mu, \col_j Rmult a (sd j 0))).
Proof.
move=> Ha Ht Hp Hl. have [o3 H3] := ck_predict_std_units b Ha Hp.
exists (rescale_ck a b o'), o3; split; first exact: ck_train_units. split; last by split=> //; exact: ck_predict_lf_units.
apply: ck_predict_units. move: Hp; rewrite /ck_predict_std; case: (ck_model o') => [t|//] /=.
case: (ck_predict _ _ _ _) => [mu'|//] /=. case: (chol_solve _ _) => [u|//] /=. by case: (ck_noise o') => [s|//] /= [_ <- _].
Qed.

(** the objective *)
Lemma ck_loglik_div n s (X : 'M[R]_(n, d)) (Y pred : 'cV[R]_n) ys k h : s <> R0 -> ys <> R0 ->
  ck_loglik (Some s) X Y pred ys k h = ck_loglik None X Y pred ys k (CKHyper (ch_rho h) (Rdiv s ys) (ch_theta h)).
Proof.
move=> Hs Hy; rewrite /ck_loglik /=. case: (ck_fit _ _) => [[[L mu] s2]|//] /=. by case: (Req_EM_T s 0).
Qed.
Lemma ck_loglik_zero n (X : 'M[R]_(n, d)) (Y pred : 'cV[R]_n) y1 y2 k h :
  ck_loglik (Some R0) X Y pred y1 k h = ck_loglik (Some R0) X Y pred y2 k h.
Proof. by rewrite /ck_loglik /= /Rdiv !Rmult_0_l. Qed.
Lemma ck_loglik_ext n s1 s2 (X : 'M[R]_(n, d)) (Y pred : 'cV[R]_n) y1 y2 k h : y1 <> R0 -> y2 <> R0 -> Rdiv s1 y1 = Rdiv s2 y2 ->
  ck_loglik (Some s1) X Y pred y1 k h = ck_loglik (Some s2) X Y pred y2 k h.
Proof.
move=> H1 H2 E; rewrite /ck_loglik E. case: (ck_fit _ _) => [[[L mu] v]|//] /=.
have E1 : s1 = Rmult (Rdiv s2 y2) y1 by rewrite -E; field.
have E2 : s2 = Rmult (Rdiv s1 y1) y2 by rewrite E; field.
case: (Req_EM_T s1 0) => [Z1|N1]; case: (Req_EM_T s2 0) => [Z2|N2] //=.
- by case: N2; rewrite E2 Z1 /Rdiv !Rmult_0_l.
- by case: N1; rewrite E1 Z2 /Rdiv !Rmult_0_l.
Qed.
Definition ck_objective n noise (X : 'M[R]_(n, d)) (Y pred : 'cV[R]_n) k h :=
  ck_loglik (omap (fun s => Rdiv s (stdev Y)) noise) (normalize_input lo hi X) (normalize_output Y) pred (stdev Y) k h.
Lemma ck_objective_units n noise (X : 'M[R]_(n, d)) (Y pred : 'cV[R]_n) k h a b : (0 < a)%Re -> stdev Y <> R0 ->
  ck_objective (omap (Rmult a) noise) X (aff a b Y) pred k h = ck_objective (omap (fun s => Rdiv s a) noise) X Y pred k h.
Proof.
move=> Ha Hy; have Hn := stdev_nz Hy; rewrite /ck_objective normalize_output_affine // (stdev_affine _ _ Hn (Rlt_le _ _ Ha)) ck_noise_units //.
case: noise => [s|] //=. apply: ck_loglik_ext => //; last by field; split=> //; lra.
move/Rmult_integral => [E|//]; lra.
Qed.
(** a numeric noise: what the search sees and what the fitted model has *)
Lemma ck_logp_noise nh nl (o o' : ck d) (Xh : 'M[R]_(nh, d)) (Yh : 'cV[R]_nh) (Xl : 'M[R]_(nl, d)) (Yl : 'cV[R]_nl) sl sh t s :
  ck_train lo hi o Xh Yh Xl Yl sl sh = Ok o' -> ck_model o' = Some t -> ck_noise o = Some s -> s <> R0 ->
  let pred := lgp_predict (ck_lf o') (ct_lf t) (normalize_input lo hi Xh) in
  let objective noise := ck_loglik noise (normalize_input lo hi Xh) (normalize_output Yh) pred (stdev Yh) (ck_kernel o) in
  (forall q, objective (Some (Rdiv s (stdev Yh))) q =
     objective None (CKHyper (ch_rho q) (Rdiv s (Rmult (stdev Yh) (stdev Yh))) (ch_theta q))) /\
  exists h, result_of sh (ck_restart o) h /\ ct_rho t = ch_rho h /\
    objective None (CKHyper (ch_rho h) (Rdiv s (stdev Yh)) (ch_theta h)) =
      Ok (Rplus (Ropp (ct_logp t)) (Rmult (Rdiv (INR nh) 2) (Rminus (ct_sigma2 t) (ln (ct_sigma2 t))))).
Proof.
move/ck_train_inv => [HY [lf [t' [h [L [LC [El [Eh [-> [EK _]]]]]]]]]] [<-] Hs Ns /=. split=> [q|].
  rewrite ck_loglik_div //; last by move=> E; apply: Ns; rewrite (_ : s = Rmult (Rdiv s (stdev Yh)) (stdev Yh)); [rewrite E Rmult_0_l | field].
  by congr (ck_loglik _ _ _ _ _ _ (CKHyper _ _ _)); field.
exists h; split; first exact: search_result Eh. split=> //.
set kernel := set_params _ _ in EK *. set K := noise_matrix _ _ _ in EK *. set D := _ - _.
have PK : posdef K by apply: kernel_noise_pos; exact: set_params_pos.
have [L' [EK' EF]] := ck_fit_ok D PK; move: EK'; rewrite EK => -[EL]; rewrite -EL in EF.
rewrite /ck_loglik kernel_callE [ch_sigma _]/=.
have -> : get_kernel_matrix kernel (normalize_input lo hi Xh) (normalize_input lo hi Xh) + (Rmult (Rdiv s (stdev Yh)) (Rdiv s (stdev Yh)))%:M = K.
  by rewrite /K /noise_matrix /ck_noise1 /ck_noise0 Hs.
rewrite -/D EF /= -/(ck_disc K D). congr Ok. field.
Qed.
End CK.

(** ** input units *)
Section Inputs.
Variables (d : nat) (lo hi c t : 'rV[R]_d).
Hypothesis Hs : space_ok lo hi.
Hypothesis Hc : forall k, c 0 k <> R0.
Local Notation affx Z := (\matrix_(i, k) Rplus (Rmult (c 0 k) (Z i k)) (t 0 k)).
Local Notation lo' := (\row_k Rplus (Rmult (c 0 k) (lo 0 k)) (t 0 k)).
Local Notation hi' := (\row_k Rplus (Rmult (c 0 k) (hi 0 k)) (t 0 k)).
Lemma nE n (X : 'M[R]_(n, d)) : normalize_input lo' hi' (affx X) = normalize_input lo hi X.
Proof. exact: normalize_input_affine. Qed.
Lemma gtE n (g : gp d 1) (X : 'M[R]_(n, d)) Y s : gp_train (@Ordinary d) lo' hi' g (affx X) Y s = gp_train (@Ordinary d) lo hi g X Y s.
Proof. by rewrite /gp_train nE. Qed.
Lemma gpE n (g : gp d 1) (X : 'M[R]_(n, d)) : gp_predict (@Ordinary d) lo' hi' g (affx X) = gp_predict (@Ordinary d) lo hi g X.
Proof. by rewrite /gp_predict nE. Qed.
Lemma gsE n (g : gp d 1) (X : 'M[R]_(n, d)) : gp_predict_std (@Ordinary d) lo' hi' g (affx X) = gp_predict_std (@Ordinary d) lo hi g X.
Proof. by rewrite /gp_predict_std gpE nE. Qed.
Lemma hk_inputs nh nl m (o : hk d) (Xh : 'M[R]_(nh, d)) (Yh : 'cV[R]_nh) (Xl : 'M[R]_(nl, d)) (Yl : 'cV[R]_nl) sl sh (Xq : 'M[R]_(m, d)) :
  hk_train lo' hi' o (affx Xh) Yh (affx Xl) Yl sl sh = hk_train lo hi o Xh Yh Xl Yl sl sh /\
  forall o', hk_predict lo' hi' o' (affx Xq) = hk_predict lo hi o' Xq /\ hk_predict_std lo' hi' o' (affx Xq) = hk_predict_std lo hi o' Xq.
Proof.
split; first by rewrite /hk_train gtE; case: (gp_train _ _ _ _ _ _ _) => [lf|//]; rewrite [LHS]/= [RHS]/= gpE nE.
move=> o'; have B t0 : hk_basis lo' hi' o' t0 (affx Xq) = hk_basis lo hi o' t0 Xq by rewrite /hk_basis gpE.
have P : hk_predict lo' hi' o' (affx Xq) = hk_predict lo hi o' Xq by rewrite /hk_predict; case: (hk_model o') => [t0|]; [rewrite B nE | ].
split; first exact: P. rewrite /hk_predict_std P; case: (hk_model o') => [t0|]; by [rewrite B nE | ].
Qed.
Lemma bumpsE n (g : gp d 1) (X : 'M[R]_(n, d)) Y P qs : sk_bumps lo' hi' g (affx X) Y P qs = sk_bumps lo hi g X Y P qs.
Proof. by elim: qs g => [|[rho s] qs IH] g //=; rewrite gtE; case: (gp_train _ _ _ _ _ _ _) => //= g'. Qed.
Lemma sk_inputs nh nl m (o : sk d) (Xh : 'M[R]_(nh, d)) (Yh : 'cV[R]_nh) (Xl : 'M[R]_(nl, d)) (Yl : 'cV[R]_nl) sl sr sh (Xq : 'M[R]_(m, d)) :
  sk_train lo' hi' o (affx Xh) Yh (affx Xl) Yl sl sr sh = sk_train lo hi o Xh Yh Xl Yl sl sr sh /\
  forall o', sk_predict lo' hi' o' (affx Xq) = sk_predict lo hi o' Xq /\ sk_predict_std lo' hi' o' (affx Xq) = sk_predict_std lo hi o' Xq.
Proof.
split; last by move=> o'; rewrite /sk_predict /sk_predict_std !gpE !gsE.
rewrite /sk_train gtE; case: (gp_train _ _ _ _ _ _ _) => [lf|//]; rewrite [LHS]/= [RHS]/= gpE; case: (gp_predict _ _ _ _ _) => [P|//]; rewrite [LHS]/= [RHS]/=.
have -> : sk_rho_optimize lo' hi' o (affx Xh) Yh P sr = sk_rho_optimize lo hi o Xh Yh P sr by rewrite /sk_rho_optimize; case: sr => // qs r; rewrite bumpsE.
by case: (sk_rho_optimize _ _ _ _ _ _ _) => [r|//]; rewrite [LHS]/= [RHS]/= gtE.
Qed.
Lemma ck_inputs nh nl m (o : ck d) (Xh : 'M[R]_(nh, d)) (Yh : 'cV[R]_nh) (Xl : 'M[R]_(nl, d)) (Yl : 'cV[R]_nl) sl sh (Xq : 'M[R]_(m, d)) :
  ck_train lo' hi' o (affx Xh) Yh (affx Xl) Yl sl sh = ck_train lo hi o Xh Yh Xl Yl sl sh /\
  forall o', ck_predict lo' hi' o' (affx Xq) = ck_predict lo hi o' Xq /\ ck_predict_std lo' hi' o' (affx Xq) = ck_predict_std lo hi o' Xq /\
    ck_predict_lf lo' hi' o' (affx Xq) = ck_predict_lf lo hi o' Xq /\ ck_predict_lf_std lo' hi' o' (affx Xq) = ck_predict_lf_std lo hi o' Xq.
Proof.
split; first by rewrite /ck_train !nE.
move=> o'; have P : ck_predict lo' hi' o' (affx Xq) = ck_predict lo hi o' Xq by rewrite /ck_predict !nE.
split; first exact: P. split; first by rewrite /ck_predict_std P !nE. split; [rewrite /ck_predict_lf nE; reflexivity | rewrite /ck_predict_lf_std nE; reflexivity].
Qed.
End Inputs.

(** ** the Co-Kriging objective with a numeric noise depends on the unit *)
Definition cu_X : 'M[R]_(2, 1) := \matrix_(i, j) (if i == 0 then 0%Re else 1%Re).
Definition cu_Y : 'cV[R]_2 := \col_i (if i == 0 then (-1)%Re else 1%Re).
Lemma cu_mean : mean cu_Y = 0%Re.
Proof. rewrite /mean !big_ord_recl !big_ord0 !mxE /=; toR; field. Qed.
Lemma cu_stdev : stdev cu_Y = 1%Re.
Proof. rewrite /stdev cu_mean !big_ord_recl !big_ord0 !mxE /= -[RHS]sqrt_1; congr sqrt; toR; field. Qed.
Lemma cu_norm : normalize_output cu_Y = cu_Y.
Proof. apply/matrixP => i j; rewrite /normalize_output cu_mean cu_stdev mxE [j]ord1; field. Qed.
(** the logarithm of the determinant grows with the diagonal *)
Lemma factor2 (K L : 'M[R]_2) p q : K^T = K -> chol K = Ok L -> K 0 0 = p -> K 1 0 = q -> K 1 1 = p ->
  [/\ (0 < L 0%R 0%R)%Re, (0 < L 1%R 1%R)%Re, Rmult (L 0 0) (L 0 0) = p & Rmult p (Rmult (L 1 1) (L 1 1)) = Rminus (Rmult p p) (Rmult q q)].
Proof.
move=> S E E0 E1 E2; have [F [_ [P T]]] := chol_ok S E.
have T01 : L 0 1 = 0 by move/is_trig_mxP: T => T; apply: T.
have H i j : K i j = Rplus (Rmult (L i 0) (L j 0)) (Rmult (L i 1) (L j 1)).
  by rewrite -F mxE !big_ord_recl big_ord0 addr0 !mxE (_ : lift ord0 ord0 = 1) //; exact: val_inj.
have H0 := H 0 0; have H1 := H 1 0; have H2 := H 1 1; rewrite E0 in H0; rewrite E1 in H1; rewrite E2 in H2; rewrite !T01 in H0 H1.
split; [exact: P | exact: P | |]; toR; rewrite ?RmultE; toR; move: H0 H1 H2; toR; set a := L 0 0; set b := L 1 0; set c := L 1 1 => H0 H1 H2.
  by rewrite H0; ring.
have -> : Rmult c c = Rminus p (Rmult b b) by rewrite H2; ring.
have -> : Rmult q q = Rmult (Rmult b b) (Rmult a a) by rewrite H1; ring.
have -> : Rmult a a = p by rewrite H0; ring.
ring.
Qed.
Lemma log_det_lt (K K' L L' : 'M[R]_2) p p' q : (q * q < p * p)%Re -> (0 < p < p')%Re -> K^T = K -> K'^T = K' -> chol K = Ok L -> chol K' = Ok L' ->
  K 0 0 = p -> K 1 0 = q -> K 1 1 = p -> K' 0 0 = p' -> K' 1 0 = q -> K' 1 1 = p' -> (sum_log_diag L < sum_log_diag L')%Re.
Proof.
move=> Hq Hp S S' E E' A1 A2 A3 B1 B2 B3.
have [a0 c0 Ea Ec] := factor2 S E A1 A2 A3. have [a0' c0' Ea' Ec'] := factor2 S' E' B1 B2 B3.
rewrite /sum_log_diag !big_ord_recl !big_ord0 !addr0 (_ : lift ord0 ord0 = 1); last exact: val_inj. toR.
have La : (L 0%R 0%R < L' 0%R 0%R)%Re by move: Ea Ea' a0 a0'; set a := L 0 0; set a' := L' 0 0 => *; nra.
have Lc : (L 1%R 1%R < L' 1%R 1%R)%Re.
  move: Ec Ec' c0 c0'; set c := L 1 1; set c' := L' 1 1 => Ec Ec' c0 c0'.
  have C : (c * c = p - q * q / p)%Re by apply: (Rmult_eq_reg_l p); [rewrite Ec; field; lra | lra].
  have C' : (c' * c' = p' - q * q / p')%Re by apply: (Rmult_eq_reg_l p'); [rewrite Ec'; field; lra | lra].
  have D : (q * q / p' <= q * q / p)%Re by apply: Rmult_le_compat_l; [exact: Rle_0_sqr | apply: Rinv_le_contravar; lra].
  have M : (c * c < c' * c')%Re by rewrite C C'; lra.
  by apply: Rsqr_incrst_0 => //; apply: Rlt_le.
have I1 := ln_increasing _ _ a0 La. have I2 := ln_increasing _ _ c0 Lc. exact: Rplus_lt_compat.
Qed.
Lemma cu_objective s : s <> R0 -> exists (K L : 'M[R]_2) p, K^T = K /\ chol K = Ok L /\ p = Rplus (Rplus 1 jitter) (Rmult s s) /\
  K 0 0 = p /\ K 1 0 = exp (-(1)) /\ K 1 1 = p /\
  ck_objective (0 : 'rV[R]_1) (const_mx 1) (Some s) cu_X cu_Y cu_Y (rbf_new 0) (CKHyper 1 0 0) = Ok (sum_log_diag L).
Proof.
move=> Hs; rewrite /ck_objective cu_norm cu_stdev /=.
have -> : normalize_input (0 : 'rV[R]_1) (const_mx 1) cu_X = cu_X.
  by apply/matrixP => i j; rewrite !mxE; toR; field.
have -> : Rdiv s 1 = s by field.
rewrite /ck_loglik kernel_callE /=. have -> : Rdiv s 1 = s by field.
rewrite -/(noise_matrix cu_X (set_params (rbf_new 0) 0) s). set K := noise_matrix _ _ _.
have PK : posdef K by apply: kernel_noise_pos; exact: set_params_pos.
have -> : cu_Y - 1 *: cu_Y = 0 by rewrite scale1r subrr.
have [L [EK EF]] := ck_fit_ok 0 PK. rewrite EF /=.
have Z : gls_mean K 0 = 0 by rewrite /gls_mean !mulmx0 mxE /Rdiv Rmult_0_l.
have E i j : K i j = Rplus (Rplus (exp (Ropp (wdist (pow10 0) (row i cu_X) (row j cu_X)))) (Rmult jitter (if i == j then 1%Re else 0%Re))) (if i == j then Rmult s s else 0%Re).
  rewrite /K /noise_matrix kernelE; last exact: set_params_pos. rewrite eyeE !mxE.
  by case: (i == j); rewrite ?mulr1n ?mulr0n.
have D i j : wdist (pow10 (0 : 'rV[R]_1)) (row i cu_X) (row j cu_X) = Rmult (Rminus (cu_X i 0) (cu_X j 0)) (Rminus (cu_X i 0) (cu_X j 0)).
  rewrite /wdist big_ord_recl big_ord0 addr0 /pow10 !mxE Rpower_O; last lra. by rewrite mul1r expr2.
exists K, L, (Rplus (Rplus 1 jitter) (Rmult s s)); split; first exact: PK.1. split; first exact: EK. split; first by [].
rewrite !E !D /cu_X !mxE /=. split; [|split; [|split]].
- by rewrite Rminus_0_r Rmult_0_l Ropp_0 exp_0 Rmult_1_r.
- rewrite Rmult_0_r !Rplus_0_r; congr exp; ring.
- by rewrite Rminus_diag_eq // Rmult_0_l Ropp_0 exp_0 Rmult_1_r.
rewrite Z subr0 /qf mulmx0 mxE /Rdiv Rmult_0_l. case: (Req_EM_T s 0) => // _ /=. congr Ok; ring.
Qed.
Lemma cu_depends : ck_objective (0 : 'rV[R]_1) (const_mx 1) (omap (Rmult 2) (Some 4%Re)) cu_X (aff 2 0 cu_Y) cu_Y (rbf_new 0) (CKHyper 1 0 0) <>
  ck_objective (0 : 'rV[R]_1) (const_mx 1) (Some 4%Re) cu_X cu_Y cu_Y (rbf_new 0) (CKHyper 1 0 0).
Proof.
have S1 : stdev cu_Y <> R0 by rewrite cu_stdev; exact: R1_neq_R0.
have H2 : (0 < 2)%Re by lra.
rewrite (ck_objective_units _ _ (Some 4%Re) _ _ _ _ _ H2 S1) /=.
have N1 : Rdiv 4 2 <> R0 by lra. have N2 : 4%Re <> R0 by lra.
have [K [L [p [S [E [Ep [A1 [A2 [A3 ->]]]]]]]]] := cu_objective N1.
have [K' [L' [p' [S' [E' [Ep' [B1 [B2 [B3 ->]]]]]]]]] := cu_objective N2.
have J := jitter_pos. have X1 := exp_pos (-(1)). have X2 : (exp (-(1)) < 1)%Re by rewrite -{2}exp_0; apply: exp_increasing; lra.
have := log_det_lt _ _ S S' E E' A1 A2 A3 B1 B2 B3. move=> H [Eq]. apply: (Rlt_irrefl (sum_log_diag L)).
rewrite {2}Eq; apply: H; rewrite ?Ep ?Ep'; [nra | lra].
Qed.

(** ** Hierarchical Kriging: units of the low-fidelity responses alone *)
Lemma normal_scale n p (K : 'M[R]_n) (F : 'M[R]_(n, p)) a : normal_mx K (a *: F) = (a * a) *: normal_mx K F.
Proof. by rewrite /normal_mx linearZ /= -scalemxAr -scalemxAr -scalemxAl scalerA. Qed.
Lemma fit_scaled n p (K : 'M[R]_n) (F : 'M[R]_(n, p)) (Y : 'cV[R]_n) k a : fit_spec K F Y k -> a != 0 ->
  exists k', krig_fit K (a *: F) Y = Ok k' /\ kr_L k' = kr_L k /\ kr_sigma2 k' = kr_sigma2 k /\
    (forall m (f : 'M[R]_(m, p)) knew, krig_mean k' (a *: f) knew = krig_mean k f knew) /\
    (forall m (f : 'M[R]_(m, p)) knew, krig_mse k' (a *: f) knew = krig_mse k f knew).
Proof.
move=> H Ha; have PK := fs_K H; have S := PK.1.
have FF : full_rank (a *: F).
  move=> x E; apply: (normal_full (fs_N H)). apply: (scalerI Ha); by rewrite scaler0 scalemxAl.
have [k' Ek'] := krig_fit_ok Y PK FF; have H' := krig_fit_spec S Ek'. exists k'; split=> //.
have UN := pos_unit (fs_N H).
have IN : invmx (normal_mx K (a *: F)) = (a^-1 * a^-1) *: invmx (normal_mx K F).
  by rewrite normal_scale invmxZ ?unitmxZ ?unitfE ?mulf_neq0 // invfM.
have EB : kr_beta k' = a^-1 *: kr_beta k.
  rewrite (fs_beta H') (fs_beta H) IN linearZ /= -!scalemxAl -!scalemxAr scalerA -mulrA mulVf // mulr1. by [].
have EFB : (a *: F) *m kr_beta k' = F *m kr_beta k by rewrite EB -scalemxAl -scalemxAr scalerA mulfV // scale1r.
have EG : kr_gamma k' = kr_gamma k by rewrite (fs_gamma H') (fs_gamma H) EFB.
have ES : kr_sigma2 k' = kr_sigma2 k by rewrite (fs_sigma2 H') (fs_sigma2 H) /gls EFB.
split; first by have := fs_L H'; rewrite (fs_L H) => -[].
split=> //; split=> m f knew.
  by rewrite /krig_mean EG EB -scalemxAl -scalemxAr scalerA mulfV // scale1r.
rewrite (fit_mse H') (fit_mse H) ES IN. congr Ok; apply/matrixP => i j; rewrite [LHS]mxE [RHS]mxE; congr (_ * (_ + _)).
have -> : (a *: f)^T - (a *: F)^T *m (invmx K *m knew) = a *: (f^T - F^T *m (invmx K *m knew)).
  by rewrite !linearZ /= -scalemxAl scalerBr.
set G := f^T - _. rewrite linearZ /= -!scalemxAl -!scalemxAr !scalerA.
have -> : a * (a^-1 * a^-1 * a) = 1 by rewrite -mulrA mulVf // mulr1 mulfV.
by rewrite scale1r.
Qed.
Section HKlf.
Variables (d : nat) (lo hi : 'rV[R]_d).
Lemma hk_loglik_basis n noise (X : 'M[R]_(n, d)) (Y : 'cV[R]_n) F ys k h a : full_rank F -> a != 0 ->
  hk_loglik noise X Y (a *: F) ys k h = hk_loglik noise X Y F ys k h.
Proof.
move=> HF Ha; rewrite /hk_loglik kernel_callE.
have PK := kernel_noise_pos X (if noise is Some s then Rdiv s ys else h_sigma h) (set_params_pos k (h_theta h)).
have [m Em] := krig_fit_ok Y PK HF. have [m' [Em' [EL [ES _]]]] := fit_scaled (krig_fit_spec PK.1 Em) Ha. by rewrite Em Em' /= EL ES.
Qed.
Lemma scaled_basis_lf m n (F0 : 'cV[R]_m) (Y : 'cV[R]_n) a :
  (\matrix_(i, j) Rdiv (Rminus ((aff a (Rmult (Rminus 1 a) (mean Y)) F0) i j) (mean Y)) (stdev Y) : 'M[R]_(m, 1)) =
  a *: \matrix_(i, j) Rdiv (Rminus (F0 i j) (mean Y)) (stdev Y).
Proof. by apply/matrixP => i j; rewrite !mxE !ord1; toR; rewrite /Rdiv; ring. Qed.
Lemma hk_lf_units nh nl m (o o' : hk d) (Xh : 'M[R]_(nh, d)) (Yh : 'cV[R]_nh) (Xl : 'M[R]_(nl, d)) (Yl : 'cV[R]_nl) sl sh a (Xq : 'M[R]_(m, d)) mu sd : (0 < a)%Re ->
  hk_train lo hi o Xh Yh Xl Yl sl sh = Ok o' -> hk_predict_std lo hi o' Xq = Ok (mu, sd) ->
  exists o2, hk_train lo hi (MkHK (hk_noise o) (hk_restart o) (hk_kernel o)
        (MkGP (omap (Rmult a) (gp_noise (hk_lf o))) (gp_restart (hk_lf o)) (gp_kernel (hk_lf o)) (gp_model (hk_lf o))) (hk_model o))
      Xh Yh Xl (aff a (Rmult (Rminus 1 a) (mean Yh)) Yl) sl sh = Ok o2 /\
    hk_noise o2 = hk_noise o' /\ hk_predict lo hi o2 Xq = Ok mu /\ hk_predict_std lo hi o2 Xq = Ok (mu, sd).
Proof.
move=> Ha Ht Hp. have Na : a != 0 by apply/eqP => E; rewrite E in Ha; exact: Rlt_irrefl Ha.
have [lf [F0 [h [k [El [HY [EP [Eh [Hf Eo]]]]]]]]] := hk_train_inv Ht.
set b := Rmult (Rminus 1 a) (mean Yh).
rewrite /hk_train [hk_lf _]/=.
have U : in_units a (hk_lf o) (MkGP (omap (Rmult a) (gp_noise (hk_lf o))) (gp_restart (hk_lf o)) (gp_kernel (hk_lf o)) (gp_model (hk_lf o))) by [].
rewrite (train_units b Ha U El) [bind _ _]/=. case: (Req_EM_T _ _) => [E|N]; first by case: HY.
rewrite (predict_rescale a b EP) [bind _ _]/= scaled_basis_lf -/(scale_col Yh F0).
have HF : full_rank (scale_col Yh F0) by exact: normal_full (fs_N Hf).
rewrite (hyper_search_ext _ _ (fun q => hk_loglik_basis _ _ _ _ _ q HF Na)) Eh [bind _ _]/=.
rewrite /hk_update /= -/(hk_new_noise o (stdev Yh) h).
rewrite -/(noise_matrix (normalize_input lo hi Xh) (set_params (hk_kernel o) (h_theta h)) (Rdiv (hk_new_noise o (stdev Yh) h) (stdev Yh))).
set K := noise_matrix _ _ _ in Hf Eo *.
have [k' [-> [EL [ES [EM ES2]]]]] := fit_scaled Hf Na. rewrite [bind _ _]/=.
move: Hp; rewrite {}Eo. set t := HKTrained _ _ _ _ _ _ k _.
rewrite /hk_predict_std /hk_predict /hk_basis /=.
case Eq: (gp_predict _ _ _ _ Xq) => [f0|//] /=.
case Em: (krig_mse k _ _) => [mse|//] /= [<- <-].
eexists; split; first reflexivity. rewrite [hk_noise _]/= [hk_model _]/= [hk_lf _]/= (predict_rescale a b Eq) /= scaled_basis_lf EM ES2 Em /=.
by [].
Qed.
End HKlf.

(** ** Hierarchical Kriging: the origin of the low-fidelity responses *)
Lemma predict_at d p (phi : 'rV[R]_d -> 'rV[R]_p) lo hi (o : gp d p) m m' (X : 'M[R]_(m, d)) (X' : 'M[R]_(m', d)) F F' (j : 'I_m) (j' : 'I_m') :
  gp_predict phi lo hi o X = Ok F -> gp_predict phi lo hi o X' = Ok F' -> (forall k, X j k = X' j' k) -> j = j' :> nat -> F j 0 = F' j' 0.
Proof.
rewrite /gp_predict; case: (gp_model o) => [t|//] [<-] [<-] HX Hj; rewrite [LHS]mxE [RHS]mxE; congr (Rplus (Rmult _ _) _).
have HN : row j (normalize_input lo hi X) = row j' (normalize_input lo hi X') by apply/matrixP => i k; rewrite !mxE HX.
rewrite /krig_mean !addE; congr (_ + _).
  rewrite !mxE; apply: eq_bigr => i _; congr (_ * _); rewrite /regr_matrix !mxE. by rewrite HN.
rewrite !mxE; apply: eq_bigr => i _; congr (_ * _); rewrite !mxE HN Hj. by [].
Qed.
Definition su_Xl : 'M[R]_(3, 1) := \matrix_(i, k) INR i.
Definition su_Yl : 'cV[R]_3 := \col_i (if i == ord_max then 0%Re else 1%Re).
Definition su_Xh : 'M[R]_(2, 1) := \matrix_(i, k) INR i.
Definition su_Yh : 'cV[R]_2 := \col_i (2 * INR i)%Re.
Definition su_search : search (hyper 1) := Evolution [::] (Hyper 0 1).
Lemma su_mean : mean su_Yh = 1%Re.
Proof. rewrite /mean !big_ord_recl !big_ord0 !mxE /=; toR; field. Qed.
Lemma su_shift : let train b := hk_train (0 : 'rV[R]_1) (const_mx 1) (hk_new 1 (Some R0) 0) su_Xh su_Yh su_Xl (aff 1 b su_Yl) su_search su_search in
  (forall o, train R0 <> Ok o) /\ exists o, train 1%Re = Ok o.
Proof.
move=> train.
have Vl b : ~ constant (aff 1 b su_Yl).
  by move=> E; have := E 0 ord_max; rewrite !mxE eqxx /=; toR; lra.
have Vh : ~ constant su_Yh by move=> E; have := E 0 ord_max; rewrite !mxE /=; toR; lra.
have T b : exists lf F0, gp_train (@Ordinary 1) 0 (const_mx 1) (hk_lf (hk_new 1 (Some R0) 0)) su_Xl (aff 1 b su_Yl) su_search = Ok lf /\
   gp_predict (@Ordinary 1) 0 (const_mx 1) lf su_Xh = Ok F0 /\ ((exists o', train b = Ok o') <-> exists i, F0 i 0 <> mean su_Yh).
  by apply: hk_train_iff.
have P b lf F0 : gp_train (@Ordinary 1) 0 (const_mx 1) (hk_lf (hk_new 1 (Some R0) 0)) su_Xl (aff 1 b su_Yl) su_search = Ok lf ->
   gp_predict (@Ordinary 1) 0 (const_mx 1) lf su_Xh = Ok F0 -> forall i, F0 i 0 = Rplus 1 b.
  move=> Et Ep i. have [Ei _] := gp_interpolates (erefl : gp_noise (hk_lf (hk_new 1 (Some R0) 0)) = Some R0) Et.
  rewrite (predict_at (j' := widen_ord (isT : (2 <= 3)%N) i) Ep Ei) //; last by move=> k; rewrite !mxE.
  by rewrite !mxE; case: i => -[|[|//]] ? /=; lra.
split=> [o E|].
  have [lf [F0 [E1 [E2 [H _]]]]] := T R0. have [i N] := H (ex_intro _ _ E). apply: N. by rewrite (P _ _ _ E1 E2) su_mean Rplus_0_r.
have [lf [F0 [E1 [E2 [_ H]]]]] := T 1%Re. apply: H; exists 0. rewrite (P _ _ _ E1 E2) su_mean. lra.
Qed.

(** ** the objectives at the level of the data *)
Lemma gp_objective_units d p (phi : 'rV[R]_d -> 'rV[R]_p) n noise (X : 'M[R]_(n, d)) (Y : 'cV[R]_n) k h a b : (0 < a)%Re -> ~ constant Y ->
  loglik phi (omap (Rmult a) noise) X (normalize_output (aff a b Y)) (stdev (aff a b Y)) k h = loglik phi noise X (normalize_output Y) (stdev Y) k h.
Proof.
move=> Ha /nonconstant HY; have Hn := stdev_nz HY; rewrite normalize_output_affine // (stdev_affine _ _ Hn (Rlt_le _ _ Ha)).
exact: loglik_rescale.
Qed.
Lemma hk_objective_units d n noise (X : 'M[R]_(n, d)) (Y F0 : 'cV[R]_n) k h a b : (0 < a)%Re -> ~ constant Y ->
  let basis (Y F0 : 'cV[R]_n) := \matrix_(i, j) Rdiv (Rminus (F0 i j) (mean Y)) (stdev Y) in
  hk_loglik (omap (Rmult a) noise) X (normalize_output (aff a b Y)) (basis (aff a b Y) (aff a b F0)) (stdev (aff a b Y)) k h =
  hk_loglik noise X (normalize_output Y) (basis Y F0) (stdev Y) k h.
Proof.
move=> Ha /nonconstant HY basis; have Hn := stdev_nz HY; rewrite /basis normalize_output_affine // (mean_affine _ _ _ Hn) (stdev_affine _ _ Hn (Rlt_le _ _ Ha)).
rewrite (scaled_basis _ _ Ha HY). exact: hk_loglik_rescale.
Qed.
Lemma ck_objective_data d n noise (X : 'M[R]_(n, d)) (Y pred : 'cV[R]_n) k h a b : (0 < a)%Re -> ~ constant Y ->
  let objective noise (Y : 'cV[R]_n) := ck_loglik (omap (fun s => Rdiv s (stdev Y)) noise) X (normalize_output Y) pred (stdev Y) k h in
  objective (omap (Rmult a) noise) (aff a b Y) = objective (omap (fun s => Rdiv s a) noise) Y /\
  (noise = None \/ noise = Some R0 -> objective (omap (Rmult a) noise) (aff a b Y) = objective noise Y).
Proof.
move=> Ha /nonconstant Hy objective; have Hn := stdev_nz Hy.
have E : objective (omap (Rmult a) noise) (aff a b Y) = objective (omap (fun s => Rdiv s a) noise) Y.
  rewrite /objective normalize_output_affine // (stdev_affine _ _ Hn (Rlt_le _ _ Ha)) ck_noise_units //.
  case: noise => [s|] //=. apply: ck_loglik_ext => //; last by field; split=> //; lra.
  move/Rmult_integral => [E|//]; lra.
split=> //; rewrite {}E => -[->|->] //=. by rewrite /Rdiv Rmult_0_l.
Qed.
Lemma ck_objective_differs : ~ forall d n noise (X : 'M[R]_(n, d)) (Y pred : 'cV[R]_n) k h a b, (0 < a)%Re -> ~ constant Y ->
  let objective noise (Y : 'cV[R]_n) := ck_loglik (omap (fun s => Rdiv s (stdev Y)) noise) X (normalize_output Y) pred (stdev Y) k h in
  objective (omap (Rmult a) noise) (aff a b Y) = objective noise Y.
Proof.
move=> H; apply: cu_depends; rewrite /ck_objective. apply: H; first lra.
by move=> E; have := E 0 1; rewrite !mxE /=; toR; lra.
Qed.
Lemma hk_origin : ~ forall d (lo hi : 'rV[R]_d) nh nl (o o' : hk d) (Xh : 'M[R]_(nh, d)) (Yh : 'cV[R]_nh) (Xl : 'M[R]_(nl, d)) (Yl : 'cV[R]_nl) sl sh b,
  hk_train lo hi o Xh Yh Xl Yl sl sh = Ok o' ->
  exists o2, hk_train lo hi o Xh Yh Xl (\col_i Rplus (Yl i 0) b) sl sh = Ok o2.
Proof.
move=> H; have [N [o1 E]] := su_shift. have [o2 E2] := H _ _ _ _ _ _ _ _ _ _ _ _ _ (-(1))%Re E. apply: (N o2); rewrite -E2.
congr (hk_train _ _ _ _ _ _ _ _ _). apply/matrixP => i j; rewrite !mxE; toR; ring.
Qed.
Lemma error_scale n (P Y : 'cV[R]_n) (a rho : R) :
  sk_eval_error (\col_i Rmult a (P i 0)) (\col_i Rmult a (Y i 0)) rho = Rmult (Rmult a a) (sk_eval_error P Y rho).
Proof. rewrite /sk_eval_error RmultE mulr_sumr; apply: eq_bigr => i _; rewrite !mxE; toR; ring. Qed.
Lemma error_origin : ~ forall n (P Y : 'cV[R]_n) (best b : R), (forall rho, (sk_eval_error P Y best <= sk_eval_error P Y rho)%Re) ->
  forall rho : R, (sk_eval_error (\col_i Rplus (P i 0%R) b) (\col_i Rplus (Y i 0%R) b) best <= sk_eval_error (\col_i Rplus (P i 0%R) b) (\col_i Rplus (Y i 0%R) b) rho)%Re.
Proof.
move=> H; have [M L] := error_shift. have := H _ _ _ _ 1%Re M (7 / 5)%Re. apply: Rlt_not_le.
have E (Z : 'cV[R]_2) : \col_i Rplus (Z i 0) 1 = aff 1 1 Z by apply/matrixP => i j; rewrite !mxE Rmult_1_l.
by rewrite !E.
Qed.
Lemma sk_predict_both d (lo hi : 'rV[R]_d) nh nl m (o o' : sk d) (Xh : 'M[R]_(nh, d)) (Yh : 'cV[R]_nh) (Xl : 'M[R]_(nl, d)) (Yl : 'cV[R]_nl) sl sr sh (Xq : 'M[R]_(m, d)) :
  sk_train lo hi o Xh Yh Xl Yl sl sr sh = Ok o' -> exists mu mu1 sd, sk_predict_std lo hi o' Xq = Ok (mu, sd) /\ sk_predict lo hi o' Xq = Ok mu1.
Proof.
rewrite /sk_train; case E1: (gp_train _ _ _ _ _ _ _) => [lf|//] /=; case: (gp_predict _ _ _ _ _) => [P|//] /=.
case: (sk_rho_optimize _ _ _ _ _ _ _) => [r|//] /=; case E2: (gp_train _ _ _ _ _ _ _) => [g|//] /= [<-].
have [m1 [s1 [H1 H2]]] := gp_predict_ok Xq E1. have [m2 [s2 [H3 H4]]] := gp_predict_ok Xq E2.
rewrite /sk_predict_std /sk_predict [sk_lf _]/= [sk_disc _]/= H1 H2 H3 H4 /=. by do 3 eexists.
Qed.
