(** Proofs: acquisition functions in other units. *)
From Coq Require Import Reals Lra FunctionalExtensionality.
From Coquelicot Require Import Coquelicot.
From Verif Require Import Fl Normal NormalFacts AcqSpec AcqReal.
From mathcomp Require Import all_ssreflect all_algebra.
From Verif Require Import RStruct LinAlg LinSpec LinAlgFacts Kernel KernelFacts Krig KrigFacts GP GPSpec GPFacts GPMain MF MFSpec MFMain MFUnits Acq AcqSpecM AcqFacts AcqUnitsSpec.
Set Implicit Arguments.
Unset Strict Implicit.
Unset Printing Implicit Defensive.
Import GRing.Theory.
Local Open Scope ring_scope.

Lemma afterE {A B} (r : result A) (f : A -> B) v : r = Ok v -> after r f = Ok (f v). Proof. by move=> ->. Qed.
(** ** argmin *)
Lemma first_min_shift n (u : 'cV[R]_n) a b : (0 < a)%Re -> first_min (shifted a b u) = first_min u.
Proof.
move=> Ha; rewrite /first_min. have G l (k : option 'I_n) : foldl (min_step (shifted a b u)) k l = foldl (min_step u) k l; last exact: G.
elim: l k => [|i l IH] k //=.
rewrite -IH; congr foldl. case: k => [k|//]. rewrite /min_step !mxE.
by case: Rlt_dec => L; case: Rlt_dec => L' //; exfalso; nra.
Qed.
Lemma col_min_shift n (u : 'cV[R]_n) a b : (0 < a)%Re -> col_min (shifted a b u) = after (col_min u) (fun v => Rplus (Rmult a v) b).
Proof. by move=> Ha; rewrite /col_min first_min_shift //; case: (first_min u) => [i|//] /=; rewrite mxE. Qed.

(** ** one objective *)
Lemma lcb_units d m (predict : predictor d) k0 k1 (x : 'M[R]_(m, d)) a b :
  lcb_eval (rescaled a b predict) k0 k1 x = after (lcb_eval predict k0 k1 x) (fun v => shifted a (Rmult k0 b) v).
Proof.
rewrite /lcb_eval /rescaled; case: (predict m x) => [[mu sd]|//] /=. congr Ok. apply/matrixP => j l; rewrite !mxE.
toR; ring.
Qed.
Lemma improvement_shift o f m s b : improvement o (Rplus f b) (Rplus m b) s = improvement o f m s.
Proof. rewrite /improvement. by have -> : Rminus (Rplus f b) (Rplus m b) = Rminus f m by ring. Qed.
Lemma ei_origin d n m (predict : predictor d) (y : 'cV[R]_n) (x : 'M[R]_(m, d)) b :
  ei_eval (rescaled 1 b predict) (shifted 1 b y) x = ei_eval predict y x.
Proof.
rewrite /ei_eval col_min_shift; last lra. case: (col_min y) => [f|//] /=. rewrite /rescaled; case: (predict m x) => [[mu sd]|//] /=.
congr Ok. apply/matrixP => j l; rewrite !mxE. congr Ropp.
rewrite !Rmult_1_l improvement_shift. by rewrite Rplus_0_r.
Qed.
Lemma cei_origin d n m (predict : predictor d) (y : 'cV[R]_n) cons (x : 'M[R]_(m, d)) b :
  cei_eval (rescaled 1 b predict) (shifted 1 b y) cons x = cei_eval predict y cons x.
Proof.
rewrite /cei_eval /cei_ei col_min_shift; last lra. case: (col_min y) => [f|//] /=. rewrite /rescaled; case: (predict m x) => [[mu sd]|//] /=.
case: (cei_pof cons x) => [pof|//] /=; congr Ok. apply/matrixP => j l; rewrite !mxE. congr (Rmult (Ropp _) _).
by rewrite !Rmult_1_l improvement_shift Rplus_0_r.
Qed.
Lemma pi_units d n m (predict : predictor d) (y : 'cV[R]_n) (x : 'M[R]_(m, d)) a b V f mu sd : (0 < a)%Re ->
  pi_eval (rescaled a b predict) (shifted a b y) x = Ok V -> least y f -> predict m x = Ok (mu, sd) -> (forall j, (0 <= sd j 0%R)%Re) ->
  forall j, prob_below (mu j 0) (Rplus (sd j 0) (Rdiv (/ 10 ^ 9) a)) f (Ropp (V j 0)).
Proof.
move=> Ha E Lf Hp Hs; move: E; rewrite /pi_eval col_min_shift // (col_min_least Lf) /= /rescaled Hp /= => -[<-] j. rewrite !mxE.
have -> (z : R) : Ropp (Ropp z) = z by exact: Ropp_involutive.
have P := Hs j. have O := offset9_pos. rewrite -/offset9.
have -> : Rdiv (Rminus (Rplus (Rmult a f) b) (Rplus (Rmult a (mu j 0)) b)) (Rplus (Rplus (Rmult a (sd j 0)) 0) offset9) = Rdiv (Rminus f (mu j 0)) (Rplus (sd j 0) (Rdiv offset9 a)).
  field; split; [have := Rdiv_lt_0_compat _ _ O Ha; nra|nra].
apply: prob_cdf. have := Rdiv_lt_0_compat _ _ O Ha; lra.
Qed.
(** expected improvement scales *)
Lemma ei_scale f m s v a b : (0 < a)%Re -> expected_improvement f m s v ->
  expected_improvement (Rplus (Rmult a f) b) (Rplus (Rmult a m) b) (Rmult a s) (Rmult a v).
Proof.
move=> Ha H; case: (ei_value _ _ _ _ H) => -[P E]; rewrite E.
  have -> : Rmult a (ei_exact (Rminus f m) s) = improvement 0 (Rplus (Rmult a f) b) (Rplus (Rmult a m) b) (Rmult a s).
    rewrite /improvement /ei_exact.
    have -> : Rminus (Rplus (Rmult a f) b) (Rplus (Rmult a m) b) = Rmult a (Rminus f m) by ring.
    have -> : Rdiv (Rmult a (Rminus f m)) (Rplus (Rmult a s) 0) = Rdiv (Rminus f m) s by field; lra.
    ring.
  apply: improvement0. exact: Rmult_lt_0_compat.
right; split; first by rewrite P; ring.
have -> : Rminus (Rplus (Rmult a f) b) (Rplus (Rmult a m) b) = Rmult a (Rminus f m) by ring.
rewrite -{2}(Rmult_0_r a) RmaxRmult //; lra.
Qed.
Lemma ei_units d n m (predict : predictor d) (y : 'cV[R]_n.+1) (x : 'M[R]_(m, d)) a b : (0 < a)%Re -> answers predict ->
  exists V V', ei_eval predict y x = Ok V /\ ei_eval (rescaled a b predict) (shifted a b y) x = Ok V' /\
  forall j, (Rabs (V' j 0%R - a * V j 0%R) <= (1 + a) * (/ 10 ^ 9 / 2))%Re.
Proof.
move=> Ha A. have A' : answers (rescaled a b predict).
  move=> q z; have [mu [sd [E P]]] := A q z. exists (shifted a b mu), (shifted a 0 sd). rewrite /rescaled E; split=> // j.
  rewrite mxE. have := P j; nra.
have [V [f [mu [sd [EV [L [Ep H]]]]]]] := ei_eval_spec y x A.
have [V' [f' [mu' [sd' [EV' [L' [Ep' H']]]]]]] := ei_eval_spec (shifted a b y) x A'.
exists V, V'; split=> //; split=> // j.
have [v [Hv [B _]]] := H j. have [v' [Hv' [B' _]]] := H' j.
have Ef : f' = Rplus (Rmult a f) b.
  have := col_min_least L'; rewrite col_min_shift // (col_min_least L) /= => -[]. by [].
move: Ep'; rewrite /rescaled Ep /= => -[Em Es].
have Ev : v' = Rmult a v.
  apply: (ei_unique _ _ _ _ _ Hv'). have := ei_scale b Ha Hv. rewrite -Em -Es Ef !mxE. by rewrite Rplus_0_r.
rewrite Ev in B'. move: B B'; move: (V j 0) (V' j 0) (/ 10 ^ 9 / 2)%Re => p q e B B'.
have -> : Rminus q (Rmult a p) = Rplus (Rplus q (Rmult a v)) (Ropp (Rmult a (Rplus p v))) by ring.
apply: Rle_trans (Rabs_triang _ _) _. rewrite Rabs_Ropp Rabs_mult (Rabs_pos_eq a); last lra. nra.
Qed.

(** ** two fidelities *)
Lemma vflcb_units d m (s : surrogate d) k0 k1 cr fid (x : 'M[R]_(m, d)) a b :
  vflcb_eval (rescaled_surrogate a b s) k0 k1 cr fid x = after (vflcb_eval s k0 k1 cr fid x) (fun v => shifted a (Rmult k0 b) v).
Proof.
rewrite /vflcb_eval /= /rescaled; case: (su_predict_std s x) => [[mu sd]|//] /=. case: (su_predict_lf_std s x) => [[mul sdl]|//] /=.
case: fid => [|[|//]] /=; congr Ok; apply/matrixP => j l; rewrite !mxE; toR; ring.
Qed.
Lemma vfei_origin d m (s : surrogate d) fmin fid (x : 'M[R]_(m, d)) b :
  vfei_eval (rescaled_surrogate 1 b s) (Rplus fmin b) fid x = vfei_eval s fmin fid x.
Proof.
rewrite /vfei_eval /=; case: (su_hierarchical s) => //. rewrite /rescaled; case: (su_predict_std s x) => [[mu sd]|//] /=.
case: fid => [|[|//]] /=.
  congr Ok; apply/matrixP => j l; rewrite !mxE. by rewrite !Rmult_1_l improvement_shift Rplus_0_r.
case: (su_predict_lf_std s x) => [[mul sdl]|//] /=. case: (su_beta s) => [be|//] /=.
congr Ok; apply/matrixP => j l; rewrite !mxE. by rewrite !Rmult_1_l improvement_shift !Rplus_0_r.
Qed.
Lemma vfei_units d m (s : surrogate d) fmin (x : 'M[R]_(m, d)) a b : (0 < a)%Re -> surrogate_answers s -> su_hierarchical s -> spread a s x ->
  exists V V', vfei_eval s fmin 0 x = Ok V /\ vfei_eval (rescaled_surrogate a b s) (Rplus (Rmult a fmin) b) 0 x = Ok V' /\
  forall j, (Rabs (V' j 0%R - a * V j 0%R) <= (1 + a) * (/ 10 ^ 8 / 2))%Re.
Proof.
move=> Ha [A _] Hh Hsp. have [mu [sd [Ep Hs]]] := A m x. have S := Hsp _ _ Ep.
rewrite /vfei_eval /= Hh /rescaled Ep /=. eexists; eexists; split; first reflexivity. split; first reflexivity.
move=> j; rewrite !mxE !Rplus_0_r. have [H1 H2] := S j. rewrite -/float_eps in H1 H2.
case: Rlt_dec => L; first lra. case: Rlt_dec => L'; first lra. rewrite -/offset8.
have C f u (t : R) : (0 <= t)%Re -> exists v, expected_improvement f u t v /\ (Rabs (- improvement offset8 f u t + v) <= offset8 / 2)%Re.
  move=> Ht; have [v Hv] := ei_exists f u _ Ht. exists v; split=> //. have := ei_close _ _ _ _ _ offset8_pos Hv. cbv zeta.
  have H := half_offset offset8_pos. rewrite /improvement. set q := Rplus (Rmult _ _) _ => -[[K1 K2] K3]. apply: Rabs_le; lra.
have [v [Hv B]] := C fmin (mu j 0) (sd j 0) (Hs j).
have P : (0 <= a * sd j 0%R)%Re by apply: Rmult_le_pos; [lra|exact: Hs].
have [v' [Hv' B']] := C (Rplus (Rmult a fmin) b) (Rplus (Rmult a (mu j 0)) b) (Rmult a (sd j 0)) P.
have Ev : v' = Rmult a v by apply: (ei_unique _ _ _ _ _ Hv'); exact: ei_scale.
rewrite Ev in B'. rewrite /offset8 in B B' *. move: B B'. set p := Ropp (improvement _ fmin _ _). set q := Ropp (improvement _ _ _ _). move: p q (Rdiv (/ 10 ^ 8) 2) => p q e B B'.
have -> : Rminus q (Rmult a p) = Rplus (Rplus q (Rmult a v)) (Ropp (Rmult a (Rplus p v))) by ring.
apply: Rle_trans (Rabs_triang _ _) _. rewrite Rabs_Ropp Rabs_mult (Rabs_pos_eq a); last lra. nra.
Qed.
Lemma best_units d (s : surrogate d) a b : (0 < a)%Re -> effective_best (rescaled_surrogate a b s) = effective_best s.
Proof.
move=> Ha; rewrite /effective_best /= /rescaled; case: (su_predict_std s _) => [[mu sd]|//] /=.
have -> : (\col_j Rplus (shifted a b mu j 0) (Rmult 1 (shifted a 0 sd j 0))) = shifted a b (\col_j Rplus (mu j 0) (Rmult 1 (sd j 0))).
  apply/matrixP => j l; rewrite !mxE; toR; ring.
by rewrite first_min_shift.
Qed.
Lemma corr_units d m (s : surrogate d) fid (x : 'M[R]_(m, d)) a b : (0 < a)%Re -> mf_corr (rescaled_surrogate a b s) fid x = mf_corr s fid x.
Proof.
move=> Ha; case: fid => [|[|//]] //=. rewrite /rescaled; case: (su_predict_std s _) => [[mu sd]|//] /=.
case: (su_predict_lf_std s _) => [[mul sdl]|//] /=. congr Ok; apply: functional_extensionality => j; rewrite !mxE.
have -> : Rminus (Rplus (Rmult a (mu j 0)) b) (Rplus (Rmult a (mul j 0)) b) = Rmult a (Rminus (mu j 0) (mul j 0)) by ring.
rewrite Rabs_mult (Rabs_pos_eq a); last lra. rewrite !Rplus_0_r -Rmult_plus_distr_l.
case: (Req_EM_T _ _) => [E|N]; case: (Req_EM_T _ _) => [E'|N'].
- by [].
- by case: (Rmult_integral _ _ E) => Z; [exfalso; lra|].
- by case: N; rewrite E' Rmult_0_r.
- congr Some. by field; split=> //; lra.
Qed.
Lemma improvement_units f m s a b : (0 < a)%Re -> s <> R0 ->
  improvement 0 (Rplus (Rmult a f) b) (Rplus (Rmult a m) b) (Rmult a s) = Rmult a (improvement 0 f m s).
Proof.
move=> Ha Hs; rewrite /improvement.
have -> : Rminus (Rplus (Rmult a f) b) (Rplus (Rmult a m) b) = Rmult a (Rminus f m) by ring.
have -> : Rdiv (Rmult a (Rminus f m)) (Rplus (Rmult a s) 0) = Rdiv (Rminus f m) (Rplus s 0) by rewrite !Rplus_0_r; field; split=> //; lra.
ring.
Qed.
Lemma aei_units d m (s : surrogate d) cr fid (x : 'M[R]_(m, d)) a b : (0 < a)%Re -> spread a s x ->
  aei_eval (rescaled_surrogate a b s) cr fid x = after (aei_eval s cr fid x) (fun A j => omap (Rmult a) (A j)).
Proof.
move=> Ha; rewrite /spread /aei_eval best_units // corr_units //= {1}/rescaled; case: (su_predict_std s x) => [[mu sd]|//] /= H.
case: (effective_best s) => [xb|//] /=. case: (su_predict s xb) => [fm|//] /=. case: (mf_corr s fid x) => [al|//] /=.
congr Ok; apply: functional_extensionality => j. case: (al j) => [c|//] /=. congr Some.
have [H1 H2] := H _ _ erefl j. rewrite -/float_eps in H1 H2. rewrite !mxE Rplus_0_r.
case: Rlt_dec => L; first lra. case: Rlt_dec => L'; first lra.
rewrite improvement_units //; last by have := eps_pos; lra. move: (improvement _ _ _ _) => q. toR. by case: fid => [|k]; ring.
Qed.
Lemma epi_units d m (s : surrogate d) fmin cr fid (x : 'M[R]_(m, d)) a b : (0 < a)%Re -> spread a s x ->
  epi_eval (rescaled_surrogate a b s) (Rplus (Rmult a fmin) b) cr fid x = epi_eval s fmin cr fid x.
Proof.
move=> Ha; rewrite /spread /epi_eval corr_units //= {1}/rescaled; case: (su_predict_std s x) => [[mu sd]|//] /= H.
case: (mf_corr s fid x) => [al|//] /=. rewrite {1}/crowding -/(crowding s fid x).
case: (crowding s fid x) => [eta|//] /=. congr Ok; apply: functional_extensionality => i; apply: functional_extensionality => j.
case: (al i) => [c|//] /=. congr (Some (Rmult (Rmult (Rmult (Ropp _) _) _) _)). have [H1 H2] := H _ _ erefl i. rewrite -/float_eps in H1 H2. rewrite !mxE Rplus_0_r.
case: Rlt_dec => L; first lra. case: Rlt_dec => L'; first lra. congr norm_cdf. field. have := eps_pos; split; lra.
Qed.

(** ** surrogates of the package *)
Lemma gp_rescaled d p (phi : 'rV[R]_d -> 'rV[R]_p) (lo hi : 'rV[R]_d) n (o o' : gp d p) (X : 'M[R]_(n, d)) (Y : 'cV[R]_n) s a b : (0 < a)%Re ->
  gp_train phi lo hi o X Y s = Ok o' ->
  exists o2, gp_train phi lo hi (MkGP (omap (Rmult a) (gp_noise o)) (gp_restart o) (gp_kernel o) (gp_model o)) X (shifted a b Y) s = Ok o2 /\
  forall m (x : 'M[R]_(m, d)), gp_predict_std phi lo hi o2 x = rescaled a b (fun m => @gp_predict_std d p phi lo hi m o') x.
Proof.
move=> Ha Ht. have A := gp_answers Ht.
have [mu0 [sd0 [E0 _]]] := A 0%N (const_mx 0).
have [o2 [T2 _]] := gp_equivariant b Ha Ht E0. exists o2; split; first exact: T2.
move=> m x; have [mu [sd [E _]]] := A m x. have [o3 [T3 [_ [_ E3]]]] := gp_equivariant b Ha Ht E.
have Eo : o3 = o2 by move: T3; rewrite T2 => -[]. rewrite -Eo E3 /rescaled E /=. congr (Ok (_, _)).
by apply/matrixP => j l; rewrite !mxE Rplus_0_r.
Qed.
Lemma hk_rescaled d (lo hi : 'rV[R]_d) nh nl (o o' : hk d) (Xh : 'M[R]_(nh, d)) (Yh : 'cV[R]_nh) (Xl : 'M[R]_(nl, d)) (Yl : 'cV[R]_nl) sl sh a b : (0 < a)%Re ->
  hk_train lo hi o Xh Yh Xl Yl sl sh = Ok o' ->
  exists o2, hk_train lo hi (MkHK (omap (Rmult a) (hk_noise o)) (hk_restart o) (hk_kernel o)
        (MkGP (omap (Rmult a) (gp_noise (hk_lf o))) (gp_restart (hk_lf o)) (gp_kernel (hk_lf o)) (gp_model (hk_lf o))) (hk_model o))
      Xh (shifted a b Yh) Xl (shifted a b Yl) sl sh = Ok o2 /\
  hk_surrogate lo hi o2 Xh Xl = rescaled_surrogate a b (hk_surrogate lo hi o' Xh Xl).
Proof.
move=> Ha Ht. have [A [B C]] := hk_answers Ht.
have T2 := hk_train_rescale b Ha Ht. exists (rescale_hk a b o'); split.
  by move: T2; rewrite /hk_train /rescale_hk /=.
have P m (x : 'M[R]_(m, d)) mu sd : hk_predict_std lo hi o' x = Ok (mu, sd) -> 
    hk_predict lo hi (rescale_hk a b o') x = Ok (shifted a b mu) /\ hk_predict_std lo hi (rescale_hk a b o') x = Ok (shifted a b mu, shifted a 0 sd) /\ hk_predict lo hi o' x = Ok mu.
  move=> E. have [o3 [T3 [_ [E3 E4]]]] := hk_equivariant b Ha Ht E.
  have Eo : o3 = rescale_hk a b o' by move: T3 T2; rewrite /hk_train /rescale_hk /= => -> [].
  rewrite -Eo E3 E4; split; first by []. split.
    by congr (Ok (_, _)); apply/matrixP => j l; rewrite !mxE Rplus_0_r.
  move: E; rewrite /hk_predict_std; case: (hk_model o') => [t|//] /=. case: (hk_predict lo hi o' x) => [mu'|//] /=.
  case: (hk_basis lo hi o' t x) => [f|//] /=; case: (krig_mse _ _ _) => [mse|//] /=; case: (hk_noise o') => [noise|//] /= [<- _]. by [].
have E1 : (fun m => @hk_predict d lo hi m (rescale_hk a b o')) = (fun m (x : 'M[R]_(m, d)) => after (hk_predict lo hi o' x) (fun u => shifted a b u)).
  apply: functional_extensionality_dep => m; apply: functional_extensionality => x.
  have [mu [sd [E _]]] := A m x. by have [-> [_ ->]] := P _ _ _ _ E.
have E2 : (fun m => @hk_predict_std d lo hi m (rescale_hk a b o')) = rescaled a b (fun m => @hk_predict_std d lo hi m o').
  apply: functional_extensionality_dep => m; apply: functional_extensionality => x.
  have [mu [sd [E _]]] := A m x. have E' : hk_predict_std lo hi o' x = Ok (mu, sd) := E. have [_ [-> _]] := P _ _ _ _ E'. by rewrite /rescaled E'.
have E3 : (fun m => @gp_predict_std d 1 (@Ordinary d) lo hi m (rescale_gp a b (hk_lf o'))) = rescaled a b (fun m => @gp_predict_std d 1 (@Ordinary d) lo hi m (hk_lf o')).
  apply: functional_extensionality_dep => m; apply: functional_extensionality => x.
  have [mu [sd [E _]]] := B m x. have E' : gp_predict_std (@Ordinary d) lo hi (hk_lf o') x = Ok (mu, sd) := E.
  rewrite (predict_std_rescale _ Ha E') /rescaled E' /=. by congr (Ok (_, _)); apply/matrixP => j l; rewrite !mxE Rplus_0_r.
have E4 : (if hk_model (rescale_hk a b o') is Some t then Ok (kr_beta (hk_krig t) 0 0) else Raise AttributeError) =
          (if hk_model o' is Some t then Ok (kr_beta (hk_krig t) 0 0) else Raise AttributeError) by rewrite /=; case: (hk_model o').
by rewrite /hk_surrogate /rescaled_surrogate E4 E1 E2 -E3.
Qed.

(** ** what does change *)
Definition flat (mean sd : R) : predictor 1 := fun m x => Ok (const_mx mean, const_mx sd).
Lemma flat_answers mean sd : (0 <= sd)%Re -> answers (flat mean sd).
Proof. move=> H m x; exists (const_mx mean), (const_mx sd); split=> // j; by rewrite mxE. Qed.
Lemma pi_changes : exists (predict : predictor 1) (y : 'cV[R]_1) (x : 'M[R]_(1, 1)) V V', answers predict /\
  pi_eval predict y x = Ok V /\ pi_eval (rescaled 2 0 predict) (shifted 2 0 y) x = Ok V' /\ V' <> V.
Proof.
have C v : col_min (const_mx v : 'cV[R]_1) = Ok v.
  apply: col_min_least; split; first by exists 0; rewrite mxE. by move=> i; rewrite mxE; exact: Rle_refl.
exists (flat 0 1), (const_mx 1), (const_mx 0). eexists; eexists. split; first by apply: flat_answers; lra.
rewrite /pi_eval col_min_shift; last lra. rewrite C /=. split; first reflexivity. split; first reflexivity.
move=> /matrixP /(_ 0 0). rewrite !mxE => /Ropp_eq_compat; rewrite !Ropp_involutive.
apply: Rgt_not_eq; apply: cdf_increasing. have O := offset9_pos.
have -> : Rminus (Rplus (Rmult 2 1) 0) (Rplus (Rmult 2 0) 0) = Rmult 2 (Rminus 1 0) by ring.
apply: (Rmult_lt_reg_r (Rmult (Rplus 1 offset9) (Rplus (Rplus (Rmult 2 1) 0) offset9))); first by apply: Rmult_lt_0_compat; lra.
rewrite /Rdiv. set p := Rplus 1 offset9. set q := Rplus _ offset9.
have Hp : p <> R0 by rewrite /p; lra. have Hq : q <> R0 by rewrite /q; lra.
have -> : Rmult (Rmult (Rminus 1 0) (Rinv p)) (Rmult p q) = q by field.
have -> : Rmult (Rmult (Rmult 2 (Rminus 1 0)) (Rinv q)) (Rmult p q) = Rmult 2 p by field.
rewrite /p /q; lra.
Qed.
Definition thin : surrogate 1 :=
  Surrogate (fun m x => Ok (const_mx 0)) (flat 0 float_eps) (flat 0 float_eps) (const_mx 0 : 'M[R]_(1, 1)) (const_mx 0 : 'M[R]_(1, 1))
            (fun n m _ _ _ => Some (const_mx 1)) true (Ok R1).
Lemma aei_changes : exists (s : surrogate 1) (x : 'M[R]_(1, 1)) A A', surrogate_answers s /\
  aei_eval s 1 0 x = Ok A /\ aei_eval (rescaled_surrogate (Rinv 2) 0 s) 1 0 x = Ok A' /\ A' 0 = Some R0 /\ exists v, A 0 = Some v /\ (v < 0)%Re.
Proof.
have E := eps_pos. have P : (0 < Rinv 2)%Re by lra.
exists thin, (const_mx 0).
have S : surrogate_answers thin.
  split; first by apply: flat_answers; lra. split; first by apply: flat_answers; lra. by move=> m x; exists (const_mx 0).
have [A0 [A1 [i [mus [sds [fm [mu [sd [mul [sdl [EA [_ [Es [Hi [Em [Ep [_ H]]]]]]]]]]]]]]]]] := aei_spec 1 (const_mx 0 : 'M[R]_(1, 1)) S (isT : (0 < 1 + 1)%N).
exists A0. move: EA; rewrite /aei_eval best_units //.
case Eb: (effective_best thin) => [xb|//] EA.
eexists. split; first exact: S. split; first exact: EA. split; first reflexivity. split.
  rewrite /= !mxE Rplus_0_r. case: Rlt_dec => L; last by exfalso; lra. by rewrite /= !Rmult_0_l Ropp_0.
have [v [-> [_ [_ [Q _]]]]] := H 0. exists (Ropp v); split=> //.
move: Ep => [Em' Es']; rewrite -Es' -Em' !mxE in Q.
have [_ G] := ei_bounds _ _ _ _ (Q (Rle_refl _)). have := G E; lra.
Qed.
