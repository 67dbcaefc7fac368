(** Facts about the acquisition functions. *)
From Coq Require Import Reals Lra.
From Verif Require Import Fl Normal NormalFacts AcqSpec AcqReal.
From mathcomp Require Import all_ssreflect all_algebra.
From Verif Require Import RStruct LinAlg LinSpec Kernel KernelFacts Krig KrigFacts GP GPSpec GPFacts GPMain MF MFMain Acq AcqSpecM.
Set Implicit Arguments.
Unset Strict Implicit.
Unset Printing Implicit Defensive.
Import GRing.Theory.
Local Open Scope ring_scope.

Lemma offset9_pos : (0 < offset9)%Re. Proof. apply: Rinv_0_lt_compat; apply: pow_lt; lra. Qed.
Lemma offset8_pos : (0 < offset8)%Re. Proof. apply: Rinv_0_lt_compat; apply: pow_lt; lra. Qed.
Lemma eps_pos : (0 < float_eps)%Re. Proof. apply: Rinv_0_lt_compat; apply: pow_lt; lra. Qed.

(** ** argmin *)
Definition min_step n (u : 'cV[R]_n) (b : option 'I_n) i :=
  match b with None => Some i | Some k => if Rlt_dec (u i 0) (u k 0) then Some i else Some k end.
Lemma min_fold n (u : 'cV[R]_n) s : s != [::] -> uniq s -> exists i, foldl (min_step u) None s = Some i /\ i \in s /\
  forall k, k \in s -> (u i 0%R <= u k 0%R)%Re /\ ((index k s < index i s)%N -> (u i 0%R < u k 0%R)%Re).
Proof.
elim/last_ind: s => // s x IH _; rewrite rcons_uniq => /andP[Nx Us]; rewrite foldl_rcons.
case: (altP (s =P [::])) => [->|N0].
  exists x; rewrite /= mem_seq1 eqxx; split=> //; split=> // k; rewrite mem_seq1 => /eqP ->; split; [lra|by rewrite eqxx].
have [i [-> [Hi Hk]]] := IH N0 Us; rewrite /= .
have Ix k : k \in s -> index k (rcons s x) = index k s by move=> H; rewrite -cats1 index_cat H.
have Ixx : index x (rcons s x) = size s by rewrite -cats1 index_cat (negbTE Nx) /= eqxx addn0.
case: Rlt_dec => L.
  exists x; split=> //; split; first by rewrite mem_rcons mem_head.
  move=> k; rewrite mem_rcons inE => /orP[/eqP ->|Hs]; first by split; [lra|rewrite ltnn].
  have [Q _] := Hk k Hs; split=> [|_]; lra.
exists i; split=> //; split; first by rewrite mem_rcons inE Hi orbT.
move=> k; rewrite mem_rcons inE => /orP[/eqP ->|Hs].
  split; first exact: Rnot_lt_le. rewrite Ixx Ix // => H. have := index_mem i s; rewrite Hi => H'.
  by have := ltn_trans H H'; rewrite ltnn.
have [Q1 Q2] := Hk k Hs; split=> //; by rewrite !Ix.
Qed.
Lemma first_minE n (u : 'cV[R]_n) i : first_min u = Some i -> first_least u i.
Proof.
case: n u i => [u [] //|n u i]; rewrite /first_min -/(min_step u).
have N : enum 'I_n.+1 != [::] by rewrite -size_eq0 size_enum_ord.
have [j [-> [_ H]]] := min_fold u N (enum_uniq _) => -[<-] k.
have := H k; rewrite mem_enum => /(_ isT); by rewrite !index_enum_ord.
Qed.
Lemma first_min_ok n (u : 'cV[R]_n.+1) : exists i, first_min u = Some i.
Proof.
rewrite /first_min -/(min_step u). have N : enum 'I_n.+1 != [::] by rewrite -size_eq0 size_enum_ord.
by have [j [-> _]] := min_fold u N (enum_uniq _); exists j.
Qed.
Lemma col_min_ok n (u : 'cV[R]_n.+1) : exists v, col_min u = Ok v.
Proof. by rewrite /col_min; have [i ->] := first_min_ok u; exists (u i 0). Qed.
Lemma col_minE n (u : 'cV[R]_n) v : col_min u = Ok v -> least u v.
Proof.
rewrite /col_min; case E: (first_min u) => [i|//] [<-]. split; first by exists i.
by move=> k; have [] := first_minE E k.
Qed.
Lemma least_fun n (u : 'cV[R]_n) v w : least u v -> least u w -> v = w.
Proof. move=> [[i <-] H] [[j <-] H']. apply: Rle_antisym; [exact: H|exact: H']. Qed.
Lemma col_min_least n (u : 'cV[R]_n) v : least u v -> col_min u = Ok v.
Proof.
case: n u => [u [[[] //]]|n u H]. have [w E] := col_min_ok u. by rewrite E (least_fun (col_minE E) H).
Qed.
Lemma least_ok n (u : 'cV[R]_n.+1) : exists v, least u v.
Proof. by have [v E] := col_min_ok u; exists v; apply: col_minE. Qed.

(** ** the surrogates *)
Lemma gp_answers d p (phi : 'rV[R]_d -> 'rV[R]_p) (lo hi : 'rV[R]_d) n (o o' : gp d p) (X : 'M[R]_(n, d)) (Y : 'cV[R]_n) s :
  gp_train phi lo hi o X Y s = Ok o' -> answers (fun m => @gp_predict_std d p phi lo hi m o').
Proof.
move=> E m x. have [mu [sd [_ Es]]] := gp_predict_ok x E. exists mu, sd; split=> // j.
have [t [noise [Et [En _]]]] := gp_data E. by have [_ [_ [H _]]] := gp_std E Et En Es j.
Qed.
Lemma hk_answers d (lo hi : 'rV[R]_d) nh nl (o o' : hk d) (Xh : 'M[R]_(nh, d)) (Yh : 'cV[R]_nh) (Xl : 'M[R]_(nl, d)) (Yl : 'cV[R]_nl) sl sh :
  hk_train lo hi o Xh Yh Xl Yl sl sh = Ok o' -> surrogate_answers (hk_surrogate lo hi o' Xh Xl).
Proof.
move=> E; have [lf [F0 [h [k [El [_ [_ [_ [_ Eo]]]]]]]]] := hk_train_inv E.
have El' : gp_train (@Ordinary d) lo hi (hk_lf o) Xl Yl sl = Ok (hk_lf o') by rewrite Eo.
split=> [m x|]; first (have [mu [sd [_ Es]]] := hk_predict_ok x E; exists mu, sd; split=> // j).
  have [f [_ [Ef _]]] := gp_predict_ok x El'.
  have [t Et] : exists t, hk_model o' = Some t by rewrite Eo; eexists.
  have [noise En] : exists v, hk_noise o' = Some v by rewrite Eo; eexists.
  have [_ [_ H]] := hk_std E Et En Ef Es j. have := Rabs_pos noise; lra.
split; first exact: gp_answers El'. by move=> m x; have [mu [_ [Em _]]] := hk_predict_ok x E; exists mu.
Qed.
Lemma sk_answers d (lo hi : 'rV[R]_d) nh nl (o o' : sk d) (Xh : 'M[R]_(nh, d)) (Yh : 'cV[R]_nh) (Xl : 'M[R]_(nl, d)) (Yl : 'cV[R]_nl) sl sr sh :
  sk_train lo hi o Xh Yh Xl Yl sl sr sh = Ok o' -> surrogate_answers (sk_surrogate lo hi o' Xh Xl).
Proof.
move=> E; have [l [rd [El [EF [Er [Erho [Ed _]]]]]]] := sk_train_inv E.
have P m (x : 'M[R]_(m, d)) : exists mu mu' sd, sk_predict lo hi o' x = Ok mu /\ sk_predict_std lo hi o' x = Ok (mu', sd).
  have [a [sa [Ea Esa]]] := gp_predict_ok x El; have [b [sb [Eb Esb]]] := gp_predict_ok x Ed.
  rewrite /sk_predict /sk_predict_std Ea Esa Eb Esb /=; by eexists; eexists; eexists.
split=> [m x|]; first (have [mu [mu' [sd [Em Es]]]] := P m x; exists mu', sd; split=> // j).
  have [a [b [c [e [_ [_ H]]]]]] := sk_predictions Em Es; by have [_ [_ [_ []]]] := H j.
split; first exact: gp_answers El. by move=> m x; have [mu [_ [_ [Em _]]]] := P m x; exists mu.
Qed.

(** ** C58 *)
Lemma half_offset e : (0 < e)%Re -> (e * norm_pdf 0 <= e / 2)%Re.
Proof. move=> H. have := pdf_0_bound => B. have := pdf_pos 0 => P. rewrite /Rdiv; apply: Rmult_le_compat_l; lra. Qed.
Lemma ei_eval_spec d n m (predict : predictor d) (y : 'cV[R]_n.+1) (x : 'M[R]_(m, d)) : answers predict ->
  exists V fmin mu sd, ei_eval predict y x = Ok V /\ least y fmin /\ predict m x = Ok (mu, sd) /\
  forall j, exists v, expected_improvement fmin (mu j 0) (sd j 0) v /\
    (Rabs (V j 0%R + v) <= / 10 ^ 9 / 2)%Re /\ (V j 0%R < / 10 ^ 9 / 2)%Re.
Proof.
move=> A. have [fmin Ef] := col_min_ok y. have [mu [sd [Ep Hs]]] := A m x.
rewrite /ei_eval Ef /= Ep /=. eexists; exists fmin, mu, sd; split; first reflexivity.
split; first exact: col_minE. split=> // j. have [v Hv] := ei_exists fmin (mu j 0) _ (Hs j). exists v; split=> //.
rewrite [(\col__ _) j 0]mxE /=. have := ei_close _ _ _ _ _ offset9_pos Hv. cbv zeta.
have H := half_offset offset9_pos; rewrite /offset9 in H. rewrite /improvement.
set a := Rplus (Rmult _ _) _ => -[[H1 H2] H3]. rewrite /offset9 in H1 H2 H3. split; last lra. apply: Rabs_le; lra.
Qed.
Lemma ei_eval_inv d n m (predict : predictor d) (y : 'cV[R]_n) (x : 'M[R]_(m, d)) V : ei_eval predict y x = Ok V ->
  exists fmin mu sd, least y fmin /\ predict m x = Ok (mu, sd) /\ forall j, V j 0 = Ropp (improvement offset9 fmin (mu j 0) (sd j 0)).
Proof.
rewrite /ei_eval; case Ef: (col_min y) => [fmin|//] /=; case Ep: (predict m x) => [[mu sd]|//] /= [<-].
exists fmin, mu, sd; split; first exact: col_minE. by split=> // j; rewrite mxE.
Qed.
(** the best point of the evaluations has an expected improvement within 1e-9 of every other *)
Lemma ei_eval_choice d n m1 m2 (predict : predictor d) (y : 'cV[R]_n) (x1 : 'M[R]_(m1, d)) (x2 : 'M[R]_(m2, d)) V1 V2 fmin mu1 sd1 mu2 sd2 j1 j2 v1 v2 :
  ei_eval predict y x1 = Ok V1 -> ei_eval predict y x2 = Ok V2 -> least y fmin ->
  predict m1 x1 = Ok (mu1, sd1) -> predict m2 x2 = Ok (mu2, sd2) ->
  expected_improvement fmin (mu1 j1 0) (sd1 j1 0) v1 -> expected_improvement fmin (mu2 j2 0) (sd2 j2 0) v2 ->
  (V1 j1 0%R <= V2 j2 0%R)%Re -> (v2 <= v1 + / 10 ^ 9)%Re.
Proof.
move=> /ei_eval_inv [f1 [a1 [b1 [L1 [E1 H1]]]]] /ei_eval_inv [f2 [a2 [b2 [L2 [E2 H2]]]]] L P1 P2 X1 X2.
move: E1 E2; rewrite P1 P2 => -[Ea1 Eb1] [Ea2 Eb2]; rewrite H1 H2 -Ea1 -Eb1 -Ea2 -Eb2 (least_fun L1 L) (least_fun L2 L).
have := ei_close _ _ _ _ _ offset9_pos X1; have := ei_close _ _ _ _ _ offset9_pos X2; cbv zeta.
rewrite /improvement. have H := half_offset offset9_pos.
set A := Rplus (Rmult _ _) _. set B := Rplus (Rmult _ _) _. rewrite -/offset9. lra.
Qed.
(** at the samples of a noise-free model the value is not negative *)
Lemma ei_eval_sampled d p (phi : 'rV[R]_d -> 'rV[R]_p) (lo hi : 'rV[R]_d) n (o o' : gp d p) (X : 'M[R]_(n, d)) (Y : 'cV[R]_n) s fmin :
  gp_noise o = Some R0 -> gp_train phi lo hi o X Y s = Ok o' -> least Y fmin ->
  exists V, ei_eval (fun m => @gp_predict_std d p phi lo hi m o') Y X = Ok V /\
  forall i, (Y i 0 = fmin -> V i 0 = 0) /\ ((fmin < Y i 0%R)%Re -> (0 < V i 0%R)%Re).
Proof.
move=> Hn E L. have [_ I] := gp_interpolates Hn E.
rewrite /ei_eval (col_min_least L) /= I /=. eexists; split; first reflexivity. move=> i; rewrite [(\col__ _) i 0]mxE /= mxE /improvement.
split=> [->|H]; first by rewrite Rminus_diag_eq // !Rmult_0_l Rplus_0_l Ropp_0.
rewrite Rmult_0_l Rplus_0_r. set c := norm_cdf _. have P : (0 < c)%Re by exact: cdf_gt_0.
have Q : (0 < (Y i 0%R - fmin) * c)%Re by apply: Rmult_lt_0_compat; lra. lra.
Qed.

(** ** C59 *)
Lemma std_offset d (predict : predictor d) m (x : 'M[R]_(m, d)) mu sd j : answers predict -> predict m x = Ok (mu, sd) ->
  (0 <= sd j 0%R)%Re /\ (0 < sd j 0%R + offset9)%Re.
Proof.
move=> A E. have [a [b [E' H]]] := A m x; move: E'; rewrite E => -[_ Eb]; rewrite Eb. have := H j; have := offset9_pos. lra.
Qed.
Lemma pi_eval_spec d n m (predict : predictor d) (y : 'cV[R]_n.+1) (x : 'M[R]_(m, d)) : answers predict ->
  exists V fmin mu sd, pi_eval predict y x = Ok V /\ least y fmin /\ predict m x = Ok (mu, sd) /\
  forall j, prob_below (mu j 0) (Rplus (sd j 0) (/ 10 ^ 9)) fmin (Ropp (V j 0)) /\ (-1 < V j 0%R < 0)%Re.
Proof.
move=> A. have [fmin Ef] := col_min_ok y. have [mu [sd [Ep Hs]]] := A m x.
rewrite /pi_eval Ef /= Ep /=. eexists; exists fmin, mu, sd; split; first reflexivity.
split; first exact: col_minE. split=> // j. rewrite [(\col__ _) j 0]mxE /= Ropp_involutive.
have [_ P] := std_offset j A Ep.
split; first exact: prob_cdf. set c := norm_cdf _. have H1 : (0 < c)%Re by exact: cdf_gt_0.
have H2 : (c < 1)%Re by exact: cdf_lt_1. lra.
Qed.
Lemma pi_eval_inv d n m (predict : predictor d) (y : 'cV[R]_n) (x : 'M[R]_(m, d)) V : pi_eval predict y x = Ok V ->
  exists fmin mu sd, least y fmin /\ predict m x = Ok (mu, sd) /\ forall j, V j 0 = Ropp (norm_cdf (Rdiv (Rminus fmin (mu j 0)) (Rplus (sd j 0) offset9))).
Proof.
rewrite /pi_eval; case Ef: (col_min y) => [fmin|//] /=; case Ep: (predict m x) => [[mu sd]|//] /= [<-].
exists fmin, mu, sd; split; first exact: col_minE. by split=> // j; rewrite mxE.
Qed.
Lemma pi_eval_mono d n1 n2 m1 m2 (p1 p2 : predictor d) (y1 : 'cV[R]_n1) (y2 : 'cV[R]_n2) (x1 : 'M[R]_(m1, d)) (x2 : 'M[R]_(m2, d)) V1 V2 f1 f2 mu1 sd1 mu2 sd2 j1 j2 :
  answers p1 -> pi_eval p1 y1 x1 = Ok V1 -> pi_eval p2 y2 x2 = Ok V2 -> least y1 f1 -> least y2 f2 ->
  p1 m1 x1 = Ok (mu1, sd1) -> p2 m2 x2 = Ok (mu2, sd2) -> sd1 j1 0 = sd2 j2 0 ->
  (f1 - mu1 j1 0%R < f2 - mu2 j2 0%R)%Re -> (V2 j2 0%R < V1 j1 0%R)%Re.
Proof.
move=> A /pi_eval_inv [g1 [a1 [b1 [L1 [E1 H1]]]]] /pi_eval_inv [g2 [a2 [b2 [L2 [E2 H2]]]]] L L' P1 P2 Es Hu.
have [_ Q] := std_offset j1 A P1.
move: E1 E2; rewrite P1 P2 => -[Ea1 Eb1] [Ea2 Eb2]; rewrite H1 H2 -Ea1 -Eb1 -Ea2 -Eb2 (least_fun L1 L) (least_fun L2 L') -Es.
apply: Ropp_lt_contravar; apply: cdf_increasing. apply: Rmult_lt_compat_r => //. exact: Rinv_0_lt_compat.
Qed.

Lemma pof_spec d (cons : seq (predictor d)) (x : 'M[R]_(1, d)) : List.Forall (@answers d) cons ->
  exists q ps, cei_pof cons x = Ok q /\ List.Forall2 (holds_with x) cons ps /\ q 0 0 = foldr Rmult R1 ps /\
  (0 < q 0%R 0%R <= 1)%Re /\ (cons <> [::] -> (q 0%R 0%R < 1)%Re).
Proof.
elim: cons => [|p cons IH] H.
  exists (const_mx 1), [::]; rewrite mxE /=; split=> //; split=> //; split=> //; split=> //. toR; lra.
have [A H'] : answers p /\ List.Forall (@answers d) cons by split; [apply: List.Forall_inv H|apply: List.Forall_inv_tail H].
have [q [ps [Eq [F [Ep [[B1 B2] _]]]]]] := IH H'. have [mu [sd [E Hs]]] := A 1%N x.
rewrite [cei_pof _ _]/= E /= Eq /=. have [_ P] := std_offset 0 A E.
set c := norm_cdf (Rminus 0 (Rdiv (mu 0 0) (Rplus (sd 0 0) offset9))).
exists (\col_j Rmult (norm_cdf (Rminus 0 (Rdiv (mu j 0) (Rplus (sd j 0) offset9)))) (q j 0)), (c :: ps).
split=> //. rewrite [(\col__ _) 0 0]mxE -/c /=.
have H1 : (0 < c)%Re by exact: cdf_gt_0. have H2 : (c < 1)%Re by exact: cdf_lt_1.
split; last (split; [by rewrite Ep|]).
  constructor=> //; exists mu, sd; split=> //. rewrite -/offset9 /c.
  have -> : Rminus 0 (Rdiv (mu 0 0) (Rplus (sd 0 0) offset9)) = Rdiv (Rminus 0 (mu 0 0)) (Rplus (sd 0 0) offset9) by rewrite /Rdiv; ring.
  exact: prob_cdf.
have Q (a b : R) : (0 < a)%Re -> (a < 1)%Re -> (0 < b)%Re -> (b <= 1)%Re -> (0 < a * b < 1)%Re by move=> *; split; nra.
have [Q1 Q2] := Q _ _ H1 H2 B1 B2. split; [by split=> //; apply: Rlt_le|by []].
Qed.
Lemma pof_mono d (x1 x2 : 'M[R]_(1, d)) c1 c2 q1 q2 : List.Forall (@answers d) c1 -> List.Forall2 (constraint_le x1 x2) c1 c2 ->
  cei_pof c1 x1 = Ok q1 -> cei_pof c2 x2 = Ok q2 -> (q2 0%R 0%R <= q1 0%R 0%R)%Re.
Proof.
move=> A F; elim: F A q1 q2 => [|p1 p2 l1 l2 [mu1 [mu2 [sd1 [sd2 [E1 [E2 [Es Hm]]]]]]] F IH] A q1 q2.
  by rewrite /= => -[<-] [<-]; apply: Rle_refl.
rewrite /= E1 E2 /=. have [A1 A'] : answers p1 /\ List.Forall (@answers d) l1 by split; [apply: List.Forall_inv A|apply: List.Forall_inv_tail A].
case Q1: (cei_pof l1 x1) => [r1|//] /= [<-]; case Q2: (cei_pof l2 x2) => [r2|//] /= [<-]. rewrite ![(\col__ _) 0 0]mxE -Es.
have [_ P] := std_offset 0 A1 E1. have H := IH A' _ _ Q1 Q2.
set a := norm_cdf _; set b := norm_cdf _.
have Hab : (a <= b)%Re.
  apply: cdf_le. apply: Rplus_le_compat_l; apply: Ropp_le_contravar; apply: Rmult_le_compat_r => //; apply: Rlt_le; exact: Rinv_0_lt_compat.
have Ha : (0 < a)%Re by exact: cdf_gt_0.
have [q [ps [Eq [_ [_ [[B _] _]]]]]] := pof_spec x1 A'. move: Eq; rewrite Q1 => -[Eq]; rewrite -Eq in B.
apply: Rle_trans (Rmult_le_compat_l _ _ _ (Rlt_le _ _ Ha) H) _. apply: Rmult_le_compat_r => //; exact: Rlt_le.
Qed.
Lemma cei_eval_spec d n (obj : predictor d) (y : 'cV[R]_n.+1) (cons : seq (predictor d)) (x : 'M[R]_(1, d)) :
  answers obj -> List.Forall (@answers d) cons ->
  exists V q M, ei_eval obj y x = Ok V /\ cei_pof cons x = Ok q /\ cei_eval obj y cons x = Ok M /\ M 0 0 = Rmult (V 0 0) (q 0 0).
Proof.
move=> A C. have [q [ps [Eq _]]] := pof_spec x C. have [fmin Ef] := col_min_ok y. have [mu [sd [Ep _]]] := A 1%N x.
rewrite /ei_eval /cei_eval /cei_ei Ef /= Ep /= Eq /=. eexists; eexists; eexists; split; first reflexivity.
split; first reflexivity. split; first reflexivity. by rewrite !mxE.
Qed.
Lemma cei_unconstrained d n m (obj : predictor d) (y : 'cV[R]_n.+1) (x : 'M[R]_(m, d)) : answers obj ->
  exists V M, ei_eval obj y x = Ok V /\ cei_eval obj y [::] x = Ok M /\ forall i j, M i j = V i 0.
Proof.
move=> A. have [fmin Ef] := col_min_ok y. have [mu [sd [Ep _]]] := A m x.
rewrite /ei_eval /cei_eval /cei_ei Ef /= Ep /=. eexists; eexists; split; first reflexivity.
split; first reflexivity. by move=> i j; rewrite !mxE; apply: Rmult_1_r.
Qed.
(** ** C88 *)
Lemma cei_batch d n m (obj p : predictor d) (y : 'cV[R]_n.+1) cons (x : 'M[R]_(m, d)) : answers obj -> answers p -> m <> 1%N ->
  cei_eval obj y (p :: cons) x = Raise ValueError.
Proof.
move=> A Ap Hm. have [fmin Ef] := col_min_ok y. have [mu [sd [Ep _]]] := A m x. have [mu' [sd' [Ep' _]]] := Ap m x.
rewrite /cei_eval /cei_ei Ef /= Ep /= Ep' /=. by case: eqP.
Qed.

(** ** C60 *)
Lemma lcb_spec d m (predict : predictor d) k0 k1 (x : 'M[R]_(m, d)) : answers predict ->
  exists V mu sd, lcb_eval predict k0 k1 x = Ok V /\ predict m x = Ok (mu, sd) /\
  forall j, V j 0 = Rminus (Rmult k0 (mu j 0)) (Rmult k1 (sd j 0)) /\ ((0 <= k1)%Re -> (V j 0%R <= k0 * mu j 0%R)%Re).
Proof.
move=> A. have [mu [sd [Ep Hs]]] := A m x. rewrite /lcb_eval Ep /=. eexists; exists mu, sd; split; first reflexivity.
split=> // j; rewrite mxE; split=> // H. have := Rmult_le_pos _ _ H (Hs j). rewrite /=. lra.
Qed.
Lemma lcb_mono d m1 m2 (p1 p2 : predictor d) k0 k1 (x1 : 'M[R]_(m1, d)) (x2 : 'M[R]_(m2, d)) V1 V2 mu1 sd1 mu2 sd2 j1 j2 :
  (0 <= k1)%Re -> lcb_eval p1 k0 k1 x1 = Ok V1 -> lcb_eval p2 k0 k1 x2 = Ok V2 ->
  p1 m1 x1 = Ok (mu1, sd1) -> p2 m2 x2 = Ok (mu2, sd2) -> mu1 j1 0 = mu2 j2 0 -> (sd1 j1 0%R <= sd2 j2 0%R)%Re ->
  (V2 j2 0%R <= V1 j1 0%R)%Re.
Proof.
move=> Hk; rewrite /lcb_eval => H1 H2 E1 E2 Em Hs; move: H1 H2; rewrite E1 E2 /= => -[<-] [<-]; rewrite ![(\col__ _) _ 0]mxE /= Em.
have := Rmult_le_compat_l _ _ _ Hk Hs. lra.
Qed.
Lemma lcb_sampled d p (phi : 'rV[R]_d -> 'rV[R]_p) (lo hi : 'rV[R]_d) n (o o' : gp d p) (X : 'M[R]_(n, d)) (Y : 'cV[R]_n) s k0 k1 :
  gp_noise o = Some R0 -> gp_train phi lo hi o X Y s = Ok o' ->
  lcb_eval (fun m => @gp_predict_std d p phi lo hi m o') k0 k1 X = Ok (\col_i Rmult k0 (Y i 0)).
Proof.
move=> Hn E. have [_ I] := gp_interpolates Hn E. rewrite /lcb_eval I /=; congr Ok; apply/matrixP => i j; rewrite !mxE. toR; ring.
Qed.
Lemma vflcb_spec d m (s : surrogate d) k0 k1 cr (x : 'M[R]_(m, d)) : surrogate_answers s ->
  exists V0 V1 mu sd mul sdl, vflcb_eval s k0 k1 cr 0 x = Ok V0 /\ vflcb_eval s k0 k1 cr 1 x = Ok V1 /\
  su_predict_std s x = Ok (mu, sd) /\ su_predict_lf_std s x = Ok (mul, sdl) /\
  forall j, V0 j 0 = Rminus (Rmult k0 (mu j 0)) (Rmult k1 (sd j 0)) /\
    V1 j 0 = Rminus (Rmult k0 (mu j 0)) (Rmult k1 (Rmult cr (sdl j 0))) /\
    ((0 < k1)%Re -> (V1 j 0%R < V0 j 0%R <-> sd j 0%R < cr * sdl j 0%R)%Re).
Proof.
move=> [A [B _]]. have [mu [sd [Ep Hs]]] := A m x. have [mul [sdl [El Hl]]] := B m x.
rewrite /vflcb_eval Ep /= El /=. eexists; eexists; exists mu, sd, mul, sdl; split; first reflexivity.
split; first reflexivity. split=> //; split=> // j; rewrite ![(\col__ _) j 0]mxE.
split=> //; split; first by rewrite (Rmult_comm (sdl _ _)).
rewrite (Rmult_comm (sdl _ _)). set a := Rmult cr _. set b := sd j 0. set c := Rmult k0 _ => Hk. split=> H.
  apply: (Rmult_lt_reg_l k1) => //. lra.
have := Rmult_lt_compat_l _ _ _ Hk H. lra.
Qed.

(** ** C87 *)
Lemma vfei_spec d m (s : surrogate d) fmin (x : 'M[R]_(m, d)) beta : surrogate_answers s -> su_hierarchical s -> su_beta s = Ok beta ->
  exists V0 V1 mu sd mul sdl, vfei_eval s fmin 0 x = Ok V0 /\ vfei_eval s fmin 1 x = Ok V1 /\
  su_predict_std s x = Ok (mu, sd) /\ su_predict_lf_std s x = Ok (mul, sdl) /\
  forall j, ((sd j 0%R < / 2 ^ 52)%Re -> V0 j 0 = 0) /\ ((beta * sdl j 0%R < / 2 ^ 52)%Re -> V1 j 0 = 0) /\
    ((/ 2 ^ 52 <= sd j 0%R)%Re -> (exists v, expected_improvement fmin (mu j 0) (sd j 0) v /\ (Rabs (V0 j 0%R + v) <= / 10 ^ 8 / 2)%Re) /\
       ((/ 2 ^ 52 <= beta * sdl j 0%R)%Re -> V1 j 0 = V0 j 0)).
Proof.
move=> [A [B _]] Hh Hb. have [mu [sd [Ep Hs]]] := A m x. have [mul [sdl [El Hl]]] := B m x.
rewrite /vfei_eval Hh Ep /= El /= Hb /=. eexists; eexists; exists mu, sd, mul, sdl; split; first reflexivity.
split; first reflexivity. split=> //; split=> // j; rewrite ![(\col__ _) j 0]mxE -/float_eps.
split; first by case: (Rlt_dec (sd j 0) _) => [L|//] H; rewrite /= Ropp_0.
split; first by rewrite /=; case: (Rlt_dec (Rmult beta _) _) => [L|//] H; rewrite /= Ropp_0.
case: (Rlt_dec (sd j 0) _) => [L|L] /= Hd; first lra.
split; last by case: (Rlt_dec (Rmult beta _) _) => // L' H'; lra.
have [v Hv] := ei_exists fmin (mu j 0) _ (Hs j). exists v; split=> //.
have := ei_close _ _ _ _ _ offset8_pos Hv. cbv zeta.
have H := half_offset offset8_pos; rewrite /offset8 in H. rewrite /improvement.
set a := Rplus (Rmult _ _) _ => -[[H1 H2] H3]. rewrite /offset8 in H1 H2 H3. apply: Rabs_le; lra.
Qed.
Lemma vfei_negative d m (s : surrogate d) fmin (x : 'M[R]_(m, d)) beta : surrogate_answers s -> su_hierarchical s -> su_beta s = Ok beta ->
  (beta <= 0)%Re -> vfei_eval s fmin 1 x = Ok 0.
Proof.
move=> [A [B _]] Hh Hb Hn. have [mu [sd [Ep Hs]]] := A m x. have [mul [sdl [El Hl]]] := B m x.
rewrite /vfei_eval Hh Ep /= El /= Hb /=; congr Ok; apply/matrixP => j k; rewrite !mxE /=.
case: Rlt_dec => [L|N]; first by rewrite /= Ropp_0.
case: N; apply: Rle_lt_trans eps_pos. have := Hl j; set z := sdl j 0 => Hz. nra.
Qed.
Lemma hk_beta d (lo hi : 'rV[R]_d) nh nl (o o' : hk d) (Xh : 'M[R]_(nh, d)) (Yh : 'cV[R]_nh) (Xl : 'M[R]_(nl, d)) (Yl : 'cV[R]_nl) sl sh :
  hk_train lo hi o Xh Yh Xl Yl sl sh = Ok o' ->
  exists t, hk_model o' = Some t /\ su_beta (hk_surrogate lo hi o' Xh Xl) = Ok (kr_beta (hk_krig t) 0 0).
Proof.
case/hk_train_inv => lf [F0 [h [k [_ [_ [_ [_ [_ ->]]]]]]]]. by eexists; split; first reflexivity.
Qed.
Lemma vfei_only_hk d m (s : surrogate d) fmin fid (x : 'M[R]_(m, d)) : ~~ su_hierarchical s -> vfei_eval s fmin fid x = Raise ValueError.
Proof. by rewrite /vfei_eval => /negbTE ->. Qed.

(** ** C89 *)
Lemma unknown_vflcb d m (s : surrogate d) k0 k1 cr fid (x : 'M[R]_(m, d)) : surrogate_answers s ->
  vflcb_eval s k0 k1 cr fid.+2 x = Raise UnboundLocalError.
Proof. move=> [A [B _]]. have [mu [sd [Ep Hs]]] := A m x. have [mul [sdl [El Hl]]] := B m x. by rewrite /vflcb_eval Ep /= El. Qed.
Lemma unknown_vfei d m (s : surrogate d) fmin fid (x : 'M[R]_(m, d)) : surrogate_answers s -> su_hierarchical s ->
  vfei_eval s fmin fid.+2 x = Raise UnboundLocalError.
Proof. move=> [A _] Hh. have [mu [sd [Ep Hs]]] := A m x. by rewrite /vfei_eval Hh Ep. Qed.
Lemma best_ok d (s : surrogate d) : surrogate_answers s -> (0 < su_nh s + su_nl s)%N ->
  let X := col_mx (su_Xh s) (su_Xl s) in
  exists i mu sd fm, su_predict_std s X = Ok (mu, sd) /\ first_least (\col_j Rplus (mu j 0) (sd j 0)) i /\
    effective_best s = Ok (row i X) /\ su_predict s (row i X) = Ok fm.
Proof.
move=> [A [_ C]] Hn X. rewrite /effective_best -/X. have [mu [sd [Ep _]]] := A _ X.
have E : (\col_j Rplus (mu j 0) (Rmult 1 (sd j 0))) = (\col_j Rplus (mu j 0) (sd j 0)) by apply/matrixP => i j; rewrite !mxE; congr Rplus; apply: Rmult_1_l.
have F : exists i, first_min (\col_j Rplus (mu j 0) (sd j 0)) = Some i.
  move: Hn mu sd {Ep E}; case: (su_nh s + su_nl s)%N => [//|n] _ mu sd; exact: first_min_ok.
have [i Ei] := F. have [fm Em] := C _ (row i X). exists i, mu, sd, fm; split=> //; split; first exact: first_minE.
by rewrite Ep /= E Ei.
Qed.
Lemma unknown_aei d m (s : surrogate d) cr fid (x : 'M[R]_(m, d)) : surrogate_answers s -> (0 < su_nh s + su_nl s)%N ->
  aei_eval s cr fid.+2 x = Raise TypeError.
Proof.
move=> H Hn; have [i [_ [_ [fm [_ [_ [Eb Em]]]]]]] := best_ok H Hn. have [A _] := H. have [mu [sd [Ep _]]] := A m x.
by rewrite /aei_eval Ep /= Eb /= Em.
Qed.
Lemma unknown_epi d m (s : surrogate d) fmin cr fid (x : 'M[R]_(m, d)) : surrogate_answers s -> epi_eval s fmin cr fid.+2 x = Raise TypeError.
Proof. by move=> [A _]; have [mu [sd [Ep _]]] := A m x; rewrite /epi_eval Ep. Qed.

(** ** C90 *)
Lemma improvement0 f m s : (0 < s)%Re -> expected_improvement f m s (improvement 0 f m s).
Proof. move=> H; rewrite /improvement. have -> : Rplus s 0 = s by exact: Rplus_0_r. exact: ei_formula. Qed.
Lemma aei_spec d m (s : surrogate d) cr (x : 'M[R]_(m, d)) : surrogate_answers s -> (0 < su_nh s + su_nl s)%N ->
  let X := col_mx (su_Xh s) (su_Xl s) in
  exists A0 A1 i mus sds fm mu sd mul sdl, aei_eval s cr 0 x = Ok A0 /\ aei_eval s cr 1 x = Ok A1 /\
  su_predict_std s X = Ok (mus, sds) /\ first_least (\col_j Rplus (mus j 0) (sds j 0)) i /\ su_predict s (row i X) = Ok fm /\
  su_predict_std s x = Ok (mu, sd) /\ su_predict_lf_std s x = Ok (mul, sdl) /\
  forall j, exists v, A0 j = Some (Ropp v) /\ (0 <= v)%Re /\ ((sd j 0%R < / 2 ^ 52)%Re -> v = 0) /\
    ((/ 2 ^ 52 <= sd j 0%R)%Re -> expected_improvement (fm 0 0) (mu j 0) (sd j 0) v) /\
    let den := Rplus (Rabs (Rminus (mu j 0) (mul j 0))) (sd j 0) in
    (den = 0 -> A1 j = None) /\ (den <> 0 -> A1 j = Some (Ropp (Rmult (Rmult v (Rdiv (sdl j 0) den)) cr))).
Proof.
move=> H Hn X; have [i [mus [sds [fm [Es [Hi [Eb Em]]]]]]] := best_ok H Hn. have [A [B _]] := H.
have [mu [sd [Ep Hs]]] := A m x. have [mul [sdl [El Hl]]] := B m x.
rewrite /aei_eval /mf_corr Ep /= Eb /= Em /= El /=. eexists; eexists; exists i, mus, sds, fm, mu, sd, mul, sdl.
split; first reflexivity. split; first reflexivity. do 5 (split; first by []).
move=> j; exists (if Rlt_dec (sd j 0) float_eps then 0 else improvement 0 (fm 0 0) (mu j 0) (sd j 0)).
rewrite -/float_eps. have Q : (float_eps <= sd j 0%R)%Re -> expected_improvement (fm 0 0) (mu j 0) (sd j 0) (improvement 0 (fm 0 0) (mu j 0) (sd j 0)).
  move=> L; apply: improvement0. have := eps_pos; lra.
split; first by congr (Some (Ropp _)); rewrite /= Rmult_1_r; apply: Rmult_1_r.
split.
  case: Rlt_dec => L; first exact: Rle_refl. have [P _] := ei_bounds _ _ _ _ (Q (Rnot_lt_le _ _ L)).
  by apply: Rle_trans P; apply: Rmax_r.
split; first by case: Rlt_dec. split; first by case: Rlt_dec => // L /Rle_not_lt.
split=> E; case: (Req_EM_T _ _) => [E'|N'] //=.
Qed.
(** the value is not a number at the samples of a noise-free model whose fidelities agree there *)
Lemma aei_nan d (lo hi : 'rV[R]_d) n (o o' : hk d) (X : 'M[R]_(n, d)) (Y : 'cV[R]_n) sl sh cr :
  hk_noise o = Some R0 -> gp_noise (hk_lf o) = Some R0 -> (0 < n)%N -> hk_train lo hi o X Y X Y sl sh = Ok o' ->
  exists A1, aei_eval (hk_surrogate lo hi o' X X) cr 1 X = Ok A1 /\ forall j, A1 j = None.
Proof.
move=> Hn Hl Pn E. have [_ Ih] := hk_interpolates Hn E.
have [lf [F0 [h [k [El [_ [_ [_ [_ Eo]]]]]]]]] := hk_train_inv E.
have El' : gp_train (@Ordinary d) lo hi (hk_lf o) X Y sl = Ok (hk_lf o') by rewrite Eo.
have [_ Il] := gp_interpolates Hl El'.
have Pn' : (0 < su_nh (hk_surrogate lo hi o' X X) + su_nl (hk_surrogate lo hi o' X X))%N by rewrite /= addn_gt0 Pn.
have [A0 [A1 [i [mus [sds [fm [mu [sd [mul [sdl [_ [E1 [_ [_ [_ [Ep [Eq Hj]]]]]]]]]]]]]]]]] := aei_spec cr X (hk_answers E) Pn'.
exists A1; split=> // j. have [v [_ [_ [_ [_ [N _]]]]]] := Hj j. apply: N.
move: Ep Eq; rewrite /= Ih Il => -[<- <-] [<- _]. by rewrite mxE Rminus_diag_eq // Rabs_R0 Rplus_0_r.
Qed.

(** ** C91 *)
Lemma hk_correlates d (lo hi : 'rV[R]_d) nh nl (o o' : hk d) (Xh : 'M[R]_(nh, d)) (Yh : 'cV[R]_nh) (Xl : 'M[R]_(nl, d)) (Yl : 'cV[R]_nl) sl sh :
  hk_train lo hi o Xh Yh Xl Yl sl sh = Ok o' -> correlates (hk_surrogate lo hi o' Xh Xl).
Proof.
case/hk_train_inv => lf [F0 [h [k [El [_ [_ [_ [_ ->]]]]]]]] m x /=.
have Q (r : rbf d) n (X : 'M[R]_(n, d)) : positive_params (rbf_param r) -> forall i j, (0 < get_kernel_matrix r (normalize_input lo hi x) (normalize_input lo hi X) i j)%Re.
  move=> HP i j; rewrite kernelE // !mxE. set e := exp _. have P : (0 < e)%Re by exact: exp_pos.
  have J := jitter_pos. case: eqP => _; rewrite ?mulr1 ?mulr0; toR; lra.
split; eexists; split; try reflexivity; apply: Q; first exact: set_params_pos.
have [_ [h' [k' [_ [_ ->]]]]] := train_inv El. exact: set_params_pos.
Qed.
Lemma prod_pos n (a : 'I_n -> R) : (forall k, (0 < a k)%Re) -> (0 < \prod_k a k)%Re.
Proof. move=> H; elim/big_ind: _ => [|x y|k _]; [exact: Rlt_0_1|exact: Rmult_lt_0_compat|exact: H]. Qed.
Lemma prod_mono n (a b : 'I_n -> R) : (forall k, (0 < a k)%Re) -> (forall k, (a k <= b k)%Re) -> (\prod_k a k <= \prod_k b k)%Re.
Proof.
move=> Ha Hab. have [] // : (0 < \prod_k a k)%Re /\ (\prod_k a k <= \prod_k b k)%Re.
elim/big_ind2: _ => [|x1 x2 y1 y2 [P1 L1] [P2 L2]|k _]; [split; [exact: Rlt_0_1|exact: Rle_refl]| |by split].
split; first exact: Rmult_lt_0_compat. apply: Rmult_le_compat => //; exact: Rlt_le.
Qed.
Lemma epi_spec d m (s : surrogate d) fmin cr (x : 'M[R]_(m, d)) : surrogate_answers s -> correlates s ->
  exists E0 E1 mu sd mul sdl c0 c1, epi_eval s fmin cr 0 x = Ok E0 /\ epi_eval s fmin cr 1 x = Ok E1 /\
  su_predict_std s x = Ok (mu, sd) /\ su_predict_lf_std s x = Ok (mul, sdl) /\
  su_corr s x (su_Xh s) 0 = Some c0 /\ su_corr s x (su_Xl s) 1 = Some c1 /\
  forall i, exists p, ((sd i 0%R < / 2 ^ 52)%Re -> p = 0) /\
    ((/ 2 ^ 52 <= sd i 0%R)%Re -> prob_below (mu i 0) (sd i 0) fmin p /\ (0 < p < 1)%Re) /\ forall j,
    E0 i j = Some (Ropp (Rmult p (\prod_k c0 j k))) /\
    let den := Rplus (Rabs (Rminus (mu i 0) (mul i 0))) (sd i 0) in
    (den = 0 -> E1 i j = None) /\
    (den <> 0 -> E1 i j = Some (Ropp (Rmult (Rmult (Rmult p (Rdiv (sdl i 0) den)) cr) (\prod_k c1 j k)))).
Proof.
move=> [A [B _]] C. have [mu [sd [Ep Hs]]] := A m x. have [mul [sdl [El Hl]]] := B m x. have [[c0 [E0 P0]] [c1 [E1 P1]]] := C m x.
rewrite /epi_eval /mf_corr /crowding Ep /= El /= E0 E1 /=. eexists; eexists; exists mu, sd, mul, sdl, c0, c1.
split; first reflexivity. split; first reflexivity. do 4 (split; first by []).
move=> i; exists (if Rlt_dec (sd i 0) float_eps then 0 else norm_cdf (Rdiv (Rminus fmin (mu i 0)) (sd i 0))). rewrite -/float_eps.
split; first by case: Rlt_dec. split.
  case: Rlt_dec => [L|L] L'; first lra. have P : (0 < sd i 0%R)%Re by have := eps_pos; lra.
  split; first exact: prob_cdf. by split; [exact: cdf_gt_0|exact: cdf_lt_1].
move=> j; rewrite ![(\col__ _) j 0]mxE /=. set p := if _ then _ else _.
have Q (a b c e : R) : Rmult (Rmult (Rmult (Ropp a) b) c) e = Ropp (Rmult (Rmult (Rmult a b) c) e) by ring.
split; first by congr Some; rewrite Q; congr (Ropp (Rmult _ _)); rewrite Rmult_1_r; apply: Rmult_1_r.
split=> E; case: (Req_EM_T _ _) => [E'|N'] //=. by congr Some; rewrite Q.
Qed.
(** correlation with the samples makes a point more attractive *)
Lemma epi_crowding d (s : surrogate d) fmin cr (x1 x2 : 'M[R]_(1, d)) mu1 mu2 sd1 sd2 c1 c2 E1 E2 :
  surrogate_answers s -> correlates s ->
  su_predict_std s x1 = Ok (mu1, sd1) -> su_predict_std s x2 = Ok (mu2, sd2) -> mu1 0 0 = mu2 0 0 -> sd1 0 0 = sd2 0 0 ->
  su_corr s x1 (su_Xh s) 0 = Some c1 -> su_corr s x2 (su_Xh s) 0 = Some c2 -> (forall k, (c1 0%R k <= c2 0%R k)%Re) ->
  epi_eval s fmin cr 0 x1 = Ok E1 -> epi_eval s fmin cr 0 x2 = Ok E2 ->
  exists v1 v2, E1 0 0 = Some v1 /\ E2 0 0 = Some v2 /\ (v2 <= v1)%Re /\ ((/ 2 ^ 52 <= sd2 0%R 0%R)%Re -> (v2 < 0)%Re).
Proof.
move=> A C P1 P2 Em Es C1 C2 L. rewrite /epi_eval /mf_corr /crowding P1 P2 /= C1 C2 /= => -[<-] [<-]; rewrite ![(\col__ _) 0 0]mxE -Em -Es.
eexists; eexists; split; first reflexivity. split; first reflexivity.
set p := if _ then _ else _. set a := \prod_k c1 0 k; set b := \prod_k c2 0 k.
have [[c [Ec Pc]] _] := C _ x1; move: Ec; rewrite C1 => -[Ec]; rewrite -Ec in Pc.
have Pa : (0 < a)%Re by apply: prod_pos => k; exact: Pc. have Lab : (a <= b)%Re by apply: prod_mono.
have Pp : (0 <= p)%Re by rewrite /p; case: Rlt_dec => ?; [exact: Rle_refl|apply: Rlt_le; exact: cdf_gt_0].
have Q (z : R) : Rmult (Rmult (Rmult (Ropp p) 1) 1) z = Ropp (Rmult p z) by ring.
rewrite !Q; split.
  apply: Ropp_le_contravar; exact: Rmult_le_compat_l.
move=> H; have Pp' : (0 < p)%Re by rewrite /p /float_eps; case: Rlt_dec => l; [lra|exact: cdf_gt_0].
have Pb : (0 < b)%Re by lra. have := Rmult_lt_0_compat _ _ Pp' Pb. lra.
Qed.
