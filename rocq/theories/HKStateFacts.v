(** Proofs about failed trainings of a hierarchical Kriging model. *)
From Coq Require Import Reals Lra.
From Verif Require Import Fl FlFacts.
From mathcomp Require Import all_ssreflect all_algebra.
From Verif Require Import RStruct LinAlg LinSpec LinAlgFacts Kernel KernelFacts Krig KrigFacts GP GPSpec GPFacts GPMain MF MFMain GPState GPStateSpec GPStateFacts HKState HKStateSpec.
Set Implicit Arguments.
Unset Strict Implicit.
Unset Printing Implicit Defensive.
Import GRing.Theory.
Local Open Scope ring_scope.

Local Arguments chol : simpl never.
Section State.
Variables (d : nat) (lo hi : 'rV[R]_d).
Local Notation Ord := (@Ordinary d).
Notation train := (hk_train_attrs lo hi).
Notation after o X Y := (put_data o (Dataset X (normalize_input lo hi X) Y (normalize_output Y))).

Definition hk_fitted n (o : attrs d 1) (X : 'M[R]_(n, d)) (Y : 'cV[R]_n) ys (h : hyper d) (alpha : 'cV[R]_n) (m : krig n 1) : attrs d 1 :=
  let noise := if a_noise o is Some s then s else Rmult (h_sigma h) ys in
  let k := set_params (a_kernel o) (h_theta h) in
  Attrs (Some noise) (a_restart o) k (a_data o) (a_opt o)
    (Some (Square (get_kernel_matrix k X X + (Rmult (Rdiv noise ys) (Rdiv noise ys))%:M)))
    (Some (Square (kr_L m))) (a_f o) (Some (Columns alpha)) (Some (kr_ld m)) (Some (kr_beta m))
    (Some (Columns (kr_gamma m))) (Some (kr_sigma2 m))
    (Some (Rminus (Rmult (Rmult (Ropp (Rdiv 1 2)) (INR n)) (kr_sigma2 m)) (sum_log_diag (kr_L m)))).
Lemma hk_update_ok n (o : attrs d 1) (X : 'M[R]_(n, d)) (Y : 'cV[R]_n) F ys h m :
  let noise := if a_noise o is Some s then s else Rmult (h_sigma h) ys in
  let r := Rdiv noise ys in
  krig_fit (get_kernel_matrix (set_params (a_kernel o) (h_theta h)) X X + (Rmult r r)%:M) F Y = Ok m ->
  exists alpha, hk_update_attrs o X Y F ys h = (hk_fitted o X Y ys h alpha m, Ok tt).
Proof.
rewrite /krig_fit /hk_update_attrs /hk_fitted /=.
case: (chol _) => [L|//] /=; case: (chol_solve L Y) => [alpha|//] /=; case: (chol_solve L _) => [KF|//] /=.
case: (chol _) => [ld|//] /=; case: (chol_solve ld _) => [beta|//] /=; case: (chol_solve L _) => [gamma|//] /= [<-] /=.
by exists alpha.
Qed.
Lemma hk_update_raise n (o : attrs d 1) (X : 'M[R]_(n, d)) (Y : 'cV[R]_n) F ys h e :
  let noise := if a_noise o is Some s then s else Rmult (h_sigma h) ys in
  let r := Rdiv noise ys in
  krig_fit (get_kernel_matrix (set_params (a_kernel o) (h_theta h)) X X + (Rmult r r)%:M) F Y = Raise e ->
  (hk_update_attrs o X Y F ys h).2 = Raise e.
Proof.
rewrite /krig_fit /hk_update_attrs /=.
case: (chol _) => [L|?] /=; last by case=> ->. case: (chol_solve L Y) => [alpha|?] /=; last by case=> ->.
case: (chol_solve L _) => [KF|?] /=; last by case=> ->. case: (chol _) => [ld|?] /=; last by case=> ->.
by case: (chol_solve ld _) => [beta|?] /=; last (by case=> ->); case: (chol_solve L _) => [gamma|?] //= [->].
Qed.

(** a successful training of MF.v, step by step *)
Lemma hk_train_ok_attrs nh nl (o : hk_attrs d) (Xh : 'M[R]_(nh, d)) (Yh : 'cV[R]_nh) (Xl : 'M[R]_(nl, d)) (Yl : 'cV[R]_nl) sl sh g :
  hk_train lo hi (plain_hk o) Xh Yh Xl Yl sl sh = Ok g ->
  exists lf F0 h alpha m, gp_train Ord lo hi (plain (b_lf o)) Xl Yl sl = Ok lf /\ stdev Yh <> R0 /\
    gp_predict Ord lo hi lf Xh = Ok F0 /\
    let Xs := normalize_input lo hi Xh in
    let noise := if a_noise (b_hf o) is Some s0 then s0 else Rmult (h_sigma h) (stdev Yh) in
    let k := set_params (a_kernel (b_hf o)) (h_theta h) in
    let K := noise_matrix Xs k (Rdiv noise (stdev Yh)) in
    let F := scale_col Yh F0 in
    fit_spec K F (normalize_output Yh) m /\
    train o Xh Yh Xl Yl sl sh = (HKAttrs (train_attrs Ord lo hi (b_lf o) Xl Yl sl).1 (Some (Columns Xl))
       (hk_fitted (put_opt (put_f (after (b_hf o) Xh Yh) (Columns F)) h) Xs (normalize_output Yh) (stdev Yh) h alpha m), Ok tt) /\
    g = MkHK (Some noise) (a_restart (b_hf o)) k lf
      (Some (HKTrained Xs (normalize_output Yh) F (mean Yh) (stdev Yh) K m
        (Rminus (Rmult (Rmult (Ropp (Rdiv 1 2)) (INR nh)) (kr_sigma2 m)) (sum_log_diag (kr_L m))))).
Proof.
rewrite /hk_train /hk_train_attrs; case El: (gp_train _ _ _ _ _ _ _) => [lf|//] /=.
have [-> [SA _]] := train_answers El. rewrite /train_hf_attrs (SA _ Xh).1.
case: (Req_EM_T _ _) => // HY /=; case EF: (gp_predict _ _ _ _ _) => [F0|//] /=.
rewrite -/(scale_col Yh F0). case: (hyper_search _ _ _) => [h|//] /=; rewrite /hk_update /=.
case Em: (krig_fit _ _ _) => [m|//] /= [<-].
have [alpha Ea] := @hk_update_ok nh (put_opt (put_f (after (b_hf o) Xh Yh) (Columns (scale_col Yh F0))) h) (normalize_input lo hi Xh) (normalize_output Yh) (scale_col Yh F0) (stdev Yh) h m Em.
exists lf, F0, h, alpha, m; do 3 (split=> //); split.
  apply: krig_fit_spec Em. apply: (kernel_noise_pos _ _ _).1. exact: set_params_pos.
by split=> //; rewrite Ea.
Qed.
Lemma hk_train_raise_attrs nh nl (o : hk_attrs d) (Xh : 'M[R]_(nh, d)) (Yh : 'cV[R]_nh) (Xl : 'M[R]_(nl, d)) (Yl : 'cV[R]_nl) sl sh e :
  hk_train lo hi (plain_hk o) Xh Yh Xl Yl sl sh = Raise e <-> (train o Xh Yh Xl Yl sl sh).2 = Raise e.
Proof.
rewrite /hk_train /hk_train_attrs; case El: (gp_train _ _ _ _ _ _ _) => [lf|e'] /=; last first.
  by move/train_raise_attrs: El => -> /=; split=> -[->].
have [-> [SA _]] := train_answers El. rewrite /train_hf_attrs (SA _ Xh).1.
case: (Req_EM_T _ _) => [E|HY] /=; first by split=> -[->].
case EF: (gp_predict _ _ _ _ _) => [F0|e'] /=; last by split=> -[->].
rewrite -/(scale_col Yh F0). case: (hyper_search _ _ _) => [h|e'] /=; last by split=> -[->].
rewrite /hk_update /=; case Em: (krig_fit _ _ _) => [m|e'] /=.
  by have [alpha ->] := @hk_update_ok nh (put_opt (put_f (after (b_hf o) Xh Yh) (Columns (scale_col Yh F0))) h) (normalize_input lo hi Xh) (normalize_output Yh) (scale_col Yh F0) (stdev Yh) h m Em.
by rewrite (@hk_update_raise nh (put_opt (put_f (after (b_hf o) Xh Yh) (Columns (scale_col Yh F0))) h) (normalize_input lo hi Xh) (normalize_output Yh) (scale_col Yh F0) (stdev Yh) h e' Em); split=> -[->].
Qed.
Lemma hk_train_answers nh nl (o : hk_attrs d) (Xh : 'M[R]_(nh, d)) (Yh : 'cV[R]_nh) (Xl : 'M[R]_(nl, d)) (Yl : 'cV[R]_nl) sl sh g :
  hk_train lo hi (plain_hk o) Xh Yh Xl Yl sl sh = Ok g ->
  let o' := train o Xh Yh Xl Yl sl sh in
  o'.2 = Ok tt /\ hk_same_answers lo hi o'.1 g /\
  a_noise (b_hf o'.1) = hk_noise g /\ a_restart (b_hf o'.1) = hk_restart g /\ a_kernel (b_hf o'.1) = hk_kernel g /\
  a_noise (b_lf o'.1) = gp_noise (hk_lf g) /\ a_restart (b_lf o'.1) = gp_restart (hk_lf g) /\ a_kernel (b_lf o'.1) = gp_kernel (hk_lf g).
Proof.
case/hk_train_ok_attrs => lf [F0 [h [alpha [m [El [HY [EF [Hf [-> ->]]]]]]]]] /=.
have [_ [SA [A1 [A2 A3]]]] := train_answers El.
split=> //; split; last by [].
move=> q Xq; have [P _] := SA q Xq; rewrite /hk_predict_lf_attrs /= P; split=> //.
rewrite /hk_predict_std_attrs /hk_predict_std /hk_predict_attrs /hk_predict /hk_basis /hk_predict_lf_attrs /= P.
case: (gp_predict _ _ _ _ _) => [f0|e] //=; rewrite with_rows_id /=. split=> //.
rewrite with_order_id /= /krig_mse. case: (chol_solve (kr_L m) _) => [delta|//] /=. rewrite with_rows_id /= (fs_F Hf).
case: (chol_solve (kr_ld m) _) => [S|//] /=. congr Ok; congr pair; apply/matrixP => i j; rewrite !mxE //.
Qed.

(** ** failures *)
Lemma lf_failed nh nl (o : hk_attrs d) (Xh : 'M[R]_(nh, d)) (Yh : 'cV[R]_nh) (Xl : 'M[R]_(nl, d)) (Yl : 'cV[R]_nl) sl sh e :
  ~ constant Yl -> evaluated sl -> (train_attrs Ord lo hi (b_lf o) Xl Yl sl).2 = Raise e ->
  train o Xh Yh Xl Yl sl sh = (HKAttrs (after (b_lf o) Xl Yl) (b_xl o) (b_hf o), Raise e).
Proof. by move=> HY He /(failed_train HY He) E; rewrite /hk_train_attrs E. Qed.
Lemma hf_failed nh nl (o : hk_attrs d) (Xh : 'M[R]_(nh, d)) (Yh : 'cV[R]_nh) (Xl : 'M[R]_(nl, d)) (Yl : 'cV[R]_nl) sl sh e F0 :
  let lf := train_attrs Ord lo hi (b_lf o) Xl Yl sl in
  ~ constant Yh -> evaluated sh -> lf.2 = Ok tt -> predict_attrs Ord lo hi lf.1 Xh = Ok F0 ->
  (train o Xh Yh Xl Yl sl sh).2 = Raise e ->
  train o Xh Yh Xl Yl sl sh =
    (HKAttrs lf.1 (Some (Columns Xl)) (put_f (after (b_hf o) Xh Yh) (Columns (scale_col Yh F0))), Raise e).
Proof.
move=> lf HY He El EF; rewrite /hk_train_attrs -/lf El /train_hf_attrs EF.
case: (Req_EM_T _ _) => [E|N] /=; first by case: (stdev_constant HY).
rewrite -/(scale_col Yh F0). case Es: (hyper_search _ _ _) => [h|e'] /=; last by case=> ->.
have [v] := search_evaluated He Es; rewrite /hk_loglik kernel_callE.
have -> : (if a_noise (b_hf o) is Some s0 then Rdiv s0 (stdev Yh) else h_sigma h) =
   Rdiv (if a_noise (b_hf o) is Some s0 then s0 else Rmult (h_sigma h) (stdev Yh)) (stdev Yh).
  by case: (a_noise (b_hf o)) => [s0|] //; field.
case Em: (krig_fit _ _ _) => [m|//] /= _.
by have [alpha ->] := @hk_update_ok nh (put_opt (put_f (after (b_hf o) Xh Yh) (Columns (scale_col Yh F0))) h) (normalize_input lo hi Xh) (normalize_output Yh) (scale_col Yh F0) (stdev Yh) h m Em.
Qed.
Lemma train_predicts n m (o : attrs d 1) (X : 'M[R]_(n, d)) (Y : 'cV[R]_n) s (Xq : 'M[R]_(m, d)) :
  (train_attrs Ord lo hi o X Y s).2 = Ok tt -> exists mu, predict_attrs Ord lo hi (train_attrs Ord lo hi o X Y s).1 Xq = Ok mu.
Proof.
move=> Ho. case Eg: (gp_train Ord lo hi (plain o) X Y s) => [g|e]; last by move/train_raise_attrs: Eg; rewrite Ho.
have [_ [/(_ _ Xq) [-> _] _]] := train_answers Eg. have [mu [_ [-> _]]] := gp_predict_ok Xq Eg. by exists mu.
Qed.
(** the two stages: which one failed *)
Lemma hk_failed_kinds nh nl (o : hk_attrs d) (Xh : 'M[R]_(nh, d)) (Yh : 'cV[R]_nh) (Xl : 'M[R]_(nl, d)) (Yl : 'cV[R]_nl) sl sh e :
  ~ constant Yl -> evaluated sl -> ~ constant Yh -> evaluated sh -> (train o Xh Yh Xl Yl sl sh).2 = Raise e ->
  (e = UnboundLocalError \/ e = LinAlgError) /\
  let lf := train_attrs Ord lo hi (b_lf o) Xl Yl sl in
  (lf.2 = Raise e /\ (train o Xh Yh Xl Yl sl sh).1 = HKAttrs (after (b_lf o) Xl Yl) (b_xl o) (b_hf o) \/
   lf.2 = Ok tt /\ exists F0, predict_attrs Ord lo hi lf.1 Xh = Ok F0 /\
     (train o Xh Yh Xl Yl sl sh).1 = HKAttrs lf.1 (Some (Columns Xl)) (put_f (after (b_hf o) Xh Yh) (Columns (scale_col Yh F0)))).
Proof.
move=> Hl Hsl Hh Hsh Er; cbv zeta. set lf := train_attrs Ord lo hi (b_lf o) Xl Yl sl. case El: lf.2 => [[]|e'].
  have [F0 EF] := train_predicts Xh El. split; last first.
    by right; split=> //; exists F0; split=> //; rewrite (hf_failed Hh Hsh El EF Er).
  move: Er; rewrite /hk_train_attrs -/lf El /train_hf_attrs EF.
  case: (Req_EM_T _ _) => [E|N] /=; first by case: (stdev_constant Hh).
  rewrite -/(scale_col Yh F0). case Es: (hyper_search _ _ _) => [h|e'] /=.
    case Ek: (krig_fit (get_kernel_matrix (set_params (a_kernel (b_hf o)) (h_theta h)) (normalize_input lo hi Xh) (normalize_input lo hi Xh) +
       (Rmult (Rdiv (if a_noise (b_hf o) is Some s then s else Rmult (h_sigma h) (stdev Yh)) (stdev Yh)) (Rdiv (if a_noise (b_hf o) is Some s then s else Rmult (h_sigma h) (stdev Yh)) (stdev Yh)))%:M) (scale_col Yh F0) (normalize_output Yh)) => [m|e1].
      by have [alpha ->] := @hk_update_ok nh (put_opt (put_f (after (b_hf o) Xh Yh) (Columns (scale_col Yh F0))) h) (normalize_input lo hi Xh) (normalize_output Yh) (scale_col Yh F0) (stdev Yh) h m Ek.
    rewrite (@hk_update_raise nh (put_opt (put_f (after (b_hf o) Xh Yh) (Columns (scale_col Yh F0))) h) (normalize_input lo hi Xh) (normalize_output Yh) (scale_col Yh F0) (stdev Yh) h e1 Ek).
    by case=> <-; right; exact: krig_fit_raise Ek.
  case=> <-; apply: search_raise Es => q e1. rewrite /hk_loglik; case Ek: (krig_fit _ _ _) => [m|e2] //= [<-]. exact: krig_fit_raise Ek.
have Ee : e' = e by move: Er; rewrite /hk_train_attrs -/lf El => -[].
rewrite -Ee; split; first exact: failed_kinds Hl El.
by left; split=> //; rewrite (lf_failed _ _ _ Hl Hsl El).
Qed.

(** ** predictions after a failure *)
Lemma hk_trained_inv nh nl (o : hk_attrs d) (Xh : 'M[R]_(nh, d)) (Yh : 'cV[R]_nh) (Xl : 'M[R]_(nl, d)) (Yl : 'cV[R]_nl) sl sh :
  (train o Xh Yh Xl Yl sl sh).2 = Ok tt -> exists g, hk_train lo hi (plain_hk o) Xh Yh Xl Yl sl sh = Ok g.
Proof.
move=> H; case E: (hk_train _ _ _ _ _ _ _ _ _) => [g|e]; first by exists g.
by move/hk_train_raise_attrs: E; rewrite H.
Qed.
(** a high-fidelity stage that fails with another number of samples *)
Lemma hk_other_size nh nl nh' nl' (o : hk_attrs d) (Xh : 'M[R]_(nh, d)) (Yh : 'cV[R]_nh) (Xl : 'M[R]_(nl, d)) (Yl : 'cV[R]_nl) sl sh
   (Xh' : 'M[R]_(nh', d)) (Yh' : 'cV[R]_nh') (Xl' : 'M[R]_(nl', d)) (Yl' : 'cV[R]_nl') sl' sh' e m (Xq : 'M[R]_(m, d)) :
  let o1 := train o Xh Yh Xl Yl sl sh in
  let o2 := train o1.1 Xh' Yh' Xl' Yl' sl' sh' in
  o1.2 = Ok tt -> ~ constant Yh' -> evaluated sh' ->
  (train_attrs Ord lo hi (b_lf o1.1) Xl' Yl' sl').2 = Ok tt -> o2.2 = Raise e -> nh' <> nh ->
  (exists mu, hk_predict_lf_attrs lo hi o2.1 Xq = Ok mu) /\
  hk_predict_attrs lo hi o2.1 Xq = Raise ValueError /\ hk_predict_std_attrs lo hi o2.1 Xq = Raise ValueError.
Proof.
move=> o1 o2 H1 HY He El Er N. have [F0 EF] := train_predicts Xh' El.
have [mu Em] := train_predicts Xq El.
have E2 : o2.1 = HKAttrs (train_attrs Ord lo hi (b_lf o1.1) Xl' Yl' sl').1 (Some (Columns Xl')) (put_f (after (b_hf o1.1) Xh' Yh') (Columns (scale_col Yh' F0))).
  by rewrite /o2 (hf_failed HY He El EF Er).
have P : hk_predict_attrs lo hi o2.1 Xq = Raise ValueError.
  have [g Eg] := hk_trained_inv H1. have [lf [G0 [h [alpha [k [_ [_ [_ [_ [E1 _]]]]]]]]]] := hk_train_ok_attrs Eg.
  have Eh : b_hf o1.1 = hk_fitted (put_opt (put_f (after (b_hf o) Xh Yh) (Columns (scale_col Yh G0))) h) (normalize_input lo hi Xh) (normalize_output Yh) (stdev Yh) h alpha k by rewrite /o1 E1.
  rewrite E2 /hk_predict_attrs /hk_predict_lf_attrs [b_lf _]/= Em [b_hf _]/= Eh /=. by rewrite with_rows_ne // => E'; apply: N.
split; first by exists mu; rewrite E2. by split=> //; rewrite /hk_predict_std_attrs P.
Qed.
(** a high-fidelity stage that fails at the same samples: the new low-fidelity trend with the old correction *)
Lemma hk_stale_mix nh nl nl' (o : hk_attrs d) (Xh : 'M[R]_(nh, d)) (Yh Yh' : 'cV[R]_nh) (Xl : 'M[R]_(nl, d)) (Yl : 'cV[R]_nl) sl sh
   (Xl' : 'M[R]_(nl', d)) (Yl' : 'cV[R]_nl') sl' sh' e m (Xq : 'M[R]_(m, d)) l mu l' beta :
  let o1 := train o Xh Yh Xl Yl sl sh in
  let o2 := train o1.1 Xh Yh' Xl' Yl' sl' sh' in
  o1.2 = Ok tt -> ~ constant Yh' -> evaluated sh' ->
  (train_attrs Ord lo hi (b_lf o1.1) Xl' Yl' sl').2 = Ok tt -> o2.2 = Raise e ->
  hk_predict_lf_attrs lo hi o1.1 Xq = Ok l -> hk_predict_attrs lo hi o1.1 Xq = Ok mu ->
  a_beta (b_hf o1.1) = Some beta -> hk_predict_lf_attrs lo hi o2.1 Xq = Ok l' ->
  hk_predict_attrs lo hi o2.1 Xq = Ok (\col_j
    Rplus (Rplus (mean Yh') (Rmult (beta 0 0) (Rminus (l' j 0) (mean Yh'))))
          (Rmult (Rdiv (stdev Yh') (stdev Yh)) (Rminus (Rminus (mu j 0) (mean Yh)) (Rmult (beta 0 0) (Rminus (l j 0) (mean Yh)))))).
Proof.
move=> o1 o2 H1 HY He El Er. have [F0 EF] := train_predicts Xh El.
have E2 : o2.1 = HKAttrs (train_attrs Ord lo hi (b_lf o1.1) Xl' Yl' sl').1 (Some (Columns Xl')) (put_f (after (b_hf o1.1) Xh Yh') (Columns (scale_col Yh' F0))).
  by rewrite /o2 (hf_failed HY He El EF Er).
have [g Eg] := hk_trained_inv H1. have [lf [G0 [h [alpha [k [_ [Hs [_ [Hf [E1 _]]]]]]]]]] := hk_train_ok_attrs Eg.
have Eh : b_hf o1.1 = hk_fitted (put_opt (put_f (after (b_hf o) Xh Yh) (Columns (scale_col Yh G0))) h) (normalize_input lo hi Xh) (normalize_output Yh) (stdev Yh) h alpha k by rewrite /o1 E1.
rewrite /hk_predict_attrs Eh /= => -> /=; rewrite with_rows_id /= => -[<-] [<-] El'.
rewrite El' {1}E2 /= E2 /= Eh /= with_rows_id /=. congr Ok.
apply/matrixP => i j; rewrite [LHS]mxE [RHS]mxE. set u := (_^T *m kr_gamma k).
have Z (f : 'M[R]_(m, 1)) : (f *m kr_beta k + u) i 0 = Rplus (Rmult (f i 0) (kr_beta k 0 0)) (u i 0).
  by rewrite addE mxE big_ord1.
rewrite Z [X in Rminus (Rminus X _) _]mxE Z !mxE. have Hs' := stdev_constant HY.
move: (u i 0) (kr_beta k 0 0) (l' i 0) (l i 0) => u0 b0 x y. toR. field. by split.
Qed.

(** ** with a given noise nothing of the past matters *)
Lemma hk_attempt_noise (o : hk_attrs d) c s : a_noise (b_lf o) = Some s -> a_noise (b_hf o) = Some s ->
  let o' := (hk_attempt lo hi o c).1 in
  a_noise (b_lf o') = Some s /\ a_noise (b_hf o') = Some s /\
  a_restart (b_lf o') = a_restart (b_lf o) /\ a_restart (b_hf o') = a_restart (b_hf o).
Proof.
move=> Hl Hh. have Q1 := @attempts_noise d 1 Ord lo hi (b_lf o) [:: Call (k_Xl c) (k_Yl c) (k_sl c)] s Hl.
have Q2 := @attempts_restart d 1 Ord lo hi (b_lf o) [:: Call (k_Xl c) (k_Yl c) (k_sl c)].
move: Q1 Q2; rewrite /attempts /= /attempt /= /hk_attempt /hk_train_attrs => Q1 Q2.
case: (train_attrs _ _ _ _ _ _ _).2 => [u|e] /=; last by rewrite Q1 Q2.
rewrite Q1 Q2. split=> //.
rewrite /train_hf_attrs. case: (Req_EM_T _ _) => [E|N] //=. case: (predict_attrs _ _ _ _ _) => [F0|e] //=.
case: (hyper_search _ _ _) => [h|e] //=. rewrite /hk_update_attrs /= Hh.
by do !(case: (chol _) => [?|?] //= || case: (chol_solve _ _) => [?|?] //=).
Qed.
Lemma hk_attempts_noise (o : hk_attrs d) cs s : a_noise (b_lf o) = Some s -> a_noise (b_hf o) = Some s ->
  let o' := hk_attempts lo hi o cs in
  a_noise (b_lf o') = Some s /\ a_noise (b_hf o') = Some s /\
  a_restart (b_lf o') = a_restart (b_lf o) /\ a_restart (b_hf o') = a_restart (b_hf o).
Proof.
elim: cs o => [|c cs IH] o Hl Hh //; rewrite /hk_attempts /= -/(hk_attempts _ _ _ _).
have [A [B [C D]]] := hk_attempt_noise c Hl Hh. have [A' [B' [C' D']]] := IH _ A B.
by rewrite A' B' C' D' C D.
Qed.
Lemma hk_forgets noise r cs (c : hk_call d) :
  let o := hk_attempts lo hi (hk_attrs_new d (Some noise) r) cs in
  match hk_train lo hi (hk_new d (Some noise) r) (k_Xh c) (k_Yh c) (k_Xl c) (k_Yl c) (k_sl c) (k_sh c) with
  | Ok g => (hk_attempt lo hi o c).2 = Ok tt /\ hk_same_answers lo hi (hk_attempt lo hi o c).1 g
  | Raise e => (hk_attempt lo hi o c).2 = Raise e
  end.
Proof.
cbv zeta; set o := hk_attempts _ _ _ _.
have [A [B [C D]]] := @hk_attempts_noise (hk_attrs_new d (Some noise) r) cs noise erefl erefl. rewrite -/o in A B C D.
have -> : hk_train lo hi (hk_new d (Some noise) r) (k_Xh c) (k_Yh c) (k_Xl c) (k_Yl c) (k_sl c) (k_sh c) =
  hk_train lo hi (plain_hk o) (k_Xh c) (k_Yh c) (k_Xl c) (k_Yl c) (k_sl c) (k_sh c).
  by rewrite /hk_train /hk_update /gp_train /gp_update /= A B C D.
case E: (hk_train _ _ (plain_hk o) _ _ _ _ _ _) => [g|e]; last by apply/hk_train_raise_attrs.
by have [P [Q _]] := hk_train_answers E.
Qed.
End State.

(** ** a concrete failure: both calls have the same high-fidelity data; the second has other low-fidelity
    data and a high-fidelity search that finds nothing *)
Definition hx_o : hk_attrs 1 := hk_attrs_new 1 (Some R0) 0.
Definition hx_1 := hk_train_attrs fx_lo fx_hi hx_o fx_X fx_Y fx_X fx_Y fx_search fx_search.
Definition hx_2 := hk_train_attrs fx_lo fx_hi hx_1.1 fx_X fx_Y fx_X fx_Y' fx_search fx_nothing.
Lemma hx_usable : usable 0 fx_search. Proof. by exists 0%N. Qed.
Lemma hx_trained : exists g, hk_train fx_lo fx_hi (hk_new 1 (Some R0) 0) fx_X fx_Y fx_X fx_Y fx_search fx_search = Ok g /\
  gp_predict (@Ordinary 1) fx_lo fx_hi (hk_lf g) fx_X = Ok fx_Y.
Proof.
have [lf [F0 [El [EF H]]]] := @hk_train_iff 1 fx_lo fx_hi 2 2 (hk_new 1 (Some R0) 0) fx_X fx_Y fx_X fx_Y fx_search fx_search fx_varied fx_varied hx_usable hx_usable.
have [I _] := gp_interpolates (o := hk_lf (hk_new 1 (Some R0) 0)) (erefl _) El.
have [g Eg] : exists g, hk_train fx_lo fx_hi (hk_new 1 (Some R0) 0) fx_X fx_Y fx_X fx_Y fx_search fx_search = Ok g.
  apply/H. move: EF; rewrite I => -[<-]; exists 0. rewrite /mean !big_ord_recl big_ord0 !mxE /=; toR. lra.
exists g; split=> //. have [lf' [F0' [h [k [El' [_ [EF' [_ [_ ->]]]]]]]]] := hk_train_inv Eg. move: El'; rewrite El => -[<-]. exact: I.
Qed.
Lemma hx_1_ok : hx_1.2 = Ok tt.
Proof. have [g [Eg _]] := hx_trained. exact: (@hk_train_answers 1 fx_lo fx_hi 2 2 hx_o _ _ _ _ _ _ g Eg).1. Qed.
Lemma hx_lf_ok : (train_attrs (@Ordinary 1) fx_lo fx_hi (b_lf hx_1.1) fx_X fx_Y' fx_search).2 = Ok tt.
Proof.
have [g [Eg _]] := hx_trained.
have [_ [_ [_ [_ [_ [E1 [E2 E3]]]]]]] := @hk_train_answers 1 fx_lo fx_hi 2 2 hx_o _ _ _ _ _ _ g Eg.
have [lf' [F0' [h [k [El' [_ [EF' [_ [_ Eo]]]]]]]]] := hk_train_inv Eg.
have Er : a_restart (b_lf hx_1.1) = 0%N.
  by rewrite [LHS]E2 Eo /=; have [_ [h' [m [_ [_ ->]]]]] := train_inv El'.
have U : usable (gp_restart (plain (b_lf hx_1.1))) fx_search by rewrite /= Er; exact: hx_usable.
have [g1 Eg1] := gp_train_ordinary fx_lo fx_hi fx_X fx_varied' U. exact: (train_answers Eg1).1.
Qed.
Lemma hx_2_fails : hx_2.2 = Raise UnboundLocalError.
Proof.
rewrite /hx_2 /hk_train_attrs hx_lf_ok /train_hf_attrs.
have [F0 EF] := train_predicts fx_X hx_lf_ok. rewrite EF.
case: (Req_EM_T _ _) => [E|HY] /=; first by case: (stdev_constant fx_varied).
have [g [Eg _]] := hx_trained.
have [_ [_ [_ [Er _]]]] := @hk_train_answers 1 fx_lo fx_hi 2 2 hx_o _ _ _ _ _ _ g Eg.
have -> : a_restart (b_hf hx_1.1) = 0%N by rewrite [LHS]Er; have [lf' [F0' [h [k [_ [_ [_ [_ [_ ->]]]]]]]]] := hk_train_inv Eg.
have I : predict_attrs (@Ordinary 1) fx_lo fx_hi (train_attrs (@Ordinary 1) fx_lo fx_hi (b_lf hx_1.1) fx_X fx_Y' fx_search).1 fx_X = Ok fx_Y'.
  have [lf' [F0' [h [k [El' [_ [_ [_ [_ Eo]]]]]]]]] := hk_train_inv Eg.
  have [_ [_ [_ [_ [_ [En _]]]]]] := @hk_train_answers 1 fx_lo fx_hi 2 2 hx_o _ _ _ _ _ _ g Eg.
  case Eg1: (gp_train (@Ordinary 1) fx_lo fx_hi (plain (b_lf hx_1.1)) fx_X fx_Y' fx_search) => [g1|e]; last first.
    by move/train_raise_attrs: Eg1; rewrite hx_lf_ok.
  have [_ [/(_ _ fx_X) [-> _] _]] := train_answers Eg1.
  apply: (gp_interpolates _ Eg1).1. rewrite /= [LHS]En Eo /=. by have [_ [h' [m [_ [_ ->]]]]] := train_inv El'.
move: EF; rewrite I => -[<-].
have HF : full_rank (scale_col fx_Y fx_Y').
  apply/(scale_col_nz _ (nonconstant fx_varied)); exists 0. rewrite /mean !big_ord_recl big_ord0 !mxE /=; toR. lra.
rewrite /hyper_search /=.
have [v ->] := hk_loglik_ok (a_noise (b_hf hx_1.1)) (normalize_input fx_lo fx_hi fx_X) (normalize_output fx_Y) (stdev fx_Y) (a_kernel (b_hf hx_1.1)) (Hyper 0 1) HF.
by [].
Qed.
Lemma hk_rollback_refuted :
  hx_1.2 = Ok tt /\ hx_2.2 = Raise UnboundLocalError /\
  hk_predict_attrs fx_lo fx_hi hx_1.1 fx_X = Ok fx_Y /\
  hk_predict_attrs fx_lo fx_hi hx_2.1 fx_X = Ok fx_Y' /\ fx_Y' <> fx_Y.
Proof.
split; first exact: hx_1_ok. split; first exact: hx_2_fails.
have [g [Eg Il]] := hx_trained.
have [_ [SA _]] := @hk_train_answers 1 fx_lo fx_hi 2 2 hx_o _ _ _ _ _ _ g Eg.
have [A [B _]] := SA _ fx_X. 
have P1 : hk_predict_attrs fx_lo fx_hi hx_1.1 fx_X = Ok fx_Y.
  rewrite [LHS]B. exact: (hk_interpolates (o := hk_new 1 (Some R0) 0) (erefl _) Eg).1.
split=> //.
have L1 : hk_predict_lf_attrs fx_lo fx_hi hx_1.1 fx_X = Ok fx_Y by rewrite [LHS]A.
have [lf [G0 [h [alpha [k [_ [Hs [_ [Hf [E1 Eo]]]]]]]]]] := @hk_train_ok_attrs 1 fx_lo fx_hi 2 2 hx_o _ _ _ _ _ _ g Eg.
have Eb : a_beta (b_hf hx_1.1) = Some (1%:M : 'M[R]_1).
  have [t [f [noise [Et [Eb _]]]]] := @hk_proportional 1 fx_lo fx_hi 2 2 2 _ _ _ _ _ _ _ _ R1 fx_X fx_Y Eg Il (fun i => esym (Rmult_1_l _)).
  move: Et; rewrite Eo /= => -[Et]; move: Eb; rewrite -Et /= => Eb. by rewrite /hx_1 E1 /= Eb.
have L2 : hk_predict_lf_attrs fx_lo fx_hi hx_2.1 fx_X = Ok fx_Y'.
  have [F0 EF] := train_predicts fx_X hx_lf_ok.
  have E2 := hf_failed fx_varied (fx_ok').2 hx_lf_ok EF hx_2_fails.
  have -> : hx_2.1 = HKAttrs (train_attrs (@Ordinary 1) fx_lo fx_hi (b_lf hx_1.1) fx_X fx_Y' fx_search).1 (Some (Columns fx_X)) (put_f (put_data (b_hf hx_1.1) (Dataset fx_X (normalize_input fx_lo fx_hi fx_X) fx_Y (normalize_output fx_Y))) (Columns (scale_col fx_Y F0))).
    by rewrite /hx_2 E2.
  rewrite /hk_predict_lf_attrs [b_lf _]/=.
  case Eg1: (gp_train (@Ordinary 1) fx_lo fx_hi (plain (b_lf hx_1.1)) fx_X fx_Y' fx_search) => [g1|e]; last first.
    by move/train_raise_attrs: Eg1; rewrite hx_lf_ok.
  have [_ [/(_ _ fx_X) [-> _] _]] := train_answers Eg1.
  have [_ [_ [_ [_ [_ [En _]]]]]] := @hk_train_answers 1 fx_lo fx_hi 2 2 hx_o _ _ _ _ _ _ g Eg.
  have [lf' [F0' [h' [k' [El' [_ [_ [_ [_ Eo']]]]]]]]] := hk_train_inv Eg.
  apply: (gp_interpolates _ Eg1).1. rewrite /= [LHS]En Eo' /=. by have [_ [h2 [m2 [_ [_ ->]]]]] := train_inv El'.
have := @hk_stale_mix 1 fx_lo fx_hi 2 2 2 hx_o fx_X fx_Y fx_Y fx_X fx_Y fx_search fx_search fx_X fx_Y' fx_search fx_nothing UnboundLocalError 2 fx_X fx_Y fx_Y fx_Y' (1%:M)
  hx_1_ok fx_varied (fx_ok').2 hx_lf_ok hx_2_fails L1 P1 Eb L2.
rewrite -/hx_2 => ->. split.
  congr Ok; apply/matrixP => i j; rewrite mxE [(1%:M : 'M[R]_1) 0 0]mxE eqxx (ord1 j). move: (fx_Y' i 0) (fx_Y i 0) (mean fx_Y) => a b c.
  have HY := stdev_constant fx_varied. rewrite mulr1n. toR. field. exact: HY.
move/matrixP => /(_ 0 0); rewrite !mxE /=; toR; lra.
Qed.
Lemma hk_rollback_witness : exists n (X : 'M[R]_(n, 1)) (Yh Yl Z : 'cV[R]_n) sl sh sl' sh' e (o := hk_attrs_new 1 (Some R0) 0),
  ~ constant Yh /\ ~ constant Yl /\ evaluated sl /\ evaluated sh /\ evaluated sl' /\ evaluated sh' /\
  let o1 := hk_train_attrs fx_lo fx_hi o X Yh X Yh sl sh in
  let o2 := hk_train_attrs fx_lo fx_hi o1.1 X Yh X Yl sl' sh' in
  o1.2 = Ok tt /\ o2.2 = Raise e /\
  hk_predict_attrs fx_lo fx_hi o1.1 X = Ok Yh /\ hk_predict_attrs fx_lo fx_hi o2.1 X = Ok Z /\ Z <> Yh.
Proof.
exists 2%N, fx_X, fx_Y, fx_Y', fx_Y', fx_search, fx_search, fx_search, fx_nothing, UnboundLocalError.
split; first exact: fx_varied. split; first exact: fx_varied'.
have E := (fx_ok).2. do 3 (split; first exact: E). split; first exact: (fx_ok').2. exact: hk_rollback_refuted.
Qed.
