(** Theorems about models/gaussian_process.py (C39 to C50).
    The vocabulary is in LinSpec.v and GPSpec.v: [gls] is the least squares objective, [blup_mean] and
    [blup_var] the best linear unbiased prediction, [first_best] the first smallest trial, [usable] says
    that some trial of the search returned a value below +inf.  The searches are free: the points they
    evaluate and return are arbitrary. *)
From Coq Require Import Reals Lra List ZArith.
From Verif Require Import Fl Spec EA EASpec Properties_EA.
From mathcomp Require Import all_ssreflect all_algebra.
From Verif Require Import RStruct LinAlg LinSpec LinAlgFacts Kernel KernelFacts Krig GP GPSpec GPFacts GPMain GPEvo.
Set Implicit Arguments.
Unset Strict Implicit.
Unset Printing Implicit Defensive.
Import GRing.Theory.
Local Open Scope ring_scope.

(** *** a concrete case used below: two points on a line, responses 0 and 1, box [0, 1] *)
Definition ex_X : 'M[R]_(2, 1) := \matrix_(i, k) INR i.
Definition ex_Y : 'cV[R]_2 := \col_i INR i.
Definition ex_lo : 'rV[R]_1 := 0.
Definition ex_hi : 'rV[R]_1 := const_mx 1.
Definition ex_search : search (hyper 1) := Lbfgs (fun _ => Trial [::] (Hyper 0 1) f1).
Example ex_space : space_ok ex_lo ex_hi. Proof. by move=> k; rewrite !mxE; exact: Rlt_0_1. Qed.
Example ex_varied : ~ constant ex_Y.
Proof. by move=> /(_ 0 1); rewrite !mxE => E; apply: R1_neq_R0. Qed.
Example ex_usable : usable 0 ex_search. Proof. by exists 0%N. Qed.
Lemma ex_full : full_rank (regr_matrix (@Linear 1) (normalize_input ex_lo ex_hi ex_X)).
Proof.
move=> x /matrixP E. have E0 := E 0 0; have E1 := E 1 0; move: E0 E1.
rewrite ![(_ *m x) _ 0]mxE !big_ord_recl !big_ord0.
rewrite ![regr_matrix _ _ _ _]mxE ![Linear _ _ _]mxE /= /row_seq enum_ordSl /= !mxE /=.
set a := x ord0 0; set b := x (lift ord0 ord0) 0. move: (erefl a) (erefl b); rewrite {1}/a {1}/b.
move: a b => a b Ea Eb; toR => E0 E1.
have Ha : a = R0 by move: E0; rewrite /Rdiv; lra.
have Hb : b = R0 by move: E1; rewrite Ha /Rdiv Rminus_0_r Rinv_1; lra.
apply/matrixP => i j; rewrite ord1 mxE. case: (unliftP 0 i) => [k ->|->]; last by rewrite -[RHS]Ha.
by rewrite (ord1 k) -[RHS]Hb.
Qed.
Example ex_linear noise : exists o', gp_train (@Linear 1) ex_lo ex_hi (gp_new 1 2 noise 0) ex_X ex_Y ex_search = Ok o'.
Proof. exact: (gp_train_full ex_full ex_varied (ex_usable : usable (gp_restart (gp_new 1 2 noise 0)) _)). Qed.

(** ** C40 training succeeds *)
Theorem C40_train_ordinary : forall d (lo hi : 'rV[R]_d) n (o : gp d 1) (X : 'M[R]_(n, d)) (Y : 'cV[R]_n) s,
  ~ constant Y -> usable (gp_restart o) s -> exists o', gp_train (@Ordinary d) lo hi o X Y s = Ok o'.
Proof. exact gp_train_ordinary. Qed.
Print Assumptions C40_train_ordinary.
(** with any basis of full column rank on the data *)
Theorem C40_train_full_rank : forall d p (phi : 'rV[R]_d -> 'rV[R]_p) (lo hi : 'rV[R]_d) n (o : gp d p) (X : 'M[R]_(n, d)) (Y : 'cV[R]_n) s,
  full_rank (regr_matrix phi (normalize_input lo hi X)) -> ~ constant Y -> usable (gp_restart o) s ->
  exists o', gp_train phi lo hi o X Y s = Ok o'.
Proof. exact gp_train_full. Qed.
Print Assumptions C40_train_full_rank.
Theorem C40_predict : forall d p (phi : 'rV[R]_d -> 'rV[R]_p) (lo hi : 'rV[R]_d) n m (o o' : gp d p) (X : 'M[R]_(n, d)) (Y : 'cV[R]_n) s (Xq : 'M[R]_(m, d)),
  gp_train phi lo hi o X Y s = Ok o' ->
  exists mu sd, gp_predict phi lo hi o' Xq = Ok mu /\ gp_predict_std phi lo hi o' Xq = Ok (mu, sd).
Proof. exact gp_predict_ok. Qed.
Print Assumptions C40_predict.
Example ex_trained noise : exists o', gp_train (@Ordinary 1) ex_lo ex_hi (gp_new 1 1 noise 0) ex_X ex_Y ex_search = Ok o'.
Proof. exact (gp_train_ordinary ex_lo ex_hi ex_X ex_varied (ex_usable : usable (gp_restart (gp_new 1 1 noise 0)) _)). Qed.

(** ** C41 interpolation *)
Theorem C41_interpolates : forall d p (phi : 'rV[R]_d -> 'rV[R]_p) (lo hi : 'rV[R]_d) n (o o' : gp d p) (X : 'M[R]_(n, d)) (Y : 'cV[R]_n) s,
  gp_noise o = Some R0 -> gp_train phi lo hi o X Y s = Ok o' ->
  gp_predict phi lo hi o' X = Ok Y /\ gp_predict_std phi lo hi o' X = Ok (Y, 0).
Proof. exact gp_interpolates. Qed.
Print Assumptions C41_interpolates.
Example C41_ok : exists o o', gp_noise o = Some R0 /\ gp_train (@Ordinary 1) ex_lo ex_hi o ex_X ex_Y ex_search = Ok o'.
Proof. have [o' E] := ex_trained (Some R0). by exists (gp_new 1 1 (Some R0) 0), o'. Qed.

(** ** C42 generalised least squares *)
Theorem C42_least_squares : forall d p (phi : 'rV[R]_d -> 'rV[R]_p) (lo hi : 'rV[R]_d) n (o o' : gp d p) (X : 'M[R]_(n, d)) (Y : 'cV[R]_n) s t,
  gp_train phi lo hi o X Y s = Ok o' -> gp_model o' = Some t ->
  let obj b := gls (tr_K t) (regr_matrix phi (tr_X t)) (tr_Y t) b in
  let beta := kr_beta (tr_krig t) in
  (forall b, (obj beta <= obj b)%Re) /\ (forall b, obj b = obj beta -> b = beta) /\
  kr_sigma2 (tr_krig t) = Rdiv (obj beta) (INR (tr_n t)) /\ (0 <= kr_sigma2 (tr_krig t))%Re.
Proof. exact gp_gls. Qed.
Print Assumptions C42_least_squares.
(** the data of that problem: the scaled samples and responses, and the kernel matrix plus the squared
    scaled noise *)
Theorem C42_data : forall d p (phi : 'rV[R]_d -> 'rV[R]_p) (lo hi : 'rV[R]_d) n (o o' : gp d p) (X : 'M[R]_(n, d)) (Y : 'cV[R]_n) s,
  gp_train phi lo hi o X Y s = Ok o' -> exists t noise, gp_model o' = Some t /\ gp_noise o' = Some noise /\
  tr_mean t = mean Y /\ tr_std t = stdev Y /\
  exists E : tr_n t = n, castmx (E, erefl d) (tr_X t) = normalize_input lo hi X /\
    castmx (E, erefl 1%N) (tr_Y t) = normalize_output Y /\
    tr_K t = get_kernel_matrix (gp_kernel o') (tr_X t) (tr_X t) + (Rmult (Rdiv noise (stdev Y)) (Rdiv noise (stdev Y)))%:M.
Proof. exact gp_data. Qed.
Print Assumptions C42_data.
Theorem C42_ordinary_positive : forall d (lo hi : 'rV[R]_d) n (o o' : gp d 1) (X : 'M[R]_(n, d)) (Y : 'cV[R]_n) s t,
  gp_train (@Ordinary d) lo hi o X Y s = Ok o' -> gp_model o' = Some t -> (0 < kr_sigma2 (tr_krig t))%Re.
Proof. exact ordinary_sigma2. Qed.
Print Assumptions C42_ordinary_positive.
Example ex_model noise : exists o' t, gp_train (@Ordinary 1) ex_lo ex_hi (gp_new 1 1 noise 0) ex_X ex_Y ex_search = Ok o' /\ gp_model o' = Some t.
Proof. have [o' E] := ex_trained noise; have [t [_ [Et _]]] := gp_data E; by exists o', t. Qed.

(** ** C43 the predicted mean and standard deviation.  [epi] is the epistemic variance; rows from n on
    get no jitter. *)
Theorem C43_std : forall d p (phi : 'rV[R]_d -> 'rV[R]_p) (lo hi : 'rV[R]_d) n m (o o' : gp d p) (X : 'M[R]_(n, d)) (Y : 'cV[R]_n) s (Xq : 'M[R]_(m, d)) mu sd noise t,
  gp_train phi lo hi o X Y s = Ok o' -> gp_model o' = Some t -> gp_noise o' = Some noise ->
  gp_predict_std phi lo hi o' Xq = Ok (mu, sd) ->
  let F := regr_matrix phi (tr_X t) in
  let c := get_kernel_matrix (gp_kernel o') (tr_X t) (normalize_input lo hi Xq) in
  let f j := phi (row j (normalize_input lo hi Xq)) in
  let epi j := Rmult (Rmult (tr_std t) (tr_std t)) (Rmult (kr_sigma2 (tr_krig t)) (blup_var (tr_K t) F (col j c) (f j))) in
  forall j,
  mu j 0 = Rplus (Rmult (blup_mean (tr_K t) F (tr_Y t) (kr_beta (tr_krig t)) (col j c) (f j)) (tr_std t)) (tr_mean t) /\
  sd j 0 = sqrt (Rmax (Rplus (epi j) (Rmult noise noise)) 0) /\
  (0 <= sd j 0%R)%Re /\
  ((0 <= epi j)%Re -> (Rabs noise <= sd j 0%R)%Re) /\
  ((tr_n t <= j)%N -> (0 <= epi j)%Re).
Proof. exact gp_std. Qed.
Print Assumptions C43_std.

(** ** C39 a prediction depends on the position in the batch *)
Theorem C39_position : forall d p (phi : 'rV[R]_d -> 'rV[R]_p) (lo hi : 'rV[R]_d) (o : gp d p) t m1 m2 (X1 : 'M[R]_(m1, d)) (X2 : 'M[R]_(m2, d)) mu1 mu2 (j1 : 'I_m1) (j2 : 'I_m2) (i : 'I_(tr_n t)),
  gp_model o = Some t -> gp_predict phi lo hi o X1 = Ok mu1 -> gp_predict phi lo hi o X2 = Ok mu2 ->
  row j1 X1 = row j2 X2 -> i = j1 :> nat -> (tr_n t <= j2)%N ->
  Rminus (mu1 j1 0) (mu2 j2 0) = Rmult (Rmult (Rinv (10 ^ 10)) (kr_gamma (tr_krig t) i 0)) (tr_std t).
Proof. exact gp_position. Qed.
Print Assumptions C39_position.
(** with the Ordinary basis a batch that repeats any one point n + 1 times never gets one answer *)
Theorem C39_batch_differs : forall d (lo hi : 'rV[R]_d) n (o o' : gp d 1) (X : 'M[R]_(n, d)) (Y : 'cV[R]_n) s t (x : 'rV[R]_d) mu,
  gp_train (@Ordinary d) lo hi o X Y s = Ok o' -> gp_model o' = Some t ->
  gp_predict (@Ordinary d) lo hi o' (\matrix_(i < (tr_n t).+1, k < d) x 0 k) = Ok mu ->
  exists j, mu j 0 <> mu ord_max 0.
Proof. exact gp_same_point_ordinary. Qed.
Print Assumptions C39_batch_differs.

(** ** C44 response units *)
Theorem C44_equivariant : forall d p (phi : 'rV[R]_d -> 'rV[R]_p) (lo hi : 'rV[R]_d) n m (o o' : gp d p) (X : 'M[R]_(n, d)) (Y : 'cV[R]_n) s a b (Xq : 'M[R]_(m, d)) mu sd,
  (0 < a)%Re ->
  gp_train phi lo hi o X Y s = Ok o' -> gp_predict_std phi lo hi o' Xq = Ok (mu, sd) ->
  exists o2, gp_train phi lo hi (MkGP (omap (Rmult a) (gp_noise o)) (gp_restart o) (gp_kernel o) (gp_model o)) X
                     (\col_i Rplus (Rmult a (Y i 0)) b) s = Ok o2 /\
    gp_noise o2 = omap (Rmult a) (gp_noise o') /\
    gp_predict phi lo hi o2 Xq = Ok (\col_j Rplus (Rmult a (mu j 0)) b) /\
    gp_predict_std phi lo hi o2 Xq = Ok (\col_j Rplus (Rmult a (mu j 0)) b, \col_j Rmult a (sd j 0)).
Proof. exact gp_equivariant. Qed.
Print Assumptions C44_equivariant.

(** ** C45 input units *)
Theorem C45_input_units : forall d p (phi : 'rV[R]_d -> 'rV[R]_p) (lo hi : 'rV[R]_d) n m (o : gp d p) (X : 'M[R]_(n, d)) (Y : 'cV[R]_n) s (c t : 'rV[R]_d) (Xq : 'M[R]_(m, d)),
  space_ok lo hi -> (forall k, c 0 k <> R0) ->
  let aff q (Z : 'M[R]_(q, d)) := \matrix_(i, k) Rplus (Rmult (c 0 k) (Z i k)) (t 0 k) in
  let lo' := \row_k Rplus (Rmult (c 0 k) (lo 0 k)) (t 0 k) in
  let hi' := \row_k Rplus (Rmult (c 0 k) (hi 0 k)) (t 0 k) in
  gp_train phi lo' hi' o (aff n X) Y s = gp_train phi lo hi o X Y s /\
  forall o', gp_predict phi lo' hi' o' (aff m Xq) = gp_predict phi lo hi o' Xq /\
             gp_predict_std phi lo' hi' o' (aff m Xq) = gp_predict_std phi lo hi o' Xq.
Proof. exact gp_input_invariant. Qed.
Print Assumptions C45_input_units.
Example C45_ok : space_ok ex_lo ex_hi /\ forall k, (const_mx (Rplus 1 1) : 'rV[R]_1) 0 k <> R0.
Proof. split; first exact: ex_space. move=> k; rewrite mxE. toR. lra. Qed.

(** ** C46 normalisation *)
Theorem C46_unit_cube : forall d n (lo hi : 'rV[R]_d) (X : 'M[R]_(n, d)) i k, space_ok lo hi ->
  ((lo 0%R k <= X i k <= hi 0%R k)%Re <-> (0 <= normalize_input lo hi X i k <= 1)%Re).
Proof. exact normalize_unit. Qed.
Print Assumptions C46_unit_cube.
Theorem C46_inverse : forall d n (lo hi : 'rV[R]_d) (X : 'M[R]_(n, d)) i k, space_ok lo hi ->
  Rplus (lo 0 k) (Rmult (normalize_input lo hi X i k) (Rminus (hi 0 k) (lo 0 k))) = X i k.
Proof. exact normalize_input_inv. Qed.
Print Assumptions C46_inverse.
Theorem C46_order : forall d n (lo hi : 'rV[R]_d) (X : 'M[R]_(n, d)) i j k, space_ok lo hi ->
  ((X i k < X j k)%Re <-> (normalize_input lo hi X i k < normalize_input lo hi X j k)%Re).
Proof. exact normalize_mono. Qed.
Print Assumptions C46_order.
Theorem C46_corners : forall d (lo hi : 'rV[R]_d), space_ok lo hi ->
  normalize_input lo hi lo = 0 /\ normalize_input lo hi hi = const_mx 1.
Proof. exact normalize_corners. Qed.
Print Assumptions C46_corners.
Theorem C46_responses : forall n (Y : 'cV[R]_n), ~ constant Y ->
  Rdiv (\sum_i normalize_output Y i 0) (INR n) = 0 /\
  Rdiv (\sum_i Rmult (normalize_output Y i 0) (normalize_output Y i 0)) (INR n) = 1.
Proof. exact normalize_responses. Qed.
Print Assumptions C46_responses.

(** ** C47 the noise is learned once *)
Theorem C47_given_noise : forall d p (phi : 'rV[R]_d -> 'rV[R]_p) (lo hi : 'rV[R]_d) (o o' : gp d p) cs noise,
  gp_noise o = Some noise -> gp_trains phi lo hi o cs = Ok o' -> gp_noise o' = Some noise.
Proof. exact noise_kept. Qed.
Print Assumptions C47_given_noise.
Theorem C47_learned_once : forall d p (phi : 'rV[R]_d -> 'rV[R]_p) (lo hi : 'rV[R]_d) (o o' : gp d p) c cs,
  gp_noise o = None -> gp_trains phi lo hi o (c :: cs) = Ok o' ->
  exists h, result_of (c_search c) (gp_restart o) h /\ gp_noise o' = Some (Rmult (h_sigma h) (stdev (c_Y c))).
Proof. exact noise_learned. Qed.
Print Assumptions C47_learned_once.
(** and once it is known the objective of the search only depends on the kernel parameters *)
Theorem C47_kernel_only : forall d p (phi : 'rV[R]_d -> 'rV[R]_p) n noise (X : 'M[R]_(n, d)) (Y : 'cV[R]_n) ys k theta s1 s2,
  loglik phi (Some noise) X Y ys k (Hyper theta s1) = loglik phi (Some noise) X Y ys k (Hyper theta s2).
Proof. exact loglik_kernel_only. Qed.
Print Assumptions C47_kernel_only.
Example C47_ok : exists o', gp_trains (@Ordinary 1) ex_lo ex_hi (gp_new 1 1 None 0) [:: Call ex_X ex_Y ex_search; Call ex_X ex_Y ex_search] = Ok o'.
Proof.
have [o1 E] := ex_trained None; rewrite /= E /=.
have U : usable (gp_restart o1) ex_search by exists 0%N.
by have [o2 ->] := gp_train_ordinary ex_lo ex_hi ex_X ex_varied U; exists o2.
Qed.

(** ** C48 the multi-start search *)
Theorem C48_best_trial : forall A r (objective : A -> result R) oracle h t0, hyper_search r objective (Lbfgs oracle) = Ok h ->
  exists i, first_best t0 (trials r oracle) i /\ (nth t0 (trials r oracle) i).1 = h.
Proof. exact search_first_best. Qed.
Print Assumptions C48_best_trial.
Theorem C48_no_trial : forall A r (objective : A -> result R) oracle, (forall h, exists v, objective h = Ok v) ->
  ((forall i, (i <= r)%N -> flt (t_fun (oracle i)) finf = false) <->
   hyper_search r objective (Lbfgs oracle) = Raise UnboundLocalError).
Proof. exact search_unbound. Qed.
Print Assumptions C48_no_trial.
Example C48_ok : exists h, hyper_search 2 (fun _ : hyper 1 => Ok R0) ex_search = Ok h.
Proof. by eexists. Qed.

(** ** C49 bounds *)
Theorem C49_lbfgs : forall d p (phi : 'rV[R]_d -> 'rV[R]_p) (lo hi : 'rV[R]_d) n (o o' : gp d p) (X : 'M[R]_(n, d)) (Y : 'cV[R]_n) s (lb ub : 'rV[R]_d) sl su,
  (forall h, result_of s (gp_restart o) h ->
     (forall k, (lb 0%R k <= h_theta h 0%R k <= ub 0%R k)%Re) /\ (gp_noise o = None -> (sl <= h_sigma h <= su)%Re)) ->
  gp_train phi lo hi o X Y s = Ok o' ->
  (forall k, exists t, rbf_param (gp_kernel o') 0 k = Rpower 10 t /\ (lb 0%R k <= t <= ub 0%R k)%Re) /\
  (gp_noise o = None -> exists noise, gp_noise o' = Some noise /\ (sl * stdev Y <= noise <= su * stdev Y)%Re).
Proof. exact gp_in_bounds. Qed.
Print Assumptions C49_lbfgs.
Example C49_lbfgs_ok : forall h, result_of ex_search 0 h ->
  (forall k, (-5 <= h_theta h 0%R k <= 5)%Re) /\ (1 / 100000 <= h_sigma h <= 10)%Re.
Proof. by move=> h [i [_ <-]] /=; split; [move=> k; rewrite mxE|]; toR; lra. Qed.
(** PSO and DE need no such hypothesis *)
Theorem C49_de : forall d p (phi : 'rV[R]_d -> 'rV[R]_p) (lo hi : 'rV[R]_d) n (o o' : gp d p) (X : 'M[R]_(n, d)) (Y : 'cV[R]_n) qs cfg b func rng tr out,
  de_draws_ok cfg b rng -> box_ok b -> isfin (d_F cfg) = true -> searched (gp_noise o) d b ->
  de_run cfg b func rng None = (tr, Ok out) ->
  gp_train phi lo hi o X Y (Evolution qs (hyper_of_row d (o_best_x out))) = Ok o' -> hyper_inside b o o' (stdev Y).
Proof. exact gp_de_bounds. Qed.
Print Assumptions C49_de.
Theorem C49_pso : forall d p (phi : 'rV[R]_d -> 'rV[R]_p) (lo hi : 'rV[R]_d) n (o o' : gp d p) (X : 'M[R]_(n, d)) (Y : 'cV[R]_n) qs cfg b func rng tr out,
  pso_draws_ok cfg b rng -> box_ok b -> pso_moderate cfg b -> searched (gp_noise o) d b ->
  pso_run cfg b func rng None = (tr, Ok out) ->
  gp_train phi lo hi o X Y (Evolution qs (hyper_of_row d (o_best_x out))) = Ok o' -> hyper_inside b o o' (stdev Y).
Proof. exact gp_pso_bounds. Qed.
Print Assumptions C49_pso.
(** one kernel parameter and the noise, searched over the box of Properties_EA *)
Example C49_ok : searched None 1 ex_box /\ pso_moderate ex_pso ex_box /\ exists tr1 out1 tr2 out2 o1 o2,
  de_run (ex_de Rand1) ex_box ex_func (ex_de_draws Rand1) None = (tr1, Ok out1) /\
  pso_run ex_pso ex_box ex_func ex_pso_draws None = (tr2, Ok out2) /\
  gp_train (@Ordinary 1) ex_lo ex_hi (gp_new 1 1 None 0) ex_X ex_Y (Evolution [::] (hyper_of_row 1 (o_best_x out1))) = Ok o1 /\
  gp_train (@Ordinary 1) ex_lo ex_hi (gp_new 1 1 None 0) ex_X ex_Y (Evolution [::] (hyper_of_row 1 (o_best_x out2))) = Ok o2.
Proof.
split; first exact: erefl. split; first exact: ex_pso_moderate.
have [tr1 [out1 E1]] := @ex_de_returns Rand1 ltac:(discriminate); have [tr2 [out2 E2]] := ex_pso_returns.
have U (h : hyper 1) : usable (gp_restart (gp_new 1 1 None 0)) (Evolution [::] h) by [].
have [o1 T1] := gp_train_ordinary ex_lo ex_hi ex_X ex_varied (U (hyper_of_row 1 (o_best_x out1))).
have [o2 T2] := gp_train_ordinary ex_lo ex_hi ex_X ex_varied (U (hyper_of_row 1 (o_best_x out2))).
exists tr1, out1, tr2, out2, o1, o2. exact: (conj E1 (conj E2 (conj T1 T2))).
Qed.

(** ** C50 logp and the objective *)
Theorem C50_logp : forall d p (phi : 'rV[R]_d -> 'rV[R]_p) (lo hi : 'rV[R]_d) n (o o' : gp d p) (X : 'M[R]_(n, d)) (Y : 'cV[R]_n) s t,
  gp_train phi lo hi o X Y s = Ok o' -> gp_model o' = Some t ->
  let objective := loglik phi (gp_noise o) (normalize_input lo hi X) (normalize_output Y) (stdev Y) (gp_kernel o) in
  exists h, hyper_search (gp_restart o) objective s = Ok h /\
    (gp_noise o <> Some R0 -> objective h = Ok (Ropp (tr_logp t))) /\
    (gp_noise o = Some R0 ->
       objective h = Ok (Rplus (Ropp (tr_logp t)) (Rmult (Rdiv (INR n) 2) (Rminus (ln (kr_sigma2 (tr_krig t))) (kr_sigma2 (tr_krig t)))))).
Proof. exact gp_logp. Qed.
Print Assumptions C50_logp.
(** with noise 0 they always differ *)
Theorem C50_noise_free_differs : forall d (lo hi : 'rV[R]_d) n (o o' : gp d 1) (X : 'M[R]_(n, d)) (Y : 'cV[R]_n) s t,
  gp_train (@Ordinary d) lo hi o X Y s = Ok o' -> gp_model o' = Some t -> gp_noise o = Some R0 ->
  let objective := loglik (@Ordinary d) (gp_noise o) (normalize_input lo hi X) (normalize_output Y) (stdev Y) (gp_kernel o) in
  exists h v, hyper_search (gp_restart o) objective s = Ok h /\ objective h = Ok v /\ (v < - tr_logp t)%Re.
Proof. exact gp_logp_differs_ordinary. Qed.
Print Assumptions C50_noise_free_differs.
