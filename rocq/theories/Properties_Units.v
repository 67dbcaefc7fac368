(** Theorems about units in the surrogate models (C113 to C116, and more on C44 and C86).  [hk_train],
    [sk_train], [ck_train] are the trainings of hierarchical, scaled and Co-Kriging (MF.v, CoKrig.v): high
    fidelity samples and responses, low fidelity samples and responses, then the searches, which are free.
    [hk_loglik], [ck_loglik], [loglik] are the objectives the searches minimise, [sk_eval_error] the objective
    of the search for rho.  The same searches are given to the training in both units: the theorems on the
    objectives say when this is justified. *)
From Coq Require Import Reals Lra List.
From Verif Require Import Fl Spec.
From mathcomp Require Import all_ssreflect all_algebra.
From Verif Require Import RStruct LinAlg LinSpec LinAlgFacts Kernel KernelFacts Krig GP GPSpec GPFacts GPMain MF CoKrig MFSpec MFMain CoKrigMain MFUnits Properties_GP Properties_MF.
Set Implicit Arguments.
Unset Strict Implicit.
Unset Printing Implicit Defensive.
Import GRing.Theory.
Local Open Scope ring_scope.

(** ** C44 Gaussian process: the objective does not depend on the units *)
Theorem C44_objective : forall d p (phi : 'rV[R]_d -> 'rV[R]_p) n noise (X : 'M[R]_(n, d)) (Y : 'cV[R]_n) k h a b, (0 < a)%Re -> ~ constant Y ->
  let Y' := \col_i Rplus (Rmult a (Y i 0)) b in
  loglik phi (omap (Rmult a) noise) X (normalize_output Y') (stdev Y') k h = loglik phi noise X (normalize_output Y) (stdev Y) k h.
Proof. exact gp_objective_units. Qed.
Print Assumptions C44_objective.
Example C44_objective_ok : (0 < 2)%Re /\ ~ constant ex_Y. Proof. by split; [lra|exact: ex_varied]. Qed.

(** ** C113 hierarchical Kriging *)
Theorem C113_objective : forall d n noise (X : 'M[R]_(n, d)) (Y F0 : 'cV[R]_n) k h a b, (0 < a)%Re -> ~ constant Y ->
  let basis (Y F0 : 'cV[R]_n) := \matrix_(i, j) Rdiv (Rminus (F0 i j) (mean Y)) (stdev Y) in
  let Y' := \col_i Rplus (Rmult a (Y i 0)) b in
  let F0' := \col_i Rplus (Rmult a (F0 i 0)) b in
  hk_loglik (omap (Rmult a) noise) X (normalize_output Y') (basis Y' F0') (stdev Y') k h =
  hk_loglik noise X (normalize_output Y) (basis Y F0) (stdev Y) k h.
Proof. exact hk_objective_units. Qed.
Print Assumptions C113_objective.
Theorem C113_equivariant : forall d (lo hi : 'rV[R]_d) nh nl m (o o' : hk d) (Xh : 'M[R]_(nh, d)) (Yh : 'cV[R]_nh) (Xl : 'M[R]_(nl, d)) (Yl : 'cV[R]_nl) sl sh a b (Xq : 'M[R]_(m, d)) mu sd,
  (0 < a)%Re ->
  hk_train lo hi o Xh Yh Xl Yl sl sh = Ok o' -> hk_predict_std lo hi o' Xq = Ok (mu, sd) ->
  exists o2, hk_train lo hi (MkHK (omap (Rmult a) (hk_noise o)) (hk_restart o) (hk_kernel o)
        (MkGP (omap (Rmult a) (gp_noise (hk_lf o))) (gp_restart (hk_lf o)) (gp_kernel (hk_lf o)) (gp_model (hk_lf o))) (hk_model o))
      Xh (\col_i Rplus (Rmult a (Yh i 0)) b) Xl (\col_i Rplus (Rmult a (Yl i 0)) b) sl sh = Ok o2 /\
    hk_noise o2 = omap (Rmult a) (hk_noise o') /\
    hk_predict lo hi o2 Xq = Ok (\col_j Rplus (Rmult a (mu j 0)) b) /\
    hk_predict_std lo hi o2 Xq = Ok (\col_j Rplus (Rmult a (mu j 0)) b, \col_j Rmult a (sd j 0)).
Proof. exact hk_equivariant. Qed.
Print Assumptions C113_equivariant.
(** the low-fidelity responses alone, rescaled about the mean of the high-fidelity ones *)
Theorem C113_low_scale : forall d (lo hi : 'rV[R]_d) nh nl m (o o' : hk d) (Xh : 'M[R]_(nh, d)) (Yh : 'cV[R]_nh) (Xl : 'M[R]_(nl, d)) (Yl : 'cV[R]_nl) sl sh a (Xq : 'M[R]_(m, d)) mu sd,
  (0 < a)%Re ->
  hk_train lo hi o Xh Yh Xl Yl sl sh = Ok o' -> hk_predict_std lo hi o' Xq = Ok (mu, sd) ->
  exists o2, hk_train lo hi (MkHK (hk_noise o) (hk_restart o) (hk_kernel o)
        (MkGP (omap (Rmult a) (gp_noise (hk_lf o))) (gp_restart (hk_lf o)) (gp_kernel (hk_lf o)) (gp_model (hk_lf o))) (hk_model o))
      Xh Yh Xl (\col_i Rplus (Rmult a (Yl i 0)) (Rmult (Rminus 1 a) (mean Yh))) sl sh = Ok o2 /\
    hk_noise o2 = hk_noise o' /\ hk_predict lo hi o2 Xq = Ok mu /\ hk_predict_std lo hi o2 Xq = Ok (mu, sd).
Proof. exact hk_lf_units. Qed.
Print Assumptions C113_low_scale.
Example C113_ok : exists o' mu sd, hk_train ex_lo ex_hi (hk_new 1 (Some R0) 0) ex_X ex_Y ex_X ex_Y ex_search ex_search = Ok o' /\
  hk_predict_std ex_lo ex_hi o' ex_X = Ok (mu, sd).
Proof. have [o' E] := ex_hk. have [mu [sd [_ H]]] := hk_predict_ok ex_X E. by exists o', mu, sd. Qed.
(** but not shifted: whether training succeeds can depend on the origin of the low-fidelity responses *)
Theorem C113_low_origin_refuted : ~ forall d (lo hi : 'rV[R]_d) nh nl (o o' : hk d) (Xh : 'M[R]_(nh, d)) (Yh : 'cV[R]_nh) (Xl : 'M[R]_(nl, d)) (Yl : 'cV[R]_nl) sl sh b,
  hk_train lo hi o Xh Yh Xl Yl sl sh = Ok o' ->
  exists o2, hk_train lo hi o Xh Yh Xl (\col_i Rplus (Yl i 0) b) sl sh = Ok o2.
Proof. exact hk_origin. Qed.
Print Assumptions C113_low_origin_refuted.

(** ** C114 scaled Kriging *)
Theorem C114_equivariant : forall d (lo hi : 'rV[R]_d) nh nl m (o o' : sk d) (Xh : 'M[R]_(nh, d)) (Yh : 'cV[R]_nh) (Xl : 'M[R]_(nl, d)) (Yl : 'cV[R]_nl) sl sr sh a b (Xq : 'M[R]_(m, d)) mu mu1 sd,
  (0 < a)%Re ->
  sk_train lo hi o Xh Yh Xl Yl sl sr sh = Ok o' -> sk_predict_std lo hi o' Xq = Ok (mu, sd) -> sk_predict lo hi o' Xq = Ok mu1 ->
  let scaled (g : gp d 1) := MkGP (omap (Rmult a) (gp_noise g)) (gp_restart g) (gp_kernel g) (gp_model g) in
  exists o2, sk_train lo hi (MkSK (scaled (sk_lf o)) (scaled (sk_disc o)) (sk_rho o) (sk_kernel o) (sk_noise o))
      Xh (\col_i Rplus (Rmult a (Yh i 0)) b) Xl (\col_i Rplus (Rmult a (Yl i 0)) b) sl sr sh = Ok o2 /\
    sk_rho o2 = sk_rho o' /\ sk_noise o2 = omap (Rmult a) (sk_noise o') /\
    sk_predict_std lo hi o2 Xq = Ok (\col_j Rplus (Rmult a (mu j 0)) b, \col_j Rmult a (sd j 0)) /\
    (* without std, the shift b arrives as b + b rho (1 - rho) *)
    sk_predict lo hi o2 Xq = Ok (\col_j Rplus (Rplus (Rmult a (mu1 j 0)) b) (Rmult b (Rmult (sk_rho o') (Rminus 1 (sk_rho o'))))).
Proof. exact sk_equivariant. Qed.
Print Assumptions C114_equivariant.
Example C114_ok : exists o' mu mu1 sd, sk_train ex_lo ex_hi (MkSK (gp_new 1 1 (Some R0) 0) (gp_new 1 1 None 0) 1 (rbf_new 0) None)
  ex_X ex_Y ex_X ex_Y ex_search (RhoBumpiness [:: (IZR 2, ex_search)] (IZR 3)) ex_search = Ok o' /\
  sk_predict_std ex_lo ex_hi o' ex_X = Ok (mu, sd) /\ sk_predict ex_lo ex_hi o' ex_X = Ok mu1.
Proof.
have [o' E] := C85_ok. have [mu [mu1 [sd [H1 H2]]]] := sk_predict_both ex_X E. by exists o', mu, mu1, sd.
Qed.
(** the objective of the search for rho: multiplied by a square under scaling, so its minimiser is the same *)
Theorem C114_error_scale : forall n (P Y : 'cV[R]_n) (a rho : R),
  sk_eval_error (\col_i Rmult a (P i 0)) (\col_i Rmult a (Y i 0)) rho = Rmult (Rmult a a) (sk_eval_error P Y rho).
Proof. exact error_scale. Qed.
Print Assumptions C114_error_scale.
(** but the best rho depends on the origin *)
Theorem C114_error_origin_refuted : ~ forall n (P Y : 'cV[R]_n) (best b : R), (forall rho, (sk_eval_error P Y best <= sk_eval_error P Y rho)%Re) ->
  forall rho : R, (sk_eval_error (\col_i Rplus (P i 0%R) b) (\col_i Rplus (Y i 0%R) b) best <= sk_eval_error (\col_i Rplus (P i 0%R) b) (\col_i Rplus (Y i 0%R) b) rho)%Re.
Proof. exact error_origin. Qed.
Print Assumptions C114_error_origin_refuted.

(** ** C115 Co-Kriging *)
Theorem C115_equivariant : forall d (lo hi : 'rV[R]_d) nh nl m (o o' o1 : ck d) (Xh : 'M[R]_(nh, d)) (Yh : 'cV[R]_nh) (Xl : 'M[R]_(nl, d)) (Yl : 'cV[R]_nl) sl sh a b (Xq : 'M[R]_(m, d)) mu sd mul,
  (0 < a)%Re ->
  ck_train lo hi o Xh Yh Xl Yl sl sh = Ok o' -> ck_predict_std lo hi o' Xq = Ok (o1, (mu, sd)) -> ck_predict_lf lo hi o' Xq = Ok mul ->
  exists o2 o3, ck_train lo hi (MkCK (omap (Rmult a) (ck_noise o)) (ck_restart o) (ck_kernel o) (ck_lf o) (ck_model o))
        Xh (\col_i Rplus (Rmult a (Yh i 0)) b) Xl (\col_i Rplus (Rmult a (Yl i 0)) b) sl sh = Ok o2 /\
    ck_predict lo hi o2 Xq = Ok (\col_j Rplus (Rmult a (mu j 0)) b) /\
    ck_predict_lf lo hi o2 Xq = Ok (\col_j Rplus (Rmult a (mul j 0)) b) /\
    ck_predict_std lo hi o2 Xq = Ok (o3, (\col_j Rplus (Rmult a (mu j 0)) b, \col_j Rmult a (sd j 0))).
Proof. exact ck_equivariant. Qed.
Print Assumptions C115_equivariant.
Example C115_ok : exists o' o1 mu sd mul, ck_train ex_lo ex_hi (ck_new 1 (Some R1) 0) ex_X ex_Y ex_X ex_Y ex_search ex_ck_search = Ok o' /\
  ck_predict_std ex_lo ex_hi o' ex_X = Ok (o1, (mu, sd)) /\ ck_predict_lf ex_lo ex_hi o' ex_X = Ok mul.
Proof.
have [o' E] := ex_ck (Some R1). have [mu [sd [o1 [_ H]]]] := ck_predict_ok ex_X E. have [t [s [Et _]]] := ck_model_of E.
exists o', o1, mu, sd; eexists; split=> //; split=> //. by rewrite /ck_predict_lf Et.
Qed.
(** the objective with the noise in the new unit is the one in the old unit with the noise divided by a: the
    same only for a learned noise or none *)
Theorem C115_objective : forall d n noise (X : 'M[R]_(n, d)) (Y pred : 'cV[R]_n) k h a b, (0 < a)%Re -> ~ constant Y ->
  let objective noise (Y : 'cV[R]_n) := ck_loglik (omap (fun s => Rdiv s (stdev Y)) noise) X (normalize_output Y) pred (stdev Y) k h in
  let Y' := \col_i Rplus (Rmult a (Y i 0)) b in
  objective (omap (Rmult a) noise) Y' = objective (omap (fun s => Rdiv s a) noise) Y /\
  (noise = None \/ noise = Some R0 -> objective (omap (Rmult a) noise) Y' = objective noise Y).
Proof. exact ck_objective_data. Qed.
Print Assumptions C115_objective.
Theorem C115_objective_refuted : ~ forall d n noise (X : 'M[R]_(n, d)) (Y pred : 'cV[R]_n) k h a b, (0 < a)%Re -> ~ constant Y ->
  let objective noise (Y : 'cV[R]_n) := ck_loglik (omap (fun s => Rdiv s (stdev Y)) noise) X (normalize_output Y) pred (stdev Y) k h in
  objective (omap (Rmult a) noise) (\col_i Rplus (Rmult a (Y i 0)) b) = objective noise Y.
Proof. exact ck_objective_differs. Qed.
Print Assumptions C115_objective_refuted.

(** ** C86 Co-Kriging with a numeric noise: the search sees the noise divided by the variance of the responses,
    the fitted model has it divided by their standard deviation *)
Theorem C86_numeric_noise : forall d (lo hi : 'rV[R]_d) nh nl (o o' : ck d) (Xh : 'M[R]_(nh, d)) (Yh : 'cV[R]_nh) (Xl : 'M[R]_(nl, d)) (Yl : 'cV[R]_nl) sl sh t s,
  ck_train lo hi o Xh Yh Xl Yl sl sh = Ok o' -> ck_model o' = Some t -> ck_noise o = Some s -> s <> R0 ->
  let pred := lgp_predict (ck_lf o') (ct_lf t) (normalize_input lo hi Xh) in
  let objective noise := ck_loglik noise (normalize_input lo hi Xh) (normalize_output Yh) pred (stdev Yh) (ck_kernel o) in
  (forall q, objective (Some (Rdiv s (stdev Yh))) q =
     objective None (CKHyper (ch_rho q) (Rdiv s (Rmult (stdev Yh) (stdev Yh))) (ch_theta q))) /\
  exists h, result_of sh (ck_restart o) h /\ ct_rho t = ch_rho h /\
    objective None (CKHyper (ch_rho h) (Rdiv s (stdev Yh)) (ch_theta h)) =
      Ok (Rplus (Ropp (ct_logp t)) (Rmult (Rdiv (INR nh) 2) (Rminus (ct_sigma2 t) (ln (ct_sigma2 t))))).
Proof. exact ck_logp_noise. Qed.
Print Assumptions C86_numeric_noise.
Example C86_numeric_ok : exists o' t, ck_train ex_lo ex_hi (ck_new 1 (Some R1) 0) ex_X ex_Y ex_X ex_Y ex_search ex_ck_search = Ok o' /\
  ck_model o' = Some t /\ ck_noise (ck_new 1 (Some R1) 0) = Some R1 /\ R1 <> R0.
Proof.
have [o' E] := ex_ck (Some R1). have [t [s [Et _]]] := ck_model_of E. exists o', t. by do 3 split=> //; exact: R1_neq_R0.
Qed.

(** ** C116 units of the inputs *)
Theorem C116_hierarchical : forall d (lo hi c t : 'rV[R]_d), space_ok lo hi -> (forall k, c 0 k <> R0) ->
  forall nh nl m (o : hk d) (Xh : 'M[R]_(nh, d)) (Yh : 'cV[R]_nh) (Xl : 'M[R]_(nl, d)) (Yl : 'cV[R]_nl) sl sh (Xq : 'M[R]_(m, d)),
  let aff q (Z : 'M[R]_(q, d)) := \matrix_(i, k) Rplus (Rmult (c 0 k) (Z i k)) (t 0 k) in
  let lo' := \row_k Rplus (Rmult (c 0 k) (lo 0 k)) (t 0 k) in
  let hi' := \row_k Rplus (Rmult (c 0 k) (hi 0 k)) (t 0 k) in
  hk_train lo' hi' o (aff nh Xh) Yh (aff nl Xl) Yl sl sh = hk_train lo hi o Xh Yh Xl Yl sl sh /\
  forall o', hk_predict lo' hi' o' (aff m Xq) = hk_predict lo hi o' Xq /\ hk_predict_std lo' hi' o' (aff m Xq) = hk_predict_std lo hi o' Xq.
Proof. exact hk_inputs. Qed.
Print Assumptions C116_hierarchical.
Theorem C116_scaled : forall d (lo hi c t : 'rV[R]_d), space_ok lo hi -> (forall k, c 0 k <> R0) ->
  forall nh nl m (o : sk d) (Xh : 'M[R]_(nh, d)) (Yh : 'cV[R]_nh) (Xl : 'M[R]_(nl, d)) (Yl : 'cV[R]_nl) sl sr sh (Xq : 'M[R]_(m, d)),
  let aff q (Z : 'M[R]_(q, d)) := \matrix_(i, k) Rplus (Rmult (c 0 k) (Z i k)) (t 0 k) in
  let lo' := \row_k Rplus (Rmult (c 0 k) (lo 0 k)) (t 0 k) in
  let hi' := \row_k Rplus (Rmult (c 0 k) (hi 0 k)) (t 0 k) in
  sk_train lo' hi' o (aff nh Xh) Yh (aff nl Xl) Yl sl sr sh = sk_train lo hi o Xh Yh Xl Yl sl sr sh /\
  forall o', sk_predict lo' hi' o' (aff m Xq) = sk_predict lo hi o' Xq /\ sk_predict_std lo' hi' o' (aff m Xq) = sk_predict_std lo hi o' Xq.
Proof. exact sk_inputs. Qed.
Print Assumptions C116_scaled.
Theorem C116_cokriging : forall d (lo hi c t : 'rV[R]_d), space_ok lo hi -> (forall k, c 0 k <> R0) ->
  forall nh nl m (o : ck d) (Xh : 'M[R]_(nh, d)) (Yh : 'cV[R]_nh) (Xl : 'M[R]_(nl, d)) (Yl : 'cV[R]_nl) sl sh (Xq : 'M[R]_(m, d)),
  let aff q (Z : 'M[R]_(q, d)) := \matrix_(i, k) Rplus (Rmult (c 0 k) (Z i k)) (t 0 k) in
  let lo' := \row_k Rplus (Rmult (c 0 k) (lo 0 k)) (t 0 k) in
  let hi' := \row_k Rplus (Rmult (c 0 k) (hi 0 k)) (t 0 k) in
  ck_train lo' hi' o (aff nh Xh) Yh (aff nl Xl) Yl sl sh = ck_train lo hi o Xh Yh Xl Yl sl sh /\
  forall o', ck_predict lo' hi' o' (aff m Xq) = ck_predict lo hi o' Xq /\ ck_predict_std lo' hi' o' (aff m Xq) = ck_predict_std lo hi o' Xq /\
    ck_predict_lf lo' hi' o' (aff m Xq) = ck_predict_lf lo hi o' Xq /\ ck_predict_lf_std lo' hi' o' (aff m Xq) = ck_predict_lf_std lo hi o' Xq.
Proof. exact ck_inputs. Qed.
Print Assumptions C116_cokriging.
Example C116_ok : space_ok ex_lo ex_hi /\ forall k, (const_mx (Rplus 1 1) : 'rV[R]_1) 0 k <> R0.
Proof. exact C45_ok. Qed.
