(** Model of models/hierarchical_kriging.py (and the training of models/mf_gaussian_process.py) at the level
    of single attributes: what [train] leaves in the object when one of its two stages raises.  MF.v models
    the same class with training as one step; HKStateFacts.v proves the two agree whenever training
    succeeds.  Exact real arithmetic. *)
From Coq Require Import Reals.
From Verif Require Import Fl.
From mathcomp Require Import all_ssreflect all_algebra.
From Verif Require Import RStruct LinAlg Kernel Krig GP MF GPState.
Set Implicit Arguments.
Unset Strict Implicit.
Unset Printing Implicit Defensive.
Import GRing.Theory.
Local Open Scope ring_scope.

Section HK.
Variables (d : nat) (lo hi : 'rV[R]_d).
Local Notation Ordinary := (@Ordinary d).
Local Notation attrs := (attrs d 1).

(** The object: lfGP, the attributes of the low-fidelity samples, and its own attributes.  The latter have
    the same names and meanings as those of the Gaussian process: noise, optimizer_restart, kernel,
    sample_xh, sample_xh_scaled, sample_yh, sample_yh_scaled with yh_mean and yh_std ([a_data]),
    opt_param, K, L, F ([a_f]), alpha, ld, beta, gamma, sigma2, logp.  KF is never read and left out. *)
Record hk_attrs := HKAttrs { b_lf : attrs; b_xl : option (columns d); b_hf : attrs }.

(** 15-37 [__init__] *)
Definition hk_attrs_new (noise_prior : option R) (optimizer_restart : nat) : hk_attrs :=
  HKAttrs (attrs_new d 1 noise_prior optimizer_restart) None (attrs_new d 1 noise_prior optimizer_restart).

(** 226-260 [_update_parameters], one assignment after the other *)
Definition hk_update_attrs n (o : attrs) (X : 'M[R]_(n, d)) (Y : 'cV[R]_n) (F : 'M[R]_(n, 1)) (yh_std : R) (opt_param : hyper d) : attrs * result unit :=
  let noise := if a_noise o is Some s then s else Rmult (h_sigma opt_param) yh_std in
  let o := put_noise o noise in
  let o := put_kernel o (set_params (a_kernel o) (h_theta opt_param)) in
  let r := Rdiv noise yh_std in
  let K := get_kernel_matrix (a_kernel o) X X + (Rmult r r)%:M in
  let o := put_K o (Square K) in
  step o (chol K) (fun L =>
  let o := put_L o (Square L) in
  step o (chol_solve L Y) (fun alpha =>
  let o := put_alpha o (Columns alpha) in
  step o (chol_solve L F) (fun KF =>
  step o (chol (F^T *m KF)) (fun ld =>
  let o := put_ld o ld in
  step o (chol_solve ld (F^T *m alpha)) (fun beta =>
  let o := put_beta o beta in
  step o (chol_solve L (Y - F *m beta)) (fun gamma =>
  let o := put_gamma o (Columns gamma) in
  let sigma2 := Rdiv (((Y - F *m beta)^T *m gamma) 0 0) (INR n) in
  let o := put_sigma2 o sigma2 in
  let o := put_logp o (Rminus (Rmult (Rmult (Ropp (Rdiv 1 2)) (INR n)) sigma2) (sum_log_diag L)) in
  (o, Ok tt))))))).

(** 39-61 [_train_hf].  As in MF.v nothing is claimed about responses with standard deviation 0. *)
Definition train_hf_attrs n (lf o : attrs) (X : 'M[R]_(n, d)) (Y : 'cV[R]_n) (s : search (hyper d)) : attrs * result unit :=
  let Xs := normalize_input lo hi X in
  let Ys := normalize_output Y in
  let o := put_data o (Dataset X Xs Y Ys) in
  if Req_EM_T (stdev Y) 0 then (o, Raise ExternalError) else
  step o (predict_attrs Ordinary lo hi lf X) (fun F0 =>
  let F : 'M[R]_(n, 1) := \matrix_(i, j) Rdiv (Rminus (F0 i j) (mean Y)) (stdev Y) in
  let o := put_f o (Columns F) in
  step o (hyper_search (a_restart o) (hk_loglik (a_noise o) Xs Ys F (stdev Y) (a_kernel o)) s) (fun opt_param =>
  let o := put_opt o opt_param in
  hk_update_attrs o Xs Ys F (stdev Y) opt_param)).

(** mf_gaussian_process.py 46-73 [train] and 75-92 [_train_lf]: the low-fidelity model, then this one *)
Definition hk_train_attrs nh nl (o : hk_attrs) (Xh : 'M[R]_(nh, d)) (Yh : 'cV[R]_nh) (Xl : 'M[R]_(nl, d)) (Yl : 'cV[R]_nl)
    (sl sh : search (hyper d)) : hk_attrs * result unit :=
  let l := train_attrs Ordinary lo hi (b_lf o) Xl Yl sl in
  if l.2 is Raise e then (HKAttrs l.1 (b_xl o) (b_hf o), Raise e) else
  let h := train_hf_attrs l.1 (b_hf o) Xh Yh sh in
  (HKAttrs l.1 (Some (Columns Xl)) h.1, h.2).

(** 94-111 of mf_gaussian_process.py [predict_lf] *)
Definition hk_predict_lf_attrs m (o : hk_attrs) (X : 'M[R]_(m, d)) : result 'cV[R]_m := predict_attrs Ordinary lo hi (b_lf o) X.
(** 63-111 [predict] without std *)
Definition hk_predict_attrs m (o : hk_attrs) (X : 'M[R]_(m, d)) : result 'cV[R]_m :=
  let new := normalize_input lo hi X in
  bind (attr (a_data (b_hf o))) (fun D =>
  let knew := get_kernel_matrix (a_kernel (b_hf o)) (ds_scaled_x D) new in
  bind (hk_predict_lf_attrs o X) (fun f0 =>
  let f : 'M[R]_(m, 1) := \matrix_(i, j) Rdiv (Rminus (f0 i j) (mean (ds_y D))) (stdev (ds_y D)) in
  bind (attr (a_beta (b_hf o))) (fun beta =>
  bind (attr (a_gamma (b_hf o))) (fun gamma =>
  bind (with_rows (ds_n D) (co_mx gamma)) (fun g =>
  let fmean := f *m beta + knew^T *m g in
  Ok (\col_j Rplus (Rmult (fmean j 0) (stdev (ds_y D))) (mean (ds_y D)))))))).
(** 63-111 [predict] with return_std=True *)
Definition hk_predict_std_attrs m (o : hk_attrs) (X : 'M[R]_(m, d)) : result ('cV[R]_m * 'cV[R]_m) :=
  bind (hk_predict_attrs o X) (fun fmean =>
  let new := normalize_input lo hi X in
  bind (attr (a_data (b_hf o))) (fun D =>
  let knew := get_kernel_matrix (a_kernel (b_hf o)) (ds_scaled_x D) new in
  bind (hk_predict_lf_attrs o X) (fun f0 =>
  let f : 'M[R]_(m, 1) := \matrix_(i, j) Rdiv (Rminus (f0 i j) (mean (ds_y D))) (stdev (ds_y D)) in
  bind (attr (a_L (b_hf o))) (fun L' =>
  bind (with_order (ds_n D) (sq_mx L')) (fun L =>
  bind (chol_solve L knew) (fun delta =>
  bind (attr (a_f (b_hf o))) (fun F' =>
  bind (with_rows (ds_n D) (co_mx F')) (fun F =>
  let Rm := f^T - F^T *m delta in
  bind (attr (a_sigma2 (b_hf o))) (fun sigma2 =>
  bind (attr (a_ld (b_hf o))) (fun ld =>
  bind (chol_solve ld Rm) (fun S =>
  let mse j := Rmult sigma2 (Rplus (Rminus 1 ((knew^T *m delta) j j)) ((Rm^T *m S) j j)) in
  match a_noise (b_hf o) with
  | None => Raise TypeError
  | Some noise =>
      let epistemic j := Rmult (sqrt (Rmax (mse j) 0)) (stdev (ds_y D)) in
      Ok (fmean, \col_j sqrt (Rplus (Rmult (epistemic j) (epistemic j)) (Rmult noise noise)))
  end))))))))))).
End HK.
