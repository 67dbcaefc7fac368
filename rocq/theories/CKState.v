(** Model of models/co_kriging.py at the level of single attributes: what [train] leaves in the object
    when it raises in the middle, and what the predictions do with it.  CoKrig.v models the same classes
    with training as one step; CKStateFacts.v proves the two agree whenever training succeeds.  Exact
    real arithmetic. *)
From Coq Require Import Reals.
From Verif Require Import Fl.
From mathcomp Require Import all_ssreflect all_algebra.
From Verif Require Import RStruct LinAlg Kernel Krig GP CoKrig GPState.
Set Implicit Arguments.
Unset Strict Implicit.
Unset Printing Implicit Defensive.
Import GRing.Theory.
Local Open Scope ring_scope.

Section CK.
Variables (d : nat) (lo hi : 'rV[R]_d).
Local Notation Ordinary := (@Ordinary d).
Local Notation attrs := (attrs d 1).

(** ** class _GP.  Its attributes have the names and meanings of those of GPState.v; sample_scaled_x and
    sample_y_scaled are copies of sample_x and sample_y. *)

(** 165-200 [_update_kernel_matrix], one assignment after the other *)
Definition lgp_update_attrs n (o : attrs) (X : 'M[R]_(n, d)) (Y : 'cV[R]_n) (opt_param : hyper d) : attrs * result unit :=
  let o := put_kernel o (set_params (a_kernel o) (h_theta opt_param)) in
  let noise := if a_noise o is Some s then s else h_sigma opt_param in
  let o := put_noise o noise in
  let K := get_kernel_matrix (a_kernel o) X X + (Rmult noise noise)%:M in
  let o := put_K o (Square K) in
  step o (chol K) (fun L =>
  let o := put_L o (Square L) in
  let F := regr_matrix Ordinary X in
  let o := put_f o (Columns F) in
  step o (chol_solve L Y) (fun alpha =>
  let o := put_alpha o (Columns alpha) in
  step o (chol_solve L F) (fun KF =>
  step o (chol (F^T *m KF)) (fun ld =>
  let o := put_ld o ld in
  step o (chol_solve ld (F^T *m alpha)) (fun beta =>
  let o := put_beta o beta in
  step o (chol_solve L (Y - F *m beta)) (fun gamma =>
  let o := put_gamma o (Columns gamma) in
  let sigma2 := Rdiv (((Y - F *m beta)^T *m gamma) 0 0) (INR n) in
  let o := put_sigma2 o sigma2 in
  let o := put_logp o (Rminus (Rmult (Rmult (Ropp (Rdiv 1 2)) (INR n)) sigma2) (sum_log_diag L)) in
  (o, Ok tt))))))).
(** 243-268 [train] *)
Definition lgp_train_attrs n (o : attrs) (X : 'M[R]_(n, d)) (Y : 'cV[R]_n) (s : search (hyper d)) : attrs * result unit :=
  let o := put_data o (Dataset X X Y Y) in
  step o (hyper_search (a_restart o) (lgp_loglik (a_noise o) X Y (a_kernel o)) s) (fun opt_param =>
  let o := put_opt o opt_param in
  lgp_update_attrs o X Y opt_param).
(** 202-241 [predict] without std *)
Definition lgp_predict_attrs m (o : attrs) (new : 'M[R]_(m, d)) : result 'cV[R]_m :=
  bind (attr (a_data o)) (fun D =>
  let knew := get_kernel_matrix (a_kernel o) (ds_scaled_x D) new in
  bind (attr (a_beta o)) (fun beta =>
  bind (attr (a_gamma o)) (fun gamma =>
  bind (with_rows (ds_n D) (co_mx gamma)) (fun g =>
  Ok (regr_matrix Ordinary new *m beta + knew^T *m g))))).
(** 202-241 [predict] with return_std=True *)
Definition lgp_predict_std_attrs m (o : attrs) (new : 'M[R]_(m, d)) : result ('cV[R]_m * 'cV[R]_m) :=
  bind (lgp_predict_attrs o new) (fun fmean =>
  bind (attr (a_data o)) (fun D =>
  let knew := get_kernel_matrix (a_kernel o) (ds_scaled_x D) new in
  let f := regr_matrix Ordinary new in
  bind (attr (a_L o)) (fun L' =>
  bind (with_order (ds_n D) (sq_mx L')) (fun L =>
  bind (chol_solve L knew) (fun delta =>
  bind (attr (a_f o)) (fun F' =>
  bind (with_rows (ds_n D) (co_mx F')) (fun F =>
  let Rm := f^T - F^T *m delta in
  bind (attr (a_sigma2 o)) (fun sigma2 =>
  bind (attr (a_ld o)) (fun ld =>
  bind (chol_solve ld Rm) (fun S =>
  let mse j := Rmult sigma2 (Rplus (Rminus 1 ((knew^T *m delta) j j)) ((Rm^T *m S) j j)) in
  match a_noise o with
  | None => Raise TypeError
  | Some noise => Ok (fmean, \col_j sqrt (Rplus (Rmax (mse j) 0) (Rmult noise noise)))
  end)))))))))).

(** ** class CoKriging *)

(** 370-379: sample_xh, sample_yh, sample_xl, sample_yl, their scaled versions, and (711-713) yh_mean and
    yh_std.  None of these assignments raises for arrays of matching shapes, so they are set together. *)
Record ck_data := CKData {
  cd_nh : nat; cd_nl : nat;
  cd_xh : 'M[R]_(cd_nh, d); cd_yh : 'cV[R]_cd_nh; cd_xl : 'M[R]_(cd_nl, d); cd_yl : 'cV[R]_cd_nl;
  cd_xh_scaled : 'M[R]_(cd_nh, d); cd_xl_scaled : 'M[R]_(cd_nl, d); cd_yh_scaled : 'cV[R]_cd_nh; cd_yl_scaled : 'cV[R]_cd_nl;
  cd_mean : R; cd_std : R }.
(** The attributes [_update_parameters] sets *)
Record ck_params := CKParams {
  cp_K : option square; cp_diff : option (columns 1); cp_mu_d : option R; cp_sigma2 : option R; cp_logp : option R;
  cp_C : option square; cp_y : option (columns 1); cp_LC : option square; cp_mu : option R }.
(** The object.  [None] stands for an attribute that does not exist yet, except for noise. *)
Record ck_attrs := CKAttrs {
  e_noise : option R; e_restart : nat; e_kernel : rbf d; e_lf : attrs;
  e_data : option ck_data; e_pred : option (columns 1); e_opt : option (ckhyper d); e_rho : option R; e_params : ck_params }.

Definition set_noise (o : ck_attrs) (v : R) := CKAttrs (Some v) (e_restart o) (e_kernel o) (e_lf o) (e_data o) (e_pred o) (e_opt o) (e_rho o) (e_params o).
Definition set_kernel (o : ck_attrs) v := CKAttrs (e_noise o) (e_restart o) v (e_lf o) (e_data o) (e_pred o) (e_opt o) (e_rho o) (e_params o).
Definition set_lf (o : ck_attrs) v := CKAttrs (e_noise o) (e_restart o) (e_kernel o) v (e_data o) (e_pred o) (e_opt o) (e_rho o) (e_params o).
Definition set_data (o : ck_attrs) v := CKAttrs (e_noise o) (e_restart o) (e_kernel o) (e_lf o) (Some v) (e_pred o) (e_opt o) (e_rho o) (e_params o).
Definition set_pred (o : ck_attrs) v := CKAttrs (e_noise o) (e_restart o) (e_kernel o) (e_lf o) (e_data o) (Some v) (e_opt o) (e_rho o) (e_params o).
Definition set_opt (o : ck_attrs) v := CKAttrs (e_noise o) (e_restart o) (e_kernel o) (e_lf o) (e_data o) (e_pred o) (Some v) (e_rho o) (e_params o).
Definition set_rho (o : ck_attrs) v := CKAttrs (e_noise o) (e_restart o) (e_kernel o) (e_lf o) (e_data o) (e_pred o) (e_opt o) (Some v) (e_params o).
Definition set_par (o : ck_attrs) v := CKAttrs (e_noise o) (e_restart o) (e_kernel o) (e_lf o) (e_data o) (e_pred o) (e_opt o) (e_rho o) v.

(** 309-354 [__init__] *)
Definition ck_attrs_new (noise_prior : option R) (optimizer_restart : nat) : ck_attrs :=
  CKAttrs noise_prior optimizer_restart (rbf_new (0 : 'rV[R]_d)) (attrs_new d 1 noise_prior optimizer_restart)
    None None None None (CKParams None None None None None None None None None).

(** run a computation on the current object; when it raises the object keeps its present attributes *)
Definition ck_step A (o : ck_attrs) (r : result A) (k : A -> ck_attrs * result unit) : ck_attrs * result unit :=
  match r with Ok v => k v | Raise e => (o, Raise e) end.

(** 600-659 [_update_parameters], one assignment after the other; rho, noise and kernel are already set *)
Definition ck_update_attrs nl nh (o : ck_attrs) (noise rho lf_sigma2 : R) (lf_K : 'M[R]_nl)
    (Xl : 'M[R]_(nl, d)) (Yl : 'cV[R]_nl) (Xh : 'M[R]_(nh, d)) (Yh pred_ylh : 'cV[R]_nh) : ck_attrs * result unit :=
  let K := get_kernel_matrix (e_kernel o) Xh Xh + (Rmult noise noise)%:M in
  let p := e_params o in
  let p := CKParams (Some (Square K)) (cp_diff p) (cp_mu_d p) (cp_sigma2 p) (cp_logp p) (cp_C p) (cp_y p) (cp_LC p) (cp_mu p) in
  ck_step (set_par o p) (chol K) (fun L =>
  let diff_y := Yh - rho *: pred_ylh in
  let p := CKParams (cp_K p) (Some (Columns diff_y)) (cp_mu_d p) (cp_sigma2 p) (cp_logp p) (cp_C p) (cp_y p) (cp_LC p) (cp_mu p) in
  ck_step (set_par o p) (chol_solve L diff_y) (fun alpha =>
  let one := const_mx 1 : 'cV[R]_nh in
  ck_step (set_par o p) (chol_solve L one) (fun beta =>
  let mu_d := Rdiv ((one^T *m alpha) 0 0) ((one^T *m beta) 0 0) in
  let p := CKParams (cp_K p) (cp_diff p) (Some mu_d) (cp_sigma2 p) (cp_logp p) (cp_C p) (cp_y p) (cp_LC p) (cp_mu p) in
  ck_step (set_par o p) (chol_solve L (diff_y - const_mx mu_d)) (fun gamma =>
  let sigma2 := Rdiv (((diff_y - const_mx mu_d)^T *m gamma) 0 0) (INR nh) in
  let logp := Rminus (Rmult (Rmult (Ropp (Rdiv 1 2)) (INR nh)) (ln sigma2)) (sum_log_diag L) in
  let C := ck_cov (a_kernel (e_lf o)) lf_K K lf_sigma2 sigma2 rho Xl Xh in
  let y := col_mx Yl Yh in
  let p := CKParams (cp_K p) (cp_diff p) (cp_mu_d p) (Some sigma2) (Some logp) (Some (Square C)) (Some (Columns y)) (cp_LC p) (cp_mu p) in
  ck_step (set_par o p) (chol (C + jitter%:M)) (fun LC =>
  let p := CKParams (cp_K p) (cp_diff p) (cp_mu_d p) (cp_sigma2 p) (cp_logp p) (cp_C p) (cp_y p) (Some (Square LC)) (cp_mu p) in
  let oneC := const_mx 1 : 'cV[R]_(nl + nh) in
  ck_step (set_par o p) (chol_solve LC y) (fun a =>
  ck_step (set_par o p) (chol_solve LC oneC) (fun b =>
  let mu := Rdiv ((oneC^T *m a) 0 0) ((oneC^T *m b) 0 0) in
  let p := CKParams (cp_K p) (cp_diff p) (cp_mu_d p) (cp_sigma2 p) (cp_logp p) (cp_C p) (cp_y p) (cp_LC p) (Some mu) in
  (set_par o p, Ok tt)))))))).

(** 356-410 [train].  As in CoKrig.v nothing is claimed about high-fidelity responses with standard
    deviation 0.  sigma2 and K of lfGP are those it has just computed. *)
Definition ck_train_attrs nh nl (o : ck_attrs) (Xh : 'M[R]_(nh, d)) (Yh : 'cV[R]_nh) (Xl : 'M[R]_(nl, d)) (Yl : 'cV[R]_nl)
    (sl : search (hyper d)) (sh : search (ckhyper d)) : ck_attrs * result unit :=
  let Xhs := normalize_input lo hi Xh in
  let Xls := normalize_input lo hi Xl in
  let Yhs := normalize_output Yh in
  let Yls : 'cV[R]_nl := \col_i Rdiv (Rminus (Yl i 0) (mean Yh)) (stdev Yh) in
  let o := set_data o (CKData Xh Yh Xl Yl Xhs Xls Yhs Yls (mean Yh) (stdev Yh)) in
  if Req_EM_T (stdev Yh) 0 then (o, Raise ExternalError) else
  let o := if e_noise o is Some s then
      let o := set_noise o (Rdiv s (stdev Yh)) in set_lf o (put_noise (e_lf o) (Rdiv s (stdev Yh)))
    else o in
  let l := lgp_train_attrs (e_lf o) Xls Yls sl in
  let o := set_lf o l.1 in
  if l.2 is Raise e then (o, Raise e) else
  ck_step o (lgp_predict_attrs (e_lf o) Xhs) (fun pred_ylh =>
  let o := set_pred o (Columns pred_ylh) in
  ck_step o (hyper_search (e_restart o) (ck_loglik (e_noise o) Xhs Yhs pred_ylh (stdev Yh) (e_kernel o)) sh) (fun opt_param =>
  let o := set_opt o opt_param in
  let o := set_rho o (ch_rho opt_param) in
  let noise := if e_noise o is Some s then s else ch_sigma opt_param in
  let o := set_noise o noise in
  let o := set_kernel o (set_params (e_kernel o) (ch_theta opt_param)) in
  ck_step o (attr (a_sigma2 (e_lf o))) (fun lf_sigma2 =>
  ck_step o (attr (a_K (e_lf o))) (fun lf_K =>
  ck_step o (with_order nl (sq_mx lf_K)) (fun lf_K =>
  ck_update_attrs o noise (ch_rho opt_param) lf_sigma2 lf_K Xls Yls Xhs Yhs pred_ylh))))).

(** 431-444: the covariances of new (scaled) points with all responses *)
Definition ck_cross_attrs m (o : ck_attrs) (D : ck_data) (rho lf_sigma2 sigma2 : R) (Xnew : 'M[R]_(m, d)) : 'M[R]_(cd_nl D + cd_nh D, m) :=
  col_mx (Rmult rho lf_sigma2 *: get_kernel_matrix (a_kernel (e_lf o)) (cd_xl_scaled D) Xnew)
         (Rmult (Rmult rho rho) lf_sigma2 *: get_kernel_matrix (a_kernel (e_lf o)) (cd_xh_scaled D) Xnew
          + sigma2 *: get_kernel_matrix (e_kernel o) (cd_xh_scaled D) Xnew).
(** 412-462 [predict]: the attributes it reads, the covariances c and the solution of the joint system *)
Definition ck_predict_attrs m (o : ck_attrs) (X : 'M[R]_(m, d)) : result 'cV[R]_m :=
  bind (attr (e_rho o)) (fun rho =>
  bind (attr (a_sigma2 (e_lf o))) (fun lf_sigma2 =>
  bind (attr (e_data o)) (fun D =>
  bind (attr (cp_sigma2 (e_params o))) (fun sigma2 =>
  let c := ck_cross_attrs o D rho lf_sigma2 sigma2 (normalize_input lo hi X) in
  bind (attr (cp_mu (e_params o))) (fun mu =>
  bind (attr (cp_LC (e_params o))) (fun LC =>
  bind (attr (cp_y (e_params o))) (fun y' =>
  bind (with_rows (sq_n LC) (co_mx y')) (fun y =>
  bind (chol_solve (sq_mx LC) (y - const_mx mu)) (fun a' =>
  bind (with_rows (cd_nl D + cd_nh D) a') (fun a =>
  let fmean := const_mx mu + c^T *m a in
  Ok (\col_j Rplus (Rmult (fmean j 0) (cd_std D)) (cd_mean D)))))))))))).
(** 412-462 [predict] with return_std=True: it also multiplies the attribute noise by yh_std; the object
    is returned with the outcome *)
Definition ck_predict_std_attrs m (o : ck_attrs) (X : 'M[R]_(m, d)) : ck_attrs * result ('cV[R]_m * 'cV[R]_m) :=
  let r :=
    bind (ck_predict_attrs o X) (fun fmean =>
    bind (attr (e_rho o)) (fun rho =>
    bind (attr (a_sigma2 (e_lf o))) (fun lf_sigma2 =>
    bind (attr (e_data o)) (fun D =>
    bind (attr (cp_sigma2 (e_params o))) (fun sigma2 =>
    let c := ck_cross_attrs o D rho lf_sigma2 sigma2 (normalize_input lo hi X) in
    bind (attr (cp_LC (e_params o))) (fun LC' =>
    bind (with_order (cd_nl D + cd_nh D) (sq_mx LC')) (fun LC =>
    bind (chol_solve LC c) (fun b =>
    let s2 j := Rminus (Rplus (Rmult (Rmult rho rho) lf_sigma2) sigma2) ((c^T *m b) j j) in
    let epis_std j := Rmult (sqrt (Rmax (s2 j) 0)) (cd_std D) in
    match e_noise o with
    | None => Raise TypeError
    | Some s =>
        let noise := Rmult s (cd_std D) in
        Ok (noise, (fmean, \col_j sqrt (Rplus (Rmult (epis_std j) (epis_std j)) (Rmult noise noise))))
    end)))))))) in
  match r with
  | Ok (noise, answer) => (set_noise o noise, Ok answer)
  | Raise e => (o, Raise e)
  end.
(** 464-489 [predict_lf] *)
Definition ck_predict_lf_attrs m (o : ck_attrs) (X : 'M[R]_(m, d)) : result 'cV[R]_m :=
  bind (lgp_predict_attrs (e_lf o) (normalize_input lo hi X)) (fun obj =>
  bind (attr (e_data o)) (fun D =>
  Ok (\col_j Rplus (Rmult (obj j 0) (cd_std D)) (cd_mean D)))).
Definition ck_predict_lf_std_attrs m (o : ck_attrs) (X : 'M[R]_(m, d)) : result ('cV[R]_m * 'cV[R]_m) :=
  bind (lgp_predict_std_attrs (e_lf o) (normalize_input lo hi X)) (fun r =>
  bind (attr (e_data o)) (fun D =>
  Ok (\col_j Rplus (Rmult (r.1 j 0) (cd_std D)) (cd_mean D), \col_j Rmult (r.2 j 0) (cd_std D)))).
End CK.
