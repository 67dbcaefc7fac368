(** Model of models/co_kriging.py in exact real arithmetic.  An exception is the only result of a call
    that raises: what it leaves in the object is in CKState.v. *)
From Coq Require Import Reals.
From Verif Require Import Fl.
From mathcomp Require Import all_ssreflect all_algebra.
From Verif Require Import RStruct LinAlg Kernel Krig GP.
Set Implicit Arguments.
Unset Strict Implicit.
Unset Printing Implicit Defensive.
Import GRing.Theory.
Local Open Scope ring_scope.

(** ** class _GP with the Ordinary basis, the one CoKriging builds *)

(** The attributes noise, optimizer_restart and kernel; those training adds are in [lgp_trained]. *)
Record lgp d := MkLGP { lg_noise : option R; lg_restart : nat; lg_kernel : rbf d }.
Record lgp_trained d n := LGPTrained {
  lt_X : 'M[R]_(n, d);              (* sample_scaled_x, not scaled in this class *)
  lt_Y : 'cV[R]_n;                  (* sample_y_scaled, not scaled in this class *)
  lt_K : 'M[R]_n;                   (* K *)
  lt_krig : krig n 1;
  lt_logp : R }.
(** 18-43 [__init__] with kernel=None *)
Definition lgp_new d (noise_prior : option R) (optimizer_restart : nat) : lgp d :=
  MkLGP noise_prior optimizer_restart (rbf_new (0 : 'rV[R]_d)).
(** 104-163 [_logLikelihood], one row of params *)
Definition lgp_loglik d n (noise : option R) (X : 'M[R]_(n, d)) (Y : 'cV[R]_n) (k : rbf d) (h : hyper d) : result R :=
  let noise_sigma := if noise is Some s then s else h_sigma h in
  let K := kernel_call k X X (h_theta h) + (Rmult noise_sigma noise_sigma)%:M in
  bind (krig_fit K (regr_matrix (@Ordinary d) X) Y) (fun m =>
  let concentrated := if noise is Some s then Req_EM_T s 0 : bool else false in
  let data_term := if concentrated then ln (kr_sigma2 m) else kr_sigma2 m in
  let logp := Rminus (Rmult (Rmult (Ropp (Rdiv 1 2)) (INR n)) data_term) (sum_log_diag (kr_L m)) in
  Ok (Ropp logp)).
(** 165-200 [_update_kernel_matrix] *)
Definition lgp_update d n (o : lgp d) (X : 'M[R]_(n, d)) (Y : 'cV[R]_n) (opt_param : hyper d) : result (lgp d * lgp_trained d n) :=
  let noise := if lg_noise o is Some s then s else h_sigma opt_param in
  let kernel := set_params (lg_kernel o) (h_theta opt_param) in
  let K := get_kernel_matrix kernel X X + (Rmult noise noise)%:M in
  bind (krig_fit K (regr_matrix (@Ordinary d) X) Y) (fun m =>
  let logp := Rminus (Rmult (Rmult (Ropp (Rdiv 1 2)) (INR n)) (kr_sigma2 m)) (sum_log_diag (kr_L m)) in
  Ok (MkLGP (Some noise) (lg_restart o) kernel, LGPTrained X Y K m logp)).
(** 243-268 [train]; the search is 45-102 *)
Definition lgp_train d n (o : lgp d) (X : 'M[R]_(n, d)) (Y : 'cV[R]_n) (s : search (hyper d)) : result (lgp d * lgp_trained d n) :=
  bind (hyper_search (lg_restart o) (lgp_loglik (lg_noise o) X Y (lg_kernel o)) s) (fun opt_param =>
  lgp_update o X Y opt_param).
(** 202-241 [predict] without std *)
Definition lgp_predict d n m (o : lgp d) (t : lgp_trained d n) (X : 'M[R]_(m, d)) : 'cV[R]_m :=
  krig_mean (lt_krig t) (regr_matrix (@Ordinary d) X) (get_kernel_matrix (lg_kernel o) (lt_X t) X).
(** 202-241 [predict] with return_std=True *)
Definition lgp_predict_std d n m (o : lgp d) (t : lgp_trained d n) (X : 'M[R]_(m, d)) : result ('cV[R]_m * 'cV[R]_m) :=
  bind (krig_mse (lt_krig t) (regr_matrix (@Ordinary d) X) (get_kernel_matrix (lg_kernel o) (lt_X t) X)) (fun mse =>
  match lg_noise o with
  | None => Raise TypeError
  | Some noise => Ok (lgp_predict o t X, \col_j sqrt (Rplus (Rmax (mse j 0) 0) (Rmult noise noise)))
  end).

(** ** class CoKriging *)

(** A row of params: rho, sigma (present only when the noise is to be learned), theta. *)
Record ckhyper d := CKHyper { ch_rho : R; ch_sigma : R; ch_theta : 'rV[R]_d }.
(** What a successful training leaves in the object. *)
Record ck_trained d := CKTrained {
  ct_nl : nat; ct_nh : nat;
  ct_Xl : 'M[R]_(ct_nl, d);         (* sample_xl_scaled *)
  ct_Xh : 'M[R]_(ct_nh, d);         (* sample_xh_scaled *)
  ct_mean : R;                      (* yh_mean *)
  ct_std : R;                       (* yh_std *)
  ct_lf : lgp_trained d ct_nl;      (* the trained attributes of lfGP *)
  ct_rho : R;                       (* rho *)
  ct_K : 'M[R]_ct_nh;               (* K *)
  ct_sigma2 : R;                    (* sigma2 *)
  ct_logp : R;                      (* logp *)
  ct_C : 'M[R]_(ct_nl + ct_nh);     (* C *)
  ct_LC : 'M[R]_(ct_nl + ct_nh);    (* LC *)
  ct_y : 'cV[R]_(ct_nl + ct_nh);    (* y *)
  ct_mu : R }.                      (* mu *)
Record ck d := MkCK { ck_noise : option R; ck_restart : nat; ck_kernel : rbf d; ck_lf : lgp d; ck_model : option (ck_trained d) }.

(** 310-354 [__init__] *)
Definition ck_new d (noise_prior : option R) (optimizer_restart : nat) : ck d :=
  MkCK noise_prior optimizer_restart (rbf_new (0 : 'rV[R]_d)) (lgp_new d noise_prior optimizer_restart) None.

(** 575-586 (and 606-619): the Cholesky factor of K, mu and sigma2 for the differences [diff_y] *)
Definition ck_fit n (K : 'M[R]_n) (diff_y : 'cV[R]_n) : result ('M[R]_n * R * R) :=
  bind (chol K) (fun L =>
  bind (chol_solve L diff_y) (fun alpha =>
  let one := const_mx 1 : 'cV[R]_n in
  bind (chol_solve L one) (fun beta =>
  let mu := Rdiv ((one^T *m alpha) 0 0) ((one^T *m beta) 0 0) in
  bind (chol_solve L (diff_y - const_mx mu)) (fun gamma =>
  let sigma2 := Rdiv (((diff_y - const_mx mu)^T *m gamma) 0 0) (INR n) in
  Ok (L, mu, sigma2))))).
(** 550-598 [_logLikelihood], one row of params; [noise] is divided by yh_std here although [train] has
    already done so *)
Definition ck_loglik d n (noise : option R) (X : 'M[R]_(n, d)) (Y pred_ylh : 'cV[R]_n) (yh_std : R) (k : rbf d) (h : ckhyper d) : result R :=
  let noise_sigma := if noise is Some s then Rdiv s yh_std else ch_sigma h in
  let K := kernel_call k X X (ch_theta h) + (Rmult noise_sigma noise_sigma)%:M in
  bind (ck_fit K (Y - ch_rho h *: pred_ylh)) (fun r =>
  let: (L, mu, sigma2) := r in
  let concentrated := if noise is Some s then Req_EM_T s 0 : bool else false in
  let data_term := if concentrated then ln sigma2 else sigma2 in
  Ok (Ropp (Rminus (Rmult (Rmult (Ropp (Rdiv 1 2)) (INR n)) data_term) (sum_log_diag L)))).

(** 623-648: the covariance matrix of all responses, low fidelity first *)
Definition ck_cov d nl nh (kl : rbf d) (Kl : 'M[R]_nl) (K : 'M[R]_nh) (sl sd rho : R) (Xl : 'M[R]_(nl, d)) (Xh : 'M[R]_(nh, d)) : 'M[R]_(nl + nh) :=
  block_mx (sl *: Kl) (Rmult rho sl *: get_kernel_matrix kl Xl Xh)
           (Rmult rho sl *: get_kernel_matrix kl Xh Xl) (Rmult (Rmult rho rho) sl *: get_kernel_matrix kl Xh Xh + sd *: K).
(** 600-659 [_update_parameters]; [noise], [rho] and [kernel] are already set *)
Definition ck_update d nl nh (o : ck d) (noise rho : R) (kernel : rbf d) (lf : lgp d) (t : lgp_trained d nl)
    (Xl : 'M[R]_(nl, d)) (Yl : 'cV[R]_nl) (Xh : 'M[R]_(nh, d)) (Yh pred_ylh : 'cV[R]_nh) (yh_mean yh_std : R) : result (ck d) :=
  let K := get_kernel_matrix kernel Xh Xh + (Rmult noise noise)%:M in
  bind (ck_fit K (Yh - rho *: pred_ylh)) (fun r =>
  let: (L, mu_d, sigma2) := r in
  let logp := Rminus (Rmult (Rmult (Ropp (Rdiv 1 2)) (INR nh)) (ln sigma2)) (sum_log_diag L) in
  let C := ck_cov (lg_kernel lf) (lt_K t) K (kr_sigma2 (lt_krig t)) sigma2 rho Xl Xh in
  let y := col_mx Yl Yh in
  bind (chol (C + jitter%:M)) (fun LC =>
  let oneC := const_mx 1 : 'cV[R]_(nl + nh) in
  bind (chol_solve LC y) (fun a =>
  bind (chol_solve LC oneC) (fun b =>
  let mu := Rdiv ((oneC^T *m a) 0 0) ((oneC^T *m b) 0 0) in
  Ok (MkCK (Some noise) (ck_restart o) kernel lf
     (Some (CKTrained Xl Xh yh_mean yh_std t rho K sigma2 logp C LC y mu))))))).

Section CK.
Variables (d : nat) (lo hi : 'rV[R]_d).
(** 356-410 [train]; the searches are 45-102 and 491-548.  As in GP.v nothing is claimed about
    high-fidelity responses with standard deviation 0. *)
Definition ck_train nh nl (o : ck d) (Xh : 'M[R]_(nh, d)) (Yh : 'cV[R]_nh) (Xl : 'M[R]_(nl, d)) (Yl : 'cV[R]_nl)
    (sl : search (hyper d)) (sh : search (ckhyper d)) : result (ck d) :=
  let Xhs := normalize_input lo hi Xh in
  let Xls := normalize_input lo hi Xl in
  if Req_EM_T (stdev Yh) 0 then Raise ExternalError else
  let Yhs := normalize_output Yh in
  let Yls := \col_i Rdiv (Rminus (Yl i 0) (mean Yh)) (stdev Yh) in
  let noise := omap (fun s => Rdiv s (stdev Yh)) (ck_noise o) in
  let lf_noise := if noise is Some s then Some s else lg_noise (ck_lf o) in
  bind (lgp_train (MkLGP lf_noise (lg_restart (ck_lf o)) (lg_kernel (ck_lf o))) Xls Yls sl) (fun lt =>
  let pred_ylh := lgp_predict lt.1 lt.2 Xhs in
  bind (hyper_search (ck_restart o) (ck_loglik noise Xhs Yhs pred_ylh (stdev Yh) (ck_kernel o)) sh) (fun opt_param =>
  let noise' := if noise is Some s then s else ch_sigma opt_param in
  ck_update o noise' (ch_rho opt_param) (set_params (ck_kernel o) (ch_theta opt_param)) lt.1 lt.2
    Xls Yls Xhs Yhs pred_ylh (mean Yh) (stdev Yh))).

(** 431-444: the covariances of new (scaled) points with all responses *)
Definition ck_cross m (o : ck d) (t : ck_trained d) (Xnew : 'M[R]_(m, d)) : 'M[R]_(ct_nl t + ct_nh t, m) :=
  let sl := kr_sigma2 (lt_krig (ct_lf t)) in
  col_mx (Rmult (ct_rho t) sl *: get_kernel_matrix (lg_kernel (ck_lf o)) (ct_Xl t) Xnew)
         (Rmult (Rmult (ct_rho t) (ct_rho t)) sl *: get_kernel_matrix (lg_kernel (ck_lf o)) (ct_Xh t) Xnew
          + ct_sigma2 t *: get_kernel_matrix (ck_kernel o) (ct_Xh t) Xnew).
(** 412-462 [predict] without std *)
Definition ck_predict m (o : ck d) (X : 'M[R]_(m, d)) : result 'cV[R]_m :=
  match ck_model o with
  | None => Raise AttributeError
  | Some t =>
      let c := ck_cross o t (normalize_input lo hi X) in
      bind (chol_solve (ct_LC t) (ct_y t - const_mx (ct_mu t))) (fun a =>
      let fmean := const_mx (ct_mu t) + c^T *m a in
      Ok (\col_j Rplus (Rmult (fmean j 0) (ct_std t)) (ct_mean t)))
  end.
(** 412-462 [predict] with return_std=True: it also multiplies the attribute noise by yh_std *)
Definition ck_predict_std m (o : ck d) (X : 'M[R]_(m, d)) : result (ck d * ('cV[R]_m * 'cV[R]_m)) :=
  match ck_model o with
  | None => Raise AttributeError
  | Some t =>
      let c := ck_cross o t (normalize_input lo hi X) in
      bind (ck_predict o X) (fun fmean =>
      bind (chol_solve (ct_LC t) c) (fun b =>
      let s2 j := Rminus (Rplus (Rmult (Rmult (ct_rho t) (ct_rho t)) (kr_sigma2 (lt_krig (ct_lf t)))) (ct_sigma2 t)) ((c^T *m b) j j) in
      let epis_std j := Rmult (sqrt (Rmax (s2 j) 0)) (ct_std t) in
      match ck_noise o with
      | None => Raise TypeError
      | Some s =>
          let noise := Rmult s (ct_std t) in
          Ok (MkCK (Some noise) (ck_restart o) (ck_kernel o) (ck_lf o) (ck_model o),
              (fmean, \col_j sqrt (Rplus (Rmult (epis_std j) (epis_std j)) (Rmult noise noise))))
      end))
  end.
(** 464-489 [predict_lf] *)
Definition ck_predict_lf m (o : ck d) (X : 'M[R]_(m, d)) : result 'cV[R]_m :=
  match ck_model o with
  | None => Raise AttributeError
  | Some t => Ok (\col_j Rplus (Rmult (lgp_predict (ck_lf o) (ct_lf t) (normalize_input lo hi X) j 0) (ct_std t)) (ct_mean t))
  end.
Definition ck_predict_lf_std m (o : ck d) (X : 'M[R]_(m, d)) : result ('cV[R]_m * 'cV[R]_m) :=
  match ck_model o with
  | None => Raise AttributeError
  | Some t =>
      bind (lgp_predict_std (ck_lf o) (ct_lf t) (normalize_input lo hi X)) (fun r =>
      Ok (\col_j Rplus (Rmult (r.1 j 0) (ct_std t)) (ct_mean t), \col_j Rmult (r.2 j 0) (ct_std t)))
  end.
End CK.
