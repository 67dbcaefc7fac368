(** Model of models/mf_gaussian_process.py, hierarchical_kriging.py and scale_kriging.py in exact real
    arithmetic, with the low-fidelity and discrepancy models the classes build by default.  An exception
    is the only result of a call that raises: what it leaves in the object is not modelled here. *)
From Coq Require Import Reals.
From Verif Require Import Fl.
From mathcomp Require Import all_ssreflect all_algebra.
From Verif Require Import RStruct LinAlg Kernel Krig GP.
Set Implicit Arguments.
Unset Strict Implicit.
Unset Printing Implicit Defensive.
Import GRing.Theory.
Local Open Scope ring_scope.

Section MF.
Variables (d : nat) (lo hi : 'rV[R]_d).
Local Notation gp := (gp d 1).
Local Notation Ordinary := (@Ordinary d).

(** ** HierarchicalKriging *)

(** What a successful training leaves in the object; [hk_F] is the column of scaled low-fidelity
    predictions at the high-fidelity samples. *)
Record hk_trained := HKTrained {
  hk_n : nat;
  hk_X : 'M[R]_(hk_n, d);           (* sample_xh_scaled *)
  hk_Y : 'cV[R]_hk_n;               (* sample_yh_scaled *)
  hk_F : 'M[R]_(hk_n, 1);           (* F *)
  hk_mean : R;                      (* yh_mean *)
  hk_std : R;                       (* yh_std *)
  hk_K : 'M[R]_hk_n;                (* K *)
  hk_krig : krig hk_n 1;
  hk_logp : R }.
Record hk := MkHK { hk_noise : option R; hk_restart : nat; hk_kernel : rbf d; hk_lf : gp; hk_model : option hk_trained }.

(** 15-37 [__init__] *)
Definition hk_new (noise_prior : option R) (optimizer_restart : nat) : hk :=
  MkHK noise_prior optimizer_restart (rbf_new (0 : 'rV[R]_d)) (gp_new d 1 noise_prior optimizer_restart) None.

(** 164-224 [_logLikelihood], one row of params *)
Definition hk_loglik n (noise : option R) (X : 'M[R]_(n, d)) (Y : 'cV[R]_n) (F : 'M[R]_(n, 1)) (yh_std : R) (k : rbf d) (h : hyper d) : result R :=
  let noise_sigma := if noise is Some s then Rdiv s yh_std else h_sigma h in
  let K := kernel_call k X X (h_theta h) + (Rmult noise_sigma noise_sigma)%:M in
  bind (krig_fit K F Y) (fun m =>
  let concentrated := if noise is Some s then Req_EM_T s 0 : bool else false in
  let data_term := if concentrated then ln (kr_sigma2 m) else kr_sigma2 m in
  let logp := Rminus (Rmult (Rmult (Ropp (Rdiv 1 2)) (INR n)) data_term) (sum_log_diag (kr_L m)) in
  Ok (Ropp logp)).

(** 226-260 [_update_parameters] *)
Definition hk_update n (o : hk) (lf : gp) (X : 'M[R]_(n, d)) (Y : 'cV[R]_n) (F : 'M[R]_(n, 1)) (yh_mean yh_std : R) (opt_param : hyper d) : result hk :=
  let noise := if hk_noise o is Some s then s else Rmult (h_sigma opt_param) yh_std in
  let kernel := set_params (hk_kernel o) (h_theta opt_param) in
  let r := Rdiv noise yh_std in
  let K := get_kernel_matrix kernel X X + (Rmult r r)%:M in
  bind (krig_fit K F Y) (fun m =>
  let logp := Rminus (Rmult (Rmult (Ropp (Rdiv 1 2)) (INR n)) (kr_sigma2 m)) (sum_log_diag (kr_L m)) in
  Ok (MkHK (Some noise) (hk_restart o) kernel lf (Some (HKTrained X Y F yh_mean yh_std K m logp)))).

(** mf_gaussian_process.py 46-92 [train] and hierarchical_kriging.py 39-61 [_train_hf]: first the
    low-fidelity model, then this one.  As in GP.v nothing is claimed about responses with standard
    deviation 0. *)
Definition hk_train nh nl (o : hk) (Xh : 'M[R]_(nh, d)) (Yh : 'cV[R]_nh) (Xl : 'M[R]_(nl, d)) (Yl : 'cV[R]_nl)
    (sl sh : search (hyper d)) : result hk :=
  bind (gp_train Ordinary lo hi (hk_lf o) Xl Yl sl) (fun lf =>
  let Xs := normalize_input lo hi Xh in
  if Req_EM_T (stdev Yh) 0 then Raise ExternalError else
  let Ys := normalize_output Yh in
  bind (gp_predict Ordinary lo hi lf Xh) (fun F0 =>
  let F := \matrix_(i, j) Rdiv (Rminus (F0 i j) (mean Yh)) (stdev Yh) in
  bind (hyper_search (hk_restart o) (hk_loglik (hk_noise o) Xs Ys F (stdev Yh) (hk_kernel o)) sh) (fun opt_param =>
  hk_update o lf Xs Ys F (mean Yh) (stdev Yh) opt_param))).

(** 88-90: the scaled low-fidelity predictions at new points *)
Definition hk_basis m (o : hk) (t : hk_trained) (X : 'M[R]_(m, d)) : result 'M[R]_(m, 1) :=
  bind (gp_predict Ordinary lo hi (hk_lf o) X) (fun f0 =>
  Ok (\matrix_(i, j) Rdiv (Rminus (f0 i j) (hk_mean t)) (hk_std t))).
(** 63-111 [predict] without std *)
Definition hk_predict m (o : hk) (X : 'M[R]_(m, d)) : result 'cV[R]_m :=
  match hk_model o with
  | None => Raise AttributeError
  | Some t =>
      let new := normalize_input lo hi X in
      let knew := get_kernel_matrix (hk_kernel o) (hk_X t) new in
      bind (hk_basis o t X) (fun f =>
      let fmean := krig_mean (hk_krig t) f knew in
      Ok (\col_j Rplus (Rmult (fmean j 0) (hk_std t)) (hk_mean t)))
  end.
(** 63-111 [predict] with return_std=True *)
Definition hk_predict_std m (o : hk) (X : 'M[R]_(m, d)) : result ('cV[R]_m * 'cV[R]_m) :=
  match hk_model o with
  | None => Raise AttributeError
  | Some t =>
      let new := normalize_input lo hi X in
      let knew := get_kernel_matrix (hk_kernel o) (hk_X t) new in
      bind (hk_predict o X) (fun fmean =>
      bind (hk_basis o t X) (fun f =>
      bind (krig_mse (hk_krig t) f knew) (fun mse =>
      match hk_noise o with
      | None => Raise TypeError
      | Some noise =>
          let epistemic j := Rmult (sqrt (Rmax (mse j 0) 0)) (hk_std t) in
          Ok (fmean, \col_j sqrt (Rplus (Rmult (epistemic j) (epistemic j)) (Rmult noise noise)))
      end)))
  end.

(** ** ScaledKriging *)

(** The object: lfGP, disc_model, rho, the kernel attribute, and noise (set by training). *)
Record sk := MkSK { sk_lf : gp; sk_disc : gp; sk_rho : R; sk_kernel : rbf d; sk_noise : option R }.
(** 13-88 [__init__] with the default models *)
Definition sk_new (noise_prior : option R) (optimizer_restart : nat) : sk :=
  MkSK (gp_new d 1 noise_prior optimizer_restart) (gp_new d 1 noise_prior optimizer_restart) 1
       (rbf_new (0 : 'rV[R]_d)) None.

(** 133-142 [_getDisc] *)
Definition sk_disc_data n (Y pred_lf : 'cV[R]_n) (rho : R) : 'cV[R]_n := \col_i Rminus (Y i 0) (Rmult rho (pred_lf i 0)).
(** 185-202 [_eval_error], one value of rho *)
Definition sk_eval_error n (pred_lf Y : 'cV[R]_n) (rho : R) : R :=
  \sum_i Rmult (Rminus (Rmult rho (pred_lf i 0)) (Y i 0)) (Rminus (Rmult rho (pred_lf i 0)) (Y i 0)).

(** 144-183 [_rho_optimize].  The search for rho is free: it evaluates the objective at some values and
    returns one.  The objective of "bumpiness" trains disc_model, each time with a search of its own. *)
Inductive rho_search :=
  | RhoFixed                                        (* rho_optimize=False *)
  | RhoError of R                                   (* rho_method="error": the value returned *)
  | RhoBumpiness of seq (R * search (hyper d)) & R  (* rho_method="bumpiness" *)
  | RhoOther.                                       (* any other rho_method *)
(** 217-227: the trainings of one bumpiness search *)
Fixpoint sk_bumps n (disc : gp) (X : 'M[R]_(n, d)) (Y pred_lf : 'cV[R]_n) (qs : seq (R * search (hyper d))) : result gp :=
  if qs is (rho, s) :: qs' then
    bind (gp_train Ordinary lo hi disc X (sk_disc_data Y pred_lf rho) s) (fun disc' => sk_bumps disc' X Y pred_lf qs')
  else Ok disc.
(** rho and disc_model after [_rho_optimize]; with another method optRes is never assigned *)
Definition sk_rho_optimize n (o : sk) (X : 'M[R]_(n, d)) (Y pred_lf : 'cV[R]_n) (s : rho_search) : result (R * gp) :=
  match s with
  | RhoFixed => Ok (sk_rho o, sk_disc o)
  | RhoError rho => Ok (rho, sk_disc o)
  | RhoBumpiness qs rho => bind (sk_bumps (sk_disc o) X Y pred_lf qs) (fun disc => Ok (rho, disc))
  | RhoOther => Raise UnboundLocalError
  end.
(** mf_gaussian_process.py 46-92 [train] and scale_kriging.py 90-105 [_train_hf] *)
Definition sk_train nh nl (o : sk) (Xh : 'M[R]_(nh, d)) (Yh : 'cV[R]_nh) (Xl : 'M[R]_(nl, d)) (Yl : 'cV[R]_nl)
    (sl : search (hyper d)) (sr : rho_search) (sh : search (hyper d)) : result sk :=
  bind (gp_train Ordinary lo hi (sk_lf o) Xl Yl sl) (fun lf =>
  bind (gp_predict Ordinary lo hi lf Xh) (fun pred_lf =>
  bind (sk_rho_optimize o Xh Yh pred_lf sr) (fun rd =>
  bind (gp_train Ordinary lo hi rd.2 Xh (sk_disc_data Yh pred_lf rd.1) sh) (fun disc =>
  Ok (MkSK lf disc rd.1 (sk_kernel o) (gp_noise disc)))))).
(** 124-126 [predict] without std *)
Definition sk_predict m (o : sk) (X : 'M[R]_(m, d)) : result 'cV[R]_m :=
  bind (gp_predict Ordinary lo hi (sk_disc o) X) (fun pd =>
  bind (gp_predict Ordinary lo hi (sk_lf o) X) (fun pl =>
  Ok (\col_j Rplus (Rmult (pd j 0) (sk_rho o)) (pl j 0)))).
(** 127-131 [predict] with return_std=True *)
Definition sk_predict_std m (o : sk) (X : 'M[R]_(m, d)) : result ('cV[R]_m * 'cV[R]_m) :=
  bind (gp_predict_std Ordinary lo hi (sk_lf o) X) (fun l =>
  bind (gp_predict_std Ordinary lo hi (sk_disc o) X) (fun e =>
  let mse j := Rplus (Rmult (Rmult (sk_rho o) (sk_rho o)) (Rmult (l.2 j 0) (l.2 j 0))) (Rmult (e.2 j 0) (e.2 j 0)) in
  Ok (\col_j Rplus (Rmult (sk_rho o) (l.1 j 0)) (e.1 j 0), \col_j sqrt (mse j)))).

(** ** mf_gaussian_process.py 113-140 [_eval_corr]; an unknown fidelity returns None (the ValueError is
    built but not raised) *)
Definition eval_corr n m (kernel : rbf d) (lf : gp) (X : 'M[R]_(n, d)) (X' : 'M[R]_(m, d)) (fidelity : nat) : option 'M[R]_(n, m) :=
  match fidelity with
  | 0%N => Some (get_kernel_matrix kernel (normalize_input lo hi X) (normalize_input lo hi X'))
  | 1%N => Some (get_kernel_matrix (gp_kernel lf) (normalize_input lo hi X) (normalize_input lo hi X'))
  | _ => None
  end.
End MF.
