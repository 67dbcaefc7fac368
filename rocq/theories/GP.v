(** Model of models/gaussian_process.py, class GaussianProcessRegression, in exact real arithmetic. *)
From Coq Require Import Reals.
From Verif Require Import Fl.
From mathcomp Require Import all_ssreflect all_algebra.
From Verif Require Import RStruct LinAlg Kernel Krig.
Set Implicit Arguments.
Unset Strict Implicit.
Unset Printing Implicit Defensive.
Import GRing.Theory.
Local Open Scope ring_scope.

(** 314-331 [normalize_input]; also mf_gaussian_process.py 142-156 and co_kriging.py 681-695.
    [lo], [hi] are the two columns of the design space. *)
Definition normalize_input d n (lo hi : 'rV[R]_d) (X : 'M[R]_(n, d)) : 'M[R]_(n, d) :=
  \matrix_(i, k) Rdiv (Rminus (X i k) (lo 0 k)) (Rminus (hi 0 k) (lo 0 k)).
(** [np.mean], [np.std] (population standard deviation): 364-384 [y_mean], [y_std] *)
Definition mean n (Y : 'cV[R]_n) : R := Rdiv (\sum_i Y i 0) (INR n).
Definition stdev n (Y : 'cV[R]_n) : R :=
  sqrt (Rdiv (\sum_i Rmult (Rminus (Y i 0) (mean Y)) (Rminus (Y i 0) (mean Y))) (INR n)).
(** 333-351 [normalize_output]; also mf_gaussian_process.py 158-173 and co_kriging.py 697-712 *)
Definition normalize_output n (Y : 'cV[R]_n) : 'cV[R]_n := \col_i Rdiv (Rminus (Y i 0) (mean Y)) (stdev Y).

(** 156-184: the multi-start loop.  A trial is the pair (x, fun) [minimize] returned. *)
Definition multistart_step {A} (s : option A * b64) (t : A * b64) : option A * b64 :=
  if flt t.2 s.2 then (Some t.1, t.2) else s.
Definition multistart {A} (ts : seq (A * b64)) : result A :=
  match (foldl multistart_step (None, finf) ts).1 with
  | Some x => Ok x
  | None => Raise UnboundLocalError
  end.

(** A vector of hyper-parameters: the kernel's and, only when the noise is to be learned, sigma. *)
Record hyper d := Hyper { h_theta : 'rV[R]_d; h_sigma : R }.
(** One call of scipy's [minimize]: the points where it evaluated the objective, [x] and [fun].  All of
    these are free: the search is not modelled. *)
Record trial A := Trial { t_queries : seq A; t_x : A; t_fun : b64 }.
(** The search of 144-203: repeated L-BFGS-B, one trial per number, or an optimizer of this package, which
    evaluates the objective at some points and returns best_x. *)
Inductive search A := Lbfgs of (nat -> trial A) | Evolution of seq A & A.
Arguments Lbfgs {A}.
Arguments Evolution {A}.

(** run an objective at all points, for its exceptions *)
Fixpoint run_queries {A} (f : A -> result R) (qs : seq A) : result unit :=
  if qs is q :: qs' then bind (f q) (fun _ => run_queries f qs') else Ok tt.

(** 144-203 [_hyper_paras_optimization]; also hierarchical_kriging.py 137-162, co_kriging.py 70-102 and
    523-548 *)
Definition hyper_search A (restart : nat) (objective : A -> result R) (s : search A) : result A :=
  match s with
  | Lbfgs oracle =>
      let trials := [seq oracle i | i <- iota 0 restart.+1] in
      bind (run_queries objective (flatten [seq t_queries t | t <- trials])) (fun _ =>
      multistart [seq (t_x t, t_fun t) | t <- trials])
  | Evolution queries best_x =>
      bind (run_queries objective queries) (fun _ => Ok best_x)
  end.

Section GP.
Variables (d p : nat) (phi : 'rV[R]_d -> 'rV[R]_p) (lo hi : 'rV[R]_d).

(** 205-263 [_logLikelihood], one row of params.  [noise == 0.0] is false for None. *)
Definition loglik n (noise : option R) (X : 'M[R]_(n, d)) (Y : 'cV[R]_n) (y_std : R) (k : rbf d) (h : hyper d) : result R :=
  let noise_sigma := if noise is Some s then Rdiv s y_std else h_sigma h in
  let K := kernel_call k X X (h_theta h) + (Rmult noise_sigma noise_sigma)%:M in
  bind (krig_fit K (regr_matrix phi X) Y) (fun m =>
  let concentrated := if noise is Some s then Req_EM_T s 0 : bool else false in
  let data_term := if concentrated then ln (kr_sigma2 m) else kr_sigma2 m in
  let logp := Rminus (Rmult (Rmult (Ropp (Rdiv 1 2)) (INR n)) data_term) (sum_log_diag (kr_L m)) in
  Ok (Ropp logp)).

(** What a successful training leaves in the object. *)
Record gp_trained := GPTrained {
  tr_n : nat;
  tr_X : 'M[R]_(tr_n, d);           (* sample_scaled_x *)
  tr_Y : 'cV[R]_tr_n;               (* sample_y_scaled *)
  tr_mean : R;                      (* y_mean *)
  tr_std : R;                       (* y_std *)
  tr_K : 'M[R]_tr_n;                (* K *)
  tr_krig : krig tr_n p;
  tr_logp : R }.
(** The object: noise, optimizer_restart, kernel, and the trained attributes. *)
Record gp := MkGP { gp_noise : option R; gp_restart : nat; gp_kernel : rbf d; gp_model : option gp_trained }.

(** 17-64 [__init__] with kernel=None *)
Definition gp_new (noise_prior : option R) (optimizer_restart : nat) : gp :=
  MkGP noise_prior optimizer_restart (rbf_new (0 : 'rV[R]_d)) None.

(** 265-302 [_update_kernel_matrix] *)
Definition gp_update n (o : gp) (X : 'M[R]_(n, d)) (Y : 'cV[R]_n) (y_mean y_std : R) (opt_param : hyper d) : result gp :=
  let noise := if gp_noise o is Some s then s else Rmult (h_sigma opt_param) y_std in
  let kernel := set_params (gp_kernel o) (h_theta opt_param) in
  let r := Rdiv noise y_std in
  let K := get_kernel_matrix kernel X X + (Rmult r r)%:M in
  bind (krig_fit K (regr_matrix phi X) Y) (fun m =>
  let logp := Rminus (Rmult (Rmult (Ropp (Rdiv 1 2)) (INR n)) (kr_sigma2 m)) (sum_log_diag (kr_L m)) in
  Ok (MkGP (Some noise) (gp_restart o) kernel (Some (GPTrained X Y y_mean y_std K m logp)))).

(** 66-95 [train].  On responses with standard deviation 0 NumPy divides by zero and goes on with NaN;
    this model stops with [ExternalError] there and nothing is claimed about that case. *)
Definition gp_train n (o : gp) (X : 'M[R]_(n, d)) (Y : 'cV[R]_n) (s : search (hyper d)) : result gp :=
  let Xs := normalize_input lo hi X in
  if Req_EM_T (stdev Y) 0 then Raise ExternalError else
  let Ys := normalize_output Y in
  bind (hyper_search (gp_restart o) (loglik (gp_noise o) Xs Ys (stdev Y) (gp_kernel o)) s) (fun opt_param =>
  gp_update o Xs Ys (mean Y) (stdev Y) opt_param).

(** 97-142 [predict] without std.  An untrained object lacks the attributes used. *)
Definition gp_predict m (o : gp) (X : 'M[R]_(m, d)) : result 'cV[R]_m :=
  match gp_model o with
  | None => Raise AttributeError
  | Some t =>
      let new := normalize_input lo hi X in
      let knew := get_kernel_matrix (gp_kernel o) (tr_X t) new in
      let fmean := krig_mean (tr_krig t) (regr_matrix phi new) knew in
      Ok (\col_j Rplus (Rmult (fmean j 0) (tr_std t)) (tr_mean t))
  end.
(** 97-142 [predict] with return_std=True *)
Definition gp_predict_std m (o : gp) (X : 'M[R]_(m, d)) : result ('cV[R]_m * 'cV[R]_m) :=
  match gp_model o with
  | None => Raise AttributeError
  | Some t =>
      let new := normalize_input lo hi X in
      let knew := get_kernel_matrix (gp_kernel o) (tr_X t) new in
      bind (gp_predict o X) (fun fmean =>
      bind (krig_mse (tr_krig t) (regr_matrix phi new) knew) (fun mse =>
      match gp_noise o with
      | None => Raise TypeError
      | Some noise =>
          Ok (fmean, \col_j sqrt (Rmax (Rplus (Rmult (mse j 0) (Rmult (tr_std t) (tr_std t))) (Rmult noise noise)) 0))
      end))
  end.
End GP.
