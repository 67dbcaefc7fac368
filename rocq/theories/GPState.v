(** Model of models/gaussian_process.py at the level of single attributes: what [train] leaves in the
    object when it raises in the middle, and what [predict] does with it.  GP.v models the same class
    with training as one step; GPStateFacts.v proves the two agree whenever training succeeds.
    Exact real arithmetic. *)
From Coq Require Import Reals.
From Verif Require Import Fl.
From mathcomp Require Import all_ssreflect all_algebra.
From Verif Require Import RStruct LinAlg Kernel Krig GP.
Set Implicit Arguments.
Unset Strict Implicit.
Unset Printing Implicit Defensive.
Import GRing.Theory.
Local Open Scope ring_scope.

(** Attributes whose number of rows is that of the training set they were computed from. *)
Record square := Square { sq_n : nat; sq_mx : 'M[R]_sq_n }.
Record columns m := Columns { co_n : nat; co_mx : 'M[R]_(co_n, m) }.
(** 81-87: num_samples, sample_x, sample_scaled_x, sample_y, sample_y_scaled.  None of these
    assignments raises for arrays of matching shapes, so they are set together. *)
Record dataset d := Dataset {
  ds_n : nat; ds_x : 'M[R]_(ds_n, d); ds_scaled_x : 'M[R]_(ds_n, d); ds_y : 'cV[R]_ds_n; ds_scaled_y : 'cV[R]_ds_n }.

(** A matrix used where NumPy needs [n'] rows: ValueError when it has another number of them *)
Definition with_rows m n n' (A : 'M[R]_(n, m)) : result 'M[R]_(n', m) :=
  match @eqP _ n n' with ReflectT E => Ok (castmx (E, erefl m) A) | ReflectF _ => Raise ValueError end.
Definition with_order n n' (A : 'M[R]_n) : result 'M[R]_n' :=
  match @eqP _ n n' with ReflectT E => Ok (castmx (E, E) A) | ReflectF _ => Raise ValueError end.
(** reading an attribute *)
Definition attr A (a : option A) : result A := if a is Some v then Ok v else Raise AttributeError.

Section State.
Variables (d p : nat) (phi : 'rV[R]_d -> 'rV[R]_p) (lo hi : 'rV[R]_d).

(** The object.  [None] stands for an attribute that does not exist yet, except for noise. *)
Record attrs := Attrs {
  a_noise : option R;                     (* noise; None until learned *)
  a_restart : nat;                        (* optimizer_restart *)
  a_kernel : rbf d;                       (* kernel *)
  a_data : option (dataset d);            (* the five attributes 81-87 set *)
  a_opt : option (hyper d);               (* opt_param *)
  a_K : option square;                    (* K *)
  a_L : option square;                    (* L *)
  a_f : option (columns p);               (* f *)
  a_alpha : option (columns 1);           (* alpha *)
  a_ld : option 'M[R]_p;                  (* ld *)
  a_beta : option 'cV[R]_p;               (* beta *)
  a_gamma : option (columns 1);           (* gamma *)
  a_sigma2 : option R;                    (* sigma2 *)
  a_logp : option R }.                      (* logp *)
Definition put_noise (o : attrs) (v : R) : attrs :=
  Attrs (Some v) (a_restart o) (a_kernel o) (a_data o) (a_opt o) (a_K o) (a_L o) (a_f o) (a_alpha o) (a_ld o) (a_beta o) (a_gamma o) (a_sigma2 o) (a_logp o).
Definition put_kernel (o : attrs) (v : rbf d) : attrs :=
  Attrs (a_noise o) (a_restart o) v (a_data o) (a_opt o) (a_K o) (a_L o) (a_f o) (a_alpha o) (a_ld o) (a_beta o) (a_gamma o) (a_sigma2 o) (a_logp o).
Definition put_data (o : attrs) (v : (dataset d)) : attrs :=
  Attrs (a_noise o) (a_restart o) (a_kernel o) (Some v) (a_opt o) (a_K o) (a_L o) (a_f o) (a_alpha o) (a_ld o) (a_beta o) (a_gamma o) (a_sigma2 o) (a_logp o).
Definition put_opt (o : attrs) (v : (hyper d)) : attrs :=
  Attrs (a_noise o) (a_restart o) (a_kernel o) (a_data o) (Some v) (a_K o) (a_L o) (a_f o) (a_alpha o) (a_ld o) (a_beta o) (a_gamma o) (a_sigma2 o) (a_logp o).
Definition put_K (o : attrs) (v : square) : attrs :=
  Attrs (a_noise o) (a_restart o) (a_kernel o) (a_data o) (a_opt o) (Some v) (a_L o) (a_f o) (a_alpha o) (a_ld o) (a_beta o) (a_gamma o) (a_sigma2 o) (a_logp o).
Definition put_L (o : attrs) (v : square) : attrs :=
  Attrs (a_noise o) (a_restart o) (a_kernel o) (a_data o) (a_opt o) (a_K o) (Some v) (a_f o) (a_alpha o) (a_ld o) (a_beta o) (a_gamma o) (a_sigma2 o) (a_logp o).
Definition put_f (o : attrs) (v : (columns p)) : attrs :=
  Attrs (a_noise o) (a_restart o) (a_kernel o) (a_data o) (a_opt o) (a_K o) (a_L o) (Some v) (a_alpha o) (a_ld o) (a_beta o) (a_gamma o) (a_sigma2 o) (a_logp o).
Definition put_alpha (o : attrs) (v : (columns 1)) : attrs :=
  Attrs (a_noise o) (a_restart o) (a_kernel o) (a_data o) (a_opt o) (a_K o) (a_L o) (a_f o) (Some v) (a_ld o) (a_beta o) (a_gamma o) (a_sigma2 o) (a_logp o).
Definition put_ld (o : attrs) (v : 'M[R]_p) : attrs :=
  Attrs (a_noise o) (a_restart o) (a_kernel o) (a_data o) (a_opt o) (a_K o) (a_L o) (a_f o) (a_alpha o) (Some v) (a_beta o) (a_gamma o) (a_sigma2 o) (a_logp o).
Definition put_beta (o : attrs) (v : 'cV[R]_p) : attrs :=
  Attrs (a_noise o) (a_restart o) (a_kernel o) (a_data o) (a_opt o) (a_K o) (a_L o) (a_f o) (a_alpha o) (a_ld o) (Some v) (a_gamma o) (a_sigma2 o) (a_logp o).
Definition put_gamma (o : attrs) (v : (columns 1)) : attrs :=
  Attrs (a_noise o) (a_restart o) (a_kernel o) (a_data o) (a_opt o) (a_K o) (a_L o) (a_f o) (a_alpha o) (a_ld o) (a_beta o) (Some v) (a_sigma2 o) (a_logp o).
Definition put_sigma2 (o : attrs) (v : R) : attrs :=
  Attrs (a_noise o) (a_restart o) (a_kernel o) (a_data o) (a_opt o) (a_K o) (a_L o) (a_f o) (a_alpha o) (a_ld o) (a_beta o) (a_gamma o) (Some v) (a_logp o).
Definition put_logp (o : attrs) (v : R) : attrs :=
  Attrs (a_noise o) (a_restart o) (a_kernel o) (a_data o) (a_opt o) (a_K o) (a_L o) (a_f o) (a_alpha o) (a_ld o) (a_beta o) (a_gamma o) (a_sigma2 o) (Some v).

(** 17-64 [__init__] with kernel=None *)
Definition attrs_new (noise_prior : option R) (optimizer_restart : nat) : attrs :=
  Attrs noise_prior optimizer_restart (rbf_new (0 : 'rV[R]_d)) None None None None None None None None None None None.

(** run a computation on the current object; when it raises the object keeps its present attributes *)
Definition step A (o : attrs) (r : result A) (k : A -> attrs * result unit) : attrs * result unit :=
  match r with Ok v => k v | Raise e => (o, Raise e) end.

(** 265-302 [_update_kernel_matrix], one assignment after the other *)
Definition update_attrs n (o : attrs) (X : 'M[R]_(n, d)) (Y : 'cV[R]_n) (y_std : R) (opt_param : hyper d) : attrs * result unit :=
  let o := put_kernel o (set_params (a_kernel o) (h_theta opt_param)) in
  let noise := if a_noise o is Some s then s else Rmult (h_sigma opt_param) y_std in
  let o := put_noise o noise in
  let r := Rdiv noise y_std in
  let K := get_kernel_matrix (a_kernel o) X X + (Rmult r r)%:M in
  let o := put_K o (Square K) in
  step o (chol K) (fun L =>
  let o := put_L o (Square L) in
  let F := regr_matrix phi X in
  let o := put_f o (Columns F) in
  step o (chol_solve L Y) (fun alpha =>
  let o := put_alpha o (Columns alpha) in
  step o (chol_solve L F) (fun KF =>
  step o (chol (F^T *m KF)) (fun ld =>
  let o := put_ld o ld in
  step o (chol_solve ld (F^T *m alpha)) (fun beta =>
  let o := put_beta o beta in
  step o (chol_solve L (Y - F *m beta)) (fun gamma =>
  let o := put_gamma o (Columns gamma) in
  let sigma2 := Rdiv (((Y - F *m beta)^T *m gamma) 0 0) (INR n) in
  let o := put_sigma2 o sigma2 in
  let o := put_logp o (Rminus (Rmult (Rmult (Ropp (Rdiv 1 2)) (INR n)) sigma2) (sum_log_diag L)) in
  (o, Ok tt))))))).

(** 66-95 [train].  As in GP.v nothing is claimed about responses with standard deviation 0: the model
    stops there with [ExternalError]. *)
Definition train_attrs n (o : attrs) (X : 'M[R]_(n, d)) (Y : 'cV[R]_n) (s : search (hyper d)) : attrs * result unit :=
  let Xs := normalize_input lo hi X in
  let Ys := normalize_output Y in
  let o := put_data o (Dataset X Xs Y Ys) in
  if Req_EM_T (stdev Y) 0 then (o, Raise ExternalError) else
  step o (hyper_search (a_restart o) (loglik phi (a_noise o) Xs Ys (stdev Y) (a_kernel o)) s) (fun opt_param =>
  let o := put_opt o opt_param in
  update_attrs o Xs Ys (stdev Y) opt_param).

(** 115-123 of [predict]: the basis at the new points, their covariances with the training points and the
    mean.  y_mean and y_std are properties computed from sample_y (364-384). *)
Definition predict_attrs m (o : attrs) (X : 'M[R]_(m, d)) : result 'cV[R]_m :=
  let new := normalize_input lo hi X in
  bind (attr (a_data o)) (fun D =>
  let knew := get_kernel_matrix (a_kernel o) (ds_scaled_x D) new in
  let f := regr_matrix phi new in
  bind (attr (a_beta o)) (fun beta =>
  bind (attr (a_gamma o)) (fun gamma =>
  bind (with_rows (ds_n D) (co_mx gamma)) (fun g =>
  let fmean := f *m beta + knew^T *m g in
  Ok (\col_j Rplus (Rmult (fmean j 0) (stdev (ds_y D))) (mean (ds_y D))))))).
(** 97-142 [predict] with return_std=True *)
Definition predict_std_attrs m (o : attrs) (X : 'M[R]_(m, d)) : result ('cV[R]_m * 'cV[R]_m) :=
  bind (predict_attrs o X) (fun fmean =>
  let new := normalize_input lo hi X in
  bind (attr (a_data o)) (fun D =>
  let knew := get_kernel_matrix (a_kernel o) (ds_scaled_x D) new in
  let f := regr_matrix phi new in
  bind (attr (a_L o)) (fun L' =>
  bind (with_order (ds_n D) (sq_mx L')) (fun L =>
  bind (chol_solve L knew) (fun delta =>
  bind (attr (a_f o)) (fun F' =>
  bind (with_rows (ds_n D) (co_mx F')) (fun F =>
  let Rm := f^T - F^T *m delta in
  bind (attr (a_sigma2 o)) (fun sigma2 =>
  bind (attr (a_ld o)) (fun ld =>
  bind (chol_solve ld Rm) (fun S =>
  let mse j := Rmult sigma2 (Rplus (Rminus 1 ((knew^T *m delta) j j)) ((Rm^T *m S) j j)) in
  match a_noise o with
  | None => Raise TypeError
  | Some noise =>
      Ok (fmean, \col_j sqrt (Rmax (Rplus (Rmult (mse j) (Rmult (stdev (ds_y D)) (stdev (ds_y D)))) (Rmult noise noise)) 0))
  end)))))))))).
End State.
