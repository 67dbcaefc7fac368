(** Training and prediction of models/hierarchical_kriging.py in binary64, attribute by attribute, for responses of every
    kind.  The low-fidelity model is the Gaussian process of TrainFl.v with the default basis.  [np.sum], [np.dot], [np.exp],
    [np.log], [10 ** t], [numpy.linalg.cholesky] and [numpy.linalg.solve] are arguments, as in TrainFl.v.  Line numbers
    without a file refer to hierarchical_kriging.py. *)
From Coq Require Import ZArith Bool List.
From Verif Require Import Fl NpList KernelFl OutputFl TrainFl CKTrainFl.
Import ListNotations.

(** The object.  [h_data]: sample_xh, sample_xh_scaled, sample_yh, sample_yh_scaled (50-54); [yh_mean] and [yh_std] are
    computed from sample_yh.  [h_attr]: the attributes set in 57 ([af] is [F]) and 235-260.  [KF], [epistemic], the
    low-fidelity samples and the times are never read and not kept. *)
Record hk64 := Hk64 {
  h_noise : option b64;
  h_restart : nat;
  h_param : row;
  h_lf : gp64;
  h_data : option data64;
  h_opt : option hyper64;
  h_attr : name -> option arr }.
Definition put_hnoise (o : hk64) (v : b64) : hk64 := Hk64 (Some v) (h_restart o) (h_param o) (h_lf o) (h_data o) (h_opt o) (h_attr o).
Definition put_hparam (o : hk64) (v : row) : hk64 := Hk64 (h_noise o) (h_restart o) v (h_lf o) (h_data o) (h_opt o) (h_attr o).
Definition put_hlf (o : hk64) (v : gp64) : hk64 := Hk64 (h_noise o) (h_restart o) (h_param o) v (h_data o) (h_opt o) (h_attr o).
Definition put_hdata (o : hk64) (v : data64) : hk64 := Hk64 (h_noise o) (h_restart o) (h_param o) (h_lf o) (Some v) (h_opt o) (h_attr o).
Definition put_hopt (o : hk64) (v : hyper64) : hk64 := Hk64 (h_noise o) (h_restart o) (h_param o) (h_lf o) (h_data o) (Some v) (h_attr o).
Definition put_hattr (o : hk64) (a : name) (n : nat) (v : array) : hk64 :=
  Hk64 (h_noise o) (h_restart o) (h_param o) (h_lf o) (h_data o) (h_opt o) (fun b => if name_eqb a b then Some (Arr n v) else h_attr o b).
(** go on with a value, or stop with the object as it is *)
Definition hstep {A} (o : hk64) (r : result A) (k : A -> hk64 * result unit) : hk64 * result unit :=
  match r with Ok a => k a | Raise e => (o, Raise e) end.

Section Train.
Variables (np_sum : list b64 -> b64) (np_dot : list (b64 * b64) -> b64) (np_exp np_log np_pow10 : b64 -> b64).
Variable np_cholesky : nat -> array -> result array.
Variable np_solve : nat -> nat -> array -> array -> result array.
Variable bounds : box.

(** 57, 90: predictions of the low-fidelity model on the scale of the high-fidelity responses [Y] *)
Definition trend64 (Y : list b64) (v : list b64) : array :=
  fun i _ => fdiv (fsub (nth i v fnan) (mean64 np_sum Y)) (std64 np_sum Y).
(** 164-224 [_logLikelihood], one row of params.  [noise == 0.0] is false for None. *)
Definition hk_loglik64 (noise : option b64) (d : data64) (F : array) (h : hyper64) : result b64 :=
  let n := length (d_x d) in
  let noise_sigma := match noise with Some s => fdiv s (std64 np_sum (d_y d)) | None => sigma64 h end in
  let K := covariance64 np_sum np_dot np_exp (params64 np_pow10 (theta64 h)) noise_sigma (d_scaled_x d) in
  let Y := column (d_scaled_y d) in
  L <- np_cholesky n K ;;
  alpha <- solve2 np_solve n 1 L Y ;;
  KF <- solve2 np_solve n 1 L F ;;
  ld <- np_cholesky 1%nat (dot64 np_dot n (transpose F) KF) ;;
  beta <- solve2 np_solve 1 1 ld (dot64 np_dot n (transpose F) alpha) ;;
  gamma <- solve2 np_solve n 1 L (minus Y (dot64 np_dot 1 F beta)) ;;
  let sigma2 := sigma2_64 np_dot 1 n Y F beta gamma in
  let concentrated := match noise with Some s => feq s f0 | None => false end in
  Ok (fopp (logp64 np_sum np_log n (if concentrated then np_log sigma2 else sigma2) L)).
(** 226-260 [_update_parameters] *)
Definition hk_update64 (o : hk64) : hk64 * result unit :=
  hstep o (get64 (h_data o)) (fun d =>
  hstep o (get64 (h_opt o)) (fun h =>
  let n := length (d_x d) in
  let yh_std := std64 np_sum (d_y d) in
  let Y := column (d_scaled_y d) in
  let noise := match h_noise o with None => fmul (sigma64 h) yh_std | Some s => s end in
  let o2 := put_hparam (put_hnoise o noise) (params64 np_pow10 (theta64 h)) in
  let K := covariance64 np_sum np_dot np_exp (h_param o2) (fdiv noise yh_std) (d_scaled_x d) in
  let o3 := put_hattr o2 aK n K in
  hstep o3 (np_cholesky n K) (fun L =>
  let o4 := put_hattr o3 aL n L in
  hstep o4 (solve2 np_solve n 1 L Y) (fun alpha =>
  let o5 := put_hattr o4 aalpha n alpha in
  hstep o5 (get_rows (h_attr o5 af) n) (fun F =>
  hstep o5 (solve2 np_solve n 1 L F) (fun KF =>
  hstep o5 (np_cholesky 1%nat (dot64 np_dot n (transpose F) KF)) (fun ld =>
  let o6 := put_hattr o5 ald 1%nat ld in
  hstep o6 (solve2 np_solve 1 1 ld (dot64 np_dot n (transpose F) alpha)) (fun beta =>
  let o7 := put_hattr o6 abeta 1%nat beta in
  hstep o7 (solve2 np_solve n 1 L (minus Y (dot64 np_dot 1 F beta))) (fun gamma =>
  let o8 := put_hattr o7 agamma n gamma in
  let sigma2 := sigma2_64 np_dot 1 n Y F beta gamma in
  let o9 := put_hattr o8 asigma2 1%nat (fun _ _ => sigma2) in
  (put_hattr o9 alogp 1%nat (fun _ _ => logp64 np_sum np_log n sigma2 L), Ok tt)))))))))).

(** the low-fidelity model *)
Definition lf64_train := train64 np_sum np_dot np_exp np_log np_pow10 np_cholesky np_solve ordinary64 1 bounds.
Definition lf64_predict := predict64 np_sum np_dot np_exp ordinary64 1 bounds.
(** 15-37 [__init__] *)
Definition hk_new64 (noise_prior : option b64) (optimizer_restart : nat) : hk64 :=
  Hk64 noise_prior optimizer_restart (params64 np_pow10 (map (fun _ => f0) bounds)) (new64 np_pow10 bounds noise_prior optimizer_restart) None None (fun _ => None).
(** 39-61 [_train_hf]; mf_gaussian_process.py 142-174 scale as gaussian_process.py does, so the data are [dataset64].
    113-162 [_optHyp] is [hyper_search64] of TrainFl.v. *)
Definition hk_train_hf64 (o : hk64) (Xh : mat) (Yh : list b64) (s : search64) : hk64 * result unit :=
  let d := dataset64 np_sum bounds Xh Yh in
  let o1 := put_hdata o d in
  hstep o1 (lf64_predict (h_lf o1) Xh) (fun v =>
  let F := trend64 Yh v in
  let o2 := put_hattr o1 af (length Xh) F in
  hstep o2 (hyper_search64 (h_restart o2) (hk_loglik64 (h_noise o2) d F) s) (fun h => hk_update64 (put_hopt o2 h))).
(** mf_gaussian_process.py 46-92 [train], with the object it leaves *)
Definition hk_train64 (o : hk64) (Xh : mat) (Yh : list b64) (Xl : mat) (Yl : list b64) (sl s : search64) : hk64 * result unit :=
  let (lf, r) := lf64_train (h_lf o) Xl Yl sl in
  let o1 := put_hlf o lf in
  hstep o1 r (fun _ => hk_train_hf64 o1 Xh Yh s).

(** 82-96: the means at the rows of [X] *)
Definition hk_predict64 (o : hk64) (X : mat) : result (list b64) :=
  d <- get64 (h_data o) ;;
  let n := length (d_x d) in
  let new := map (normalize64 bounds) X in
  let knew := kernel64 np_sum np_dot np_exp (h_param o) (d_scaled_x d) new in
  v <- lf64_predict (h_lf o) X ;;
  let f := trend64 (d_y d) v in
  beta <- get_rows (h_attr o abeta) 1%nat ;;
  gamma <- get_rows (h_attr o agamma) n ;;
  Ok (map (fun j => restored64 np_sum (d_y d) (fadd (dot64 np_dot 1 f beta j 0%nat) (dot64 np_dot n (transpose knew) gamma j 0%nat))) (seq 0 (length X))).
(** 82-111 with return_std=True: the means and the standard deviations *)
Definition hk_predict_std64 (o : hk64) (X : mat) : result (list b64 * list b64) :=
  fmean <- hk_predict64 o X ;;
  d <- get64 (h_data o) ;;
  let n := length (d_x d) in
  let m := length X in
  let yh_std := std64 np_sum (d_y d) in
  let new := map (normalize64 bounds) X in
  let knew := kernel64 np_sum np_dot np_exp (h_param o) (d_scaled_x d) new in
  v <- lf64_predict (h_lf o) X ;;
  let f := trend64 (d_y d) v in
  L <- get_rows (h_attr o aL) n ;;
  delta <- solve2 np_solve n m L knew ;;
  F <- get_rows (h_attr o af) n ;;
  sigma2 <- get_rows (h_attr o asigma2) 1%nat ;;
  ld <- get_rows (h_attr o ald) 1%nat ;;
  let R := minus (transpose f) (dot64 np_dot n (transpose F) delta) in
  S <- solve2 np_solve 1 m ld R ;;
  let epistemic j :=
    let mse := fmul (sigma2 0%nat 0%nat) (fadd (fsub f1 (dot64 np_dot n (transpose knew) delta j j)) (dot64 np_dot 1 (transpose R) S j j)) in
    fmul (fsqrt (fmaximum mse f0)) yh_std in
  match h_noise o with
  | None => Raise TypeError
  | Some noise => Ok (fmean, map (fun j => fsqrt (fadd (fmul (epistemic j) (epistemic j)) (fmul noise noise))) (seq 0 m))
  end.
End Train.
