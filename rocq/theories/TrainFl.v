(** Training and prediction of models/gaussian_process.py in binary64, attribute by attribute, for responses of every
    kind: also constant ones and ones with NaN or infinities, where GP.v and GPState.v stop.  [np.sum], [np.dot],
    [np.exp], [np.log], [10 ** t], [numpy.linalg.cholesky] and [numpy.linalg.solve] are arguments; what is assumed
    about them is part of each statement. *)
From Coq Require Import ZArith Bool List.
From Verif Require Import Fl NpList KernelFl OutputFl.
Import ListNotations.

(** a two-dimensional array, used only inside its shape *)
Definition array := nat -> nat -> b64.
(** an array with its number of rows *)
Record arr := Arr { arr_rows : nat; arr_at : array }.
Definition transpose (A : array) : array := fun i j => A j i.
Definition column (Y : list b64) : array := fun i _ => nth i Y fnan.
Definition minus (A B : array) : array := fun i j => fsub (A i j) (B i j).
(** [np.maximum]: NaN if one argument is *)
Definition fmaximum (x y : b64) : b64 := if isnan x then x else if isnan y then y else if flt x y then y else x.

(** one row of hyper-parameters: log10 of the kernel parameters, and the noise ratio (used if the noise is learned) *)
Record hyper64 := Hyper64 { theta64 : row; sigma64 : b64 }.
(** 81-87: the attributes set before the search.  [y_mean] and [y_std] (364-384) are computed from sample_y. *)
Record data64 := Data64 { d_x : mat; d_scaled_x : mat; d_y : list b64; d_scaled_y : list b64 }.
(** the attributes set by [_update_kernel_matrix] *)
Inductive name := aK | aL | af | aalpha | ald | abeta | agamma | asigma2 | alogp.
Definition name_eqb (a b : name) : bool :=
  match a, b with
  | aK, aK | aL, aL | af, af | aalpha, aalpha | ald, ald | abeta, abeta | agamma, agamma | asigma2, asigma2 | alogp, alogp => true
  | _, _ => false
  end.
(** The object.  [None] stands for an attribute that does not exist yet, except for noise. *)
Record gp64 := Gp64 {
  g_noise : option b64;              (* noise; None until learned *)
  g_restart : nat;                   (* optimizer_restart *)
  g_param : row;                     (* kernel.param *)
  g_data : option data64;            (* num_samples, sample_x, sample_scaled_x, sample_y, sample_y_scaled *)
  g_opt : option hyper64;            (* opt_param *)
  g_attr : name -> option arr }.
Definition put_noise64 (o : gp64) (v : b64) : gp64 := Gp64 (Some v) (g_restart o) (g_param o) (g_data o) (g_opt o) (g_attr o).
Definition put_param64 (o : gp64) (v : row) : gp64 := Gp64 (g_noise o) (g_restart o) v (g_data o) (g_opt o) (g_attr o).
Definition put_data64 (o : gp64) (v : data64) : gp64 := Gp64 (g_noise o) (g_restart o) (g_param o) (Some v) (g_opt o) (g_attr o).
Definition put_opt64 (o : gp64) (v : hyper64) : gp64 := Gp64 (g_noise o) (g_restart o) (g_param o) (g_data o) (Some v) (g_attr o).
Definition put_attr (o : gp64) (a : name) (n : nat) (v : array) : gp64 :=
  Gp64 (g_noise o) (g_restart o) (g_param o) (g_data o) (g_opt o) (fun b => if name_eqb a b then Some (Arr n v) else g_attr o b).
(** reading an attribute *)
Definition get64 {A} (a : option A) : result A := match a with Some v => Ok v | None => Raise AttributeError end.
(** an attribute used where NumPy needs [n] rows *)
Definition get_rows (a : option arr) (n : nat) : result array :=
  v <- get64 a ;; if Nat.eqb (arr_rows v) n then Ok (arr_at v) else Raise ValueError.

(** What the searches do.  L-BFGS-B: one trial per start with the points where it evaluated the objective, the point
    and the value it returned.  PSO and DE: the points they evaluated, and [best_x]. *)
Record trial64 := Trial64 { tr_queries : list hyper64; tr_x : hyper64; tr_fun : b64 }.
Inductive search64 := Lbfgs64 (trials : nat -> trial64) | Evolution64 (queries : list hyper64) (best_x : hyper64).
(** evaluate the objective at all points, for its exceptions *)
Fixpoint run_queries64 (f : hyper64 -> result b64) (qs : list hyper64) : result unit :=
  match qs with [] => Ok tt | q :: qs' => _ <- f q ;; run_queries64 f qs' end.
(** 173-191, 203: [opt_param] is unbound if no value was below [optimum_value] *)
Fixpoint multistart64 (best : option hyper64) (value : b64) (ts : list trial64) : result hyper64 :=
  match ts with
  | [] => match best with Some x => Ok x | None => Raise UnboundLocalError end
  | t :: ts' => if flt (tr_fun t) value then multistart64 (Some (tr_x t)) (tr_fun t) ts' else multistart64 best value ts'
  end.
(** 144-203 [_hyper_paras_optimization] *)
Definition hyper_search64 (restart : nat) (objective : hyper64 -> result b64) (s : search64) : result hyper64 :=
  match s with
  | Lbfgs64 oracle =>
      let trials := map oracle (seq 0 (S restart)) in
      _ <- run_queries64 objective (flat_map tr_queries trials) ;; multistart64 None finf trials
  | Evolution64 queries best_x => _ <- run_queries64 objective queries ;; Ok best_x
  end.

(** go on with a value, or stop with the object as it is *)
Definition step {A} (o : gp64) (r : result A) (k : A -> gp64 * result unit) : gp64 * result unit :=
  match r with Ok a => k a | Raise e => (o, Raise e) end.

Section Train.
Variables (np_sum : list b64 -> b64) (np_dot : list (b64 * b64) -> b64) (np_exp np_log np_pow10 : b64 -> b64).
(** [cholesky] of a matrix of order [n]; [solve] for a matrix of order [n] and [m] right hand sides *)
Variable np_cholesky : nat -> array -> result array.
Variable np_solve : nat -> nat -> array -> array -> result array.
(** regr, one row of its result, and its number of columns *)
Variables (basis : row -> row) (p : nat).
Variable bounds : box.

(** [np.dot] of two arrays, [k] being the common dimension *)
Definition dot64 (k : nat) (A B : array) : array := fun i j => np_dot (map (fun l => (A i l, B l j)) (seq 0 k)).
(** [solve(L.T, solve(L, B))] *)
Definition solve2 (n m : nat) (L B : array) : result array := Z <- np_solve n m L B ;; np_solve n m (transpose L) Z.
(** [self.regr(x)] *)
Definition regr64 (X : mat) : array := fun i j => nth j (basis (nth i X [])) f0.
(** 251-252 (and 296-298): [sigma2] *)
Definition sigma2_64 (n : nat) (Y f beta gamma : array) : b64 :=
  fdiv (dot64 n (transpose (minus Y (dot64 p f beta))) gamma 0%nat 0%nat) (fz (Z.of_nat n)).
(** 257, 260, 302: [np.sum(np.log(np.diag(L)))] *)
Definition sum_log64 (n : nat) (L : array) : b64 := np_sum (map (fun i => np_log (L i i)) (seq 0 n)).
(** 256-260, 301-302: [-0.5 * num_samples * term - np.sum(np.log(np.diag(L)))] *)
Definition logp64 (n : nat) (term : b64) (L : array) : b64 :=
  fsub (fmul (fmul (fopp (fdiv f1 (fz 2))) (fz (Z.of_nat n))) term) (sum_log64 n L).
(** 10 ** theta *)
Definition params64 (theta : row) : row := map np_pow10 theta.

(** 205-263 [_logLikelihood], one row of params.  [noise == 0.0] is false for None. *)
Definition loglik64 (noise : option b64) (d : data64) (h : hyper64) : result b64 :=
  let n := length (d_x d) in
  let noise_sigma := match noise with Some s => fdiv s (std64 np_sum (d_y d)) | None => sigma64 h end in
  let K := covariance64 np_sum np_dot np_exp (params64 (theta64 h)) noise_sigma (d_scaled_x d) in
  let Y := column (d_scaled_y d) in
  L <- np_cholesky n K ;;
  let f := regr64 (d_scaled_x d) in
  alpha <- solve2 n 1 L Y ;;
  KF <- solve2 n p L f ;;
  ld <- np_cholesky p (dot64 n (transpose f) KF) ;;
  beta <- solve2 p 1 ld (dot64 n (transpose f) alpha) ;;
  gamma <- solve2 n 1 L (minus Y (dot64 p f beta)) ;;
  let sigma2 := sigma2_64 n Y f beta gamma in
  let concentrated := match noise with Some s => feq s f0 | None => false end in
  Ok (fopp (logp64 n (if concentrated then np_log sigma2 else sigma2) L)).

(** 265-302 [_update_kernel_matrix] *)
Definition update64 (o : gp64) : gp64 * result unit :=
  step o (get64 (g_data o)) (fun d =>
  step o (get64 (g_opt o)) (fun h =>
  let n := length (d_x d) in
  let y_std := std64 np_sum (d_y d) in
  let Y := column (d_scaled_y d) in
  let o1 := put_param64 o (params64 (theta64 h)) in
  let noise := match g_noise o with None => fmul (sigma64 h) y_std | Some s => s end in
  let o2 := put_noise64 o1 noise in
  let K := covariance64 np_sum np_dot np_exp (g_param o2) (fdiv noise y_std) (d_scaled_x d) in
  let o3 := put_attr o2 aK n K in
  step o3 (np_cholesky n K) (fun L =>
  let o4 := put_attr o3 aL n L in
  let f := regr64 (d_scaled_x d) in
  let o5 := put_attr o4 af n f in
  step o5 (solve2 n 1 L Y) (fun alpha =>
  let o6 := put_attr o5 aalpha n alpha in
  step o6 (solve2 n p L f) (fun KF =>
  step o6 (np_cholesky p (dot64 n (transpose f) KF)) (fun ld =>
  let o7 := put_attr o6 ald p ld in
  step o7 (solve2 p 1 ld (dot64 n (transpose f) alpha)) (fun beta =>
  let o8 := put_attr o7 abeta p beta in
  step o8 (solve2 n 1 L (minus Y (dot64 p f beta))) (fun gamma =>
  let o9 := put_attr o8 agamma n gamma in
  let sigma2 := sigma2_64 n Y f beta gamma in
  let o10 := put_attr o9 asigma2 1%nat (fun _ _ => sigma2) in
  (put_attr o10 alogp 1%nat (fun _ _ => logp64 n sigma2 L), Ok tt))))))))).

(** 17-64 [__init__] with kernel=None *)
Definition new64 (noise_prior : option b64) (optimizer_restart : nat) : gp64 :=
  Gp64 noise_prior optimizer_restart (params64 (map (fun _ => f0) bounds)) None None (fun _ => None).
(** 81-87 *)
Definition dataset64 (X : mat) (Y : list b64) : data64 :=
  Data64 X (map (normalize64 bounds) X) Y (normalize_output64 np_sum Y).
(** 66-95 [train], with the object it leaves.  [X] has as many rows as [Y]; the training time is not modelled. *)
Definition train64 (o : gp64) (X : mat) (Y : list b64) (s : search64) : gp64 * result unit :=
  let d := dataset64 X Y in
  let o1 := put_data64 o d in
  step o1 (hyper_search64 (g_restart o) (loglik64 (g_noise o) d) s) (fun h => update64 (put_opt64 o1 h)).

(** 116-123: the means at the rows of [X] *)
Definition predict64 (o : gp64) (X : mat) : result (list b64) :=
  d <- get64 (g_data o) ;;
  let n := length (d_x d) in
  let new := map (normalize64 bounds) X in
  let knew := kernel64 np_sum np_dot np_exp (g_param o) (d_scaled_x d) new in
  let f := regr64 new in
  beta <- get_rows (g_attr o abeta) p ;;
  gamma <- get_rows (g_attr o agamma) n ;;
  Ok (map (fun j => restored64 np_sum (d_y d) (fadd (dot64 p f beta j 0%nat) (dot64 n (transpose knew) gamma j 0%nat))) (seq 0 (length X))).
(** 116-142 with return_std=True: the means and the standard deviations *)
Definition predict_std64 (o : gp64) (X : mat) : result (list b64 * list b64) :=
  fmean <- predict64 o X ;;
  d <- get64 (g_data o) ;;
  let n := length (d_x d) in
  let m := length X in
  let y_std := std64 np_sum (d_y d) in
  let new := map (normalize64 bounds) X in
  let knew := kernel64 np_sum np_dot np_exp (g_param o) (d_scaled_x d) new in
  let f := regr64 new in
  L <- get_rows (g_attr o aL) n ;;
  delta <- solve2 n m L knew ;;
  f_train <- get_rows (g_attr o af) n ;;
  ld <- get_rows (g_attr o ald) p ;;
  sigma2 <- get_rows (g_attr o asigma2) 1%nat ;;
  let R := minus (transpose f) (dot64 n (transpose f_train) delta) in
  S <- solve2 p m ld R ;;
  match g_noise o with
  | None => Raise TypeError
  | Some noise =>
      Ok (fmean, map (fun j =>
        let mse := fmul (sigma2 0%nat 0%nat) (fadd (fsub f1 (dot64 n (transpose knew) delta j j)) (dot64 p (transpose R) S j j)) in
        fsqrt (fmaximum (fadd (fmul mse (fmul y_std y_std)) (fmul noise noise)) f0)) (seq 0 m))
  end.
End Train.
