(** Training and prediction of models/co_kriging.py in binary64, attribute by attribute, for responses of every kind.
    The conventions and the arguments for NumPy's functions are those of TrainFl.v. *)
From Coq Require Import ZArith Bool List.
From Verif Require Import Fl NpList KernelFl OutputFl TrainFl.
Import ListNotations.

(** 370-379, 711-712: what [train] sets before the noise.  None of these assignments raises. *)
Record ckdata64 := CkData64 {
  k_xh : mat; k_xh_scaled : mat; k_yh_scaled : list b64; k_xl_scaled : mat; k_yl_scaled : list b64;
  k_mean : b64 (* yh_mean *); k_std : b64 (* yh_std *) }.
(** one row of hyper-parameters: rho, the noise ratio (used if the noise is learned) and log10 of the kernel parameters *)
Record ckhyper64 := CkHyper64 { k_rho : b64; k_sigma : b64; k_theta : row }.
(** attributes set from 394 on *)
Inductive ckname := cpred | cK | cdiff | cmu_d | csigma2 | clogp | cC | cy | cLC | cmu.
Definition ckname_eqb (a b : ckname) : bool :=
  match a, b with
  | cpred, cpred | cK, cK | cdiff, cdiff | cmu_d, cmu_d | csigma2, csigma2 | clogp, clogp | cC, cC | cy, cy | cLC, cLC | cmu, cmu => true
  | _, _ => false
  end.
(** The object.  [None] stands for an attribute that does not exist yet, except for noise. *)
Record ck64 := Ck64 {
  c_noise : option b64;            (* noise; None until learned *)
  c_restart : nat;                 (* optimizer_restart *)
  c_param : row;                   (* kernel.param *)
  c_lf : gp64;                     (* lfGP *)
  c_data : option ckdata64;
  c_opt : option ckhyper64;        (* opt_param *)
  c_rho : option b64;              (* rho *)
  c_attr : ckname -> option arr }.
Definition put_cnoise (o : ck64) (v : b64) : ck64 := Ck64 (Some v) (c_restart o) (c_param o) (c_lf o) (c_data o) (c_opt o) (c_rho o) (c_attr o).
Definition put_cparam (o : ck64) (v : row) : ck64 := Ck64 (c_noise o) (c_restart o) v (c_lf o) (c_data o) (c_opt o) (c_rho o) (c_attr o).
Definition put_clf (o : ck64) (v : gp64) : ck64 := Ck64 (c_noise o) (c_restart o) (c_param o) v (c_data o) (c_opt o) (c_rho o) (c_attr o).
Definition put_cdata (o : ck64) (v : ckdata64) : ck64 := Ck64 (c_noise o) (c_restart o) (c_param o) (c_lf o) (Some v) (c_opt o) (c_rho o) (c_attr o).
Definition put_copt (o : ck64) (v : ckhyper64) : ck64 := Ck64 (c_noise o) (c_restart o) (c_param o) (c_lf o) (c_data o) (Some v) (c_rho o) (c_attr o).
Definition put_crho (o : ck64) (v : b64) : ck64 := Ck64 (c_noise o) (c_restart o) (c_param o) (c_lf o) (c_data o) (c_opt o) (Some v) (c_attr o).
Definition put_cattr (o : ck64) (a : ckname) (n : nat) (v : array) : ck64 :=
  Ck64 (c_noise o) (c_restart o) (c_param o) (c_lf o) (c_data o) (c_opt o) (c_rho o) (fun b => if ckname_eqb a b then Some (Arr n v) else c_attr o b).

(** the searches of [CoKriging], as in TrainFl.v *)
Record cktrial64 := CkTrial64 { ct_queries : list ckhyper64; ct_x : ckhyper64; ct_fun : b64 }.
Inductive cksearch64 := CkLbfgs64 (trials : nat -> cktrial64) | CkEvolution64 (queries : list ckhyper64) (best_x : ckhyper64).
Fixpoint ck_queries64 (f : ckhyper64 -> result b64) (qs : list ckhyper64) : result unit :=
  match qs with [] => Ok tt | q :: qs' => _ <- f q ;; ck_queries64 f qs' end.
(** 526-539, 548 *)
Fixpoint ck_multistart64 (best : option ckhyper64) (value : b64) (ts : list cktrial64) : result ckhyper64 :=
  match ts with
  | [] => match best with Some x => Ok x | None => Raise UnboundLocalError end
  | t :: ts' => if flt (ct_fun t) value then ck_multistart64 (Some (ct_x t)) (ct_fun t) ts' else ck_multistart64 best value ts'
  end.
(** 491-548 [_optHyp] *)
Definition ck_search64 (restart : nat) (objective : ckhyper64 -> result b64) (s : cksearch64) : result ckhyper64 :=
  match s with
  | CkLbfgs64 oracle =>
      let trials := map oracle (seq 0 (S restart)) in
      _ <- ck_queries64 objective (flat_map ct_queries trials) ;; ck_multistart64 None finf trials
  | CkEvolution64 queries best_x => _ <- ck_queries64 objective queries ;; Ok best_x
  end.
(** go on with a value, or stop with the object as it is *)
Definition cstep {A} (o : ck64) (r : result A) (k : A -> ck64 * result unit) : ck64 * result unit :=
  match r with Ok a => k a | Raise e => (o, Raise e) end.

Section Train.
Variables (np_sum : list b64 -> b64) (np_dot : list (b64 * b64) -> b64) (np_exp np_log np_pow10 : b64 -> b64).
Variable np_cholesky : nat -> array -> result array.
Variable np_solve : nat -> nat -> array -> array -> result array.
Variable bounds : box.
(** the default basis of the low-fidelity model (21): a column of ones *)
Definition ones64 : array := fun _ _ => f1.
Definition ordinary64 (x : row) : row := [f1].

(** ** the low-fidelity model [_GP] *)
(** 104-163 [_logLikelihood], one row of params.  The noise is not divided here. *)
Definition lf_loglik64 (noise : option b64) (d : data64) (h : hyper64) : result b64 :=
  let n := length (d_x d) in
  let noise_sigma := match noise with Some s => s | None => sigma64 h end in
  let K := covariance64 np_sum np_dot np_exp (params64 np_pow10 (theta64 h)) noise_sigma (d_scaled_x d) in
  let Y := column (d_scaled_y d) in
  L <- np_cholesky n K ;;
  let f := regr64 ordinary64 (d_scaled_x d) in
  alpha <- solve2 np_solve n 1 L Y ;;
  KF <- solve2 np_solve n 1 L f ;;
  ld <- np_cholesky 1%nat (dot64 np_dot n (transpose f) KF) ;;
  beta <- solve2 np_solve 1 1 ld (dot64 np_dot n (transpose f) alpha) ;;
  gamma <- solve2 np_solve n 1 L (minus Y (dot64 np_dot 1 f beta)) ;;
  let sigma2 := sigma2_64 np_dot 1 n Y f beta gamma in
  let concentrated := match noise with Some s => feq s f0 | None => false end in
  Ok (fopp (logp64 np_sum np_log n (if concentrated then np_log sigma2 else sigma2) L)).
(** 165-200 [_update_kernel_matrix] *)
Definition lf_update64 (o : gp64) : gp64 * result unit :=
  step o (get64 (g_data o)) (fun d =>
  step o (get64 (g_opt o)) (fun h =>
  let n := length (d_x d) in
  let Y := column (d_scaled_y d) in
  let o1 := put_param64 o (params64 np_pow10 (theta64 h)) in
  let noise := match g_noise o with None => sigma64 h | Some s => s end in
  let o2 := put_noise64 o1 noise in
  let K := covariance64 np_sum np_dot np_exp (g_param o2) noise (d_scaled_x d) in
  let o3 := put_attr o2 aK n K in
  step o3 (np_cholesky n K) (fun L =>
  let o4 := put_attr o3 aL n L in
  let f := regr64 ordinary64 (d_scaled_x d) in
  let o5 := put_attr o4 af n f in
  step o5 (solve2 np_solve n 1 L Y) (fun alpha =>
  let o6 := put_attr o5 aalpha n alpha in
  step o6 (solve2 np_solve n 1 L f) (fun KF =>
  step o6 (np_cholesky 1%nat (dot64 np_dot n (transpose f) KF)) (fun ld =>
  let o7 := put_attr o6 ald 1%nat ld in
  step o7 (solve2 np_solve 1 1 ld (dot64 np_dot n (transpose f) alpha)) (fun beta =>
  let o8 := put_attr o7 abeta 1%nat beta in
  step o8 (solve2 np_solve n 1 L (minus Y (dot64 np_dot 1 f beta))) (fun gamma =>
  let o9 := put_attr o8 agamma n gamma in
  let sigma2 := sigma2_64 np_dot 1 n Y f beta gamma in
  let o10 := put_attr o9 asigma2 1%nat (fun _ _ => sigma2) in
  (put_attr o10 alogp 1%nat (fun _ _ => logp64 np_sum np_log n sigma2 L), Ok tt))))))))).
(** 243-268 [train]; the samples are already scaled.  45-102 [_hyper_paras_optimization] is [hyper_search64] of TrainFl.v. *)
Definition lf_train64 (o : gp64) (X : mat) (Y : list b64) (s : search64) : gp64 * result unit :=
  let d := Data64 X X Y Y in
  let o1 := put_data64 o d in
  step o1 (hyper_search64 (g_restart o) (lf_loglik64 (g_noise o) d) s) (fun h => lf_update64 (put_opt64 o1 h)).
(** 220-229 [predict] without std *)
Definition lf_predict64 (o : gp64) (X : mat) : result array :=
  d <- get64 (g_data o) ;;
  let n := length (d_x d) in
  let knew := kernel64 np_sum np_dot np_exp (g_param o) (d_scaled_x d) X in
  let f := regr64 ordinary64 X in
  beta <- get_rows (g_attr o abeta) 1%nat ;;
  gamma <- get_rows (g_attr o agamma) n ;;
  Ok (fun i j => fadd (dot64 np_dot 1 f beta i j) (dot64 np_dot n (transpose knew) gamma i j)).

(** ** the class [CoKriging] *)
(** 575-578, 603-608: the correlation matrix of the high-fidelity samples is [covariance64]; 580, 610: [diff_y] *)
Definition diff64 (d : ckdata64) (rho : b64) (pred : array) : array :=
  fun i j => fsub (column (k_yh_scaled d) i j) (fmul rho (pred i j)).
(** 587, 616: [np.dot(one.T, alpha) / np.dot(one.T, beta)] *)
Definition mu64 (n : nat) (alpha beta : array) : b64 :=
  fdiv (dot64 np_dot n ones64 alpha 0%nat 0%nat) (dot64 np_dot n ones64 beta 0%nat 0%nat).
(** 588, 617: [diff_y - mu] *)
Definition less64 (A : array) (v : b64) : array := fun i j => fsub (A i j) v.
(** 589, 618-619 *)
Definition cksigma2_64 (n : nat) (diff : array) (mu : b64) (gamma : array) : b64 :=
  fdiv (dot64 np_dot n (transpose (less64 diff mu)) gamma 0%nat 0%nat) (fz (Z.of_nat n)).
(** 550-598 [_logLikelihood], one row of params *)
Definition ck_loglik64 (noise : option b64) (d : ckdata64) (pred : array) (h : ckhyper64) : result b64 :=
  let n := length (k_xh d) in
  let noise_sigma := match noise with Some s => fdiv s (k_std d) | None => k_sigma h end in
  let K := covariance64 np_sum np_dot np_exp (params64 np_pow10 (k_theta h)) noise_sigma (k_xh_scaled d) in
  L <- np_cholesky n K ;;
  let diff := diff64 d (k_rho h) pred in
  alpha <- solve2 np_solve n 1 L diff ;;
  beta <- solve2 np_solve n 1 L ones64 ;;
  let mu := mu64 n alpha beta in
  gamma <- solve2 np_solve n 1 L (less64 diff mu) ;;
  let sigma2 := cksigma2_64 n diff mu gamma in
  let concentrated := match noise with Some s => feq s f0 | None => false end in
  Ok (fopp (logp64 np_sum np_log n (if concentrated then np_log sigma2 else sigma2) L)).
(** 623-650: entry ([i], [j]) of [C].  [s2], [Kl] and [kl]: sigma2, K and kernel.get_kernel_matrix of the low-fidelity model *)
Definition bigC (nl : nat) (d : ckdata64) (rho s2 sigma2 : b64) (Kl K : array) (kl : mat -> mat -> array) : array := fun i j =>
  match Nat.ltb i nl, Nat.ltb j nl with
  | true, true => fmul s2 (Kl i j)
  | true, false => fmul (fmul rho s2) (kl (k_xl_scaled d) (k_xh_scaled d) i (j - nl)%nat)
  | false, true => fmul (fmul rho s2) (kl (k_xh_scaled d) (k_xl_scaled d) (i - nl)%nat j)
  | false, false => fadd (fmul (fmul (fmul rho rho) s2) (kl (k_xh_scaled d) (k_xh_scaled d) (i - nl)%nat (j - nl)%nat)) (fmul sigma2 (K (i - nl)%nat (j - nl)%nat))
  end.
(** [10**-10] on the diagonal (654-655) *)
Definition jittered (C : array) : array := fun i j => fadd (C i j) (fmul (if Nat.eqb i j then f1 else f0) jitter64).
(** 600-659 [_update_parameters].  [rho**2] is taken to be the correctly rounded product. *)
Definition ck_update64 (o : ck64) : ck64 * result unit :=
  cstep o (get64 (c_data o)) (fun d =>
  cstep o (get64 (c_rho o)) (fun rho =>
  let n := length (k_xh d) in
  let nl := length (k_xl_scaled d) in
  match c_noise o with
  | None => (o, Raise TypeError)
  | Some noise =>
  let K := covariance64 np_sum np_dot np_exp (c_param o) noise (k_xh_scaled d) in
  let o1 := put_cattr o cK n K in
  cstep o1 (np_cholesky n K) (fun L =>
  cstep o1 (get_rows (c_attr o1 cpred) n) (fun pred =>
  let diff := diff64 d rho pred in
  let o2 := put_cattr o1 cdiff n diff in
  cstep o2 (solve2 np_solve n 1 L diff) (fun alpha =>
  cstep o2 (solve2 np_solve n 1 L ones64) (fun beta =>
  let mu_d := mu64 n alpha beta in
  let o3 := put_cattr o2 cmu_d 1%nat (fun _ _ => mu_d) in
  cstep o3 (solve2 np_solve n 1 L (less64 diff mu_d)) (fun gamma =>
  let sigma2 := cksigma2_64 n diff mu_d gamma in
  let o4 := put_cattr o3 csigma2 1%nat (fun _ _ => sigma2) in
  let o5 := put_cattr o4 clogp 1%nat (fun _ _ => logp64 np_sum np_log n (np_log sigma2) L) in
  cstep o5 (get_rows (g_attr (c_lf o5) asigma2) 1%nat) (fun s2 =>
  cstep o5 (get_rows (g_attr (c_lf o5) aK) nl) (fun Kl =>
  let C := bigC nl d rho (s2 0%nat 0%nat) sigma2 Kl K (kernel64 np_sum np_dot np_exp (g_param (c_lf o5))) in
  let o6 := put_cattr o5 cC (nl + n)%nat C in
  let y := column (k_yl_scaled d ++ k_yh_scaled d) in
  let o7 := put_cattr o6 cy (nl + n)%nat y in
  cstep o7 (np_cholesky (nl + n)%nat (jittered C)) (fun LC =>
  let o8 := put_cattr o7 cLC (nl + n)%nat LC in
  cstep o8 (solve2 np_solve (nl + n) 1 LC y) (fun a =>
  cstep o8 (solve2 np_solve (nl + n) 1 LC ones64) (fun b =>
  (put_cattr o8 cmu 1%nat (fun _ _ => mu64 (nl + n) a b), Ok tt)))))))))))
  end)).
(** 308-354 [__init__] *)
Definition ck_new64 (noise_prior : option b64) (optimizer_restart : nat) : ck64 :=
  Ck64 noise_prior optimizer_restart (params64 np_pow10 (map (fun _ => f0) bounds)) (new64 np_pow10 bounds noise_prior optimizer_restart) None None None (fun _ => None).
(** 370-379 *)
Definition ck_dataset64 (Xh : mat) (Yh : list b64) (Xl : mat) (Yl : list b64) : ckdata64 :=
  let m := mean64 np_sum Yh in
  let s := std64 np_sum Yh in
  CkData64 Xh (map (normalize64 bounds) Xh) (normalize_output64 np_sum Yh) (map (normalize64 bounds) Xl)
    (map (fun y => fdiv (fsub y m) s) Yl) m s.
(** 356-410 [train], with the object it leaves.  Inputs have as many rows as their responses; times are not modelled. *)
Definition ck_train64 (o : ck64) (Xh : mat) (Yh : list b64) (Xl : mat) (Yl : list b64) (sl : search64) (s : cksearch64) : ck64 * result unit :=
  let d := ck_dataset64 Xh Yh Xl Yl in
  let o1 := put_cdata o d in
  let o2 := match c_noise o with
            | None => o1
            | Some v => let v' := fdiv v (k_std d) in put_clf (put_cnoise o1 v') (put_noise64 (c_lf o) v')
            end in
  let (lf, r) := lf_train64 (c_lf o2) (k_xl_scaled d) (k_yl_scaled d) sl in
  let o3 := put_clf o2 lf in
  cstep o3 r (fun _ =>
  cstep o3 (lf_predict64 lf (k_xh_scaled d)) (fun pred =>
  let o4 := put_cattr o3 cpred (length Xh) pred in
  cstep o4 (ck_search64 (c_restart o4) (ck_loglik64 (c_noise o4) d pred) s) (fun h =>
  let o5 := put_crho (put_copt o4 h) (k_rho h) in
  let o6 := match c_noise o5 with None => put_cnoise o5 (k_sigma h) | Some _ => o5 end in
  ck_update64 (put_cparam o6 (params64 np_pow10 (k_theta h)))))).

(** 429-443: [c], entry ([i], [j]) *)
Definition crossC (nl : nat) (d : ckdata64) (new : mat) (rho s2 sigma2 : b64) (kl kd : mat -> mat -> array) : array := fun i j =>
  if Nat.ltb i nl then fmul (fmul rho s2) (kl (k_xl_scaled d) new i j)
  else fadd (fmul (fmul (fmul rho rho) s2) (kl (k_xh_scaled d) new (i - nl)%nat j)) (fmul sigma2 (kd (k_xh_scaled d) new (i - nl)%nat j)).
(** 429-462 [predict]: the means, what is needed for the standard deviations, and for return_std=True the deviations.
    The new noise (460) is returned beside them. *)
Definition ck_means64 (o : ck64) (X : mat) : result (list b64 * (array * array * b64)) :=
  d <- get64 (c_data o) ;;
  rho <- get64 (c_rho o) ;;
  let new := map (normalize64 bounds) X in
  let n := length (k_xh d) in
  let nl := length (k_xl_scaled d) in
  s2 <- get_rows (g_attr (c_lf o) asigma2) 1%nat ;;
  sigma2 <- get_rows (c_attr o csigma2) 1%nat ;;
  let c := crossC nl d new rho (s2 0%nat 0%nat) (sigma2 0%nat 0%nat) (kernel64 np_sum np_dot np_exp (g_param (c_lf o))) (kernel64 np_sum np_dot np_exp (c_param o)) in
  LC <- get_rows (c_attr o cLC) (nl + n)%nat ;;
  y <- get_rows (c_attr o cy) (nl + n)%nat ;;
  mu <- get_rows (c_attr o cmu) 1%nat ;;
  w <- solve2 np_solve (nl + n) 1 LC (less64 y (mu 0%nat 0%nat)) ;;
  Ok (map (fun j => fadd (fmul (fadd (mu 0%nat 0%nat) (dot64 np_dot (nl + n) (transpose c) w j 0%nat)) (k_std d)) (k_mean d)) (seq 0 (length X)),
      (c, LC, fadd (fmul (fmul rho rho) (s2 0%nat 0%nat)) (sigma2 0%nat 0%nat))).
Definition ck_predict64 (o : ck64) (X : mat) : result (list b64) := r <- ck_means64 o X ;; Ok (fst r).
Definition ck_predict_std64 (o : ck64) (X : mat) : ck64 * result (list b64 * list b64) :=
  match ck_means64 o X with
  | Raise e => (o, Raise e)
  | Ok (means, (c, LC, v)) =>
      match get64 (c_data o) with
      | Raise e => (o, Raise e)
      | Ok d =>
          let n := length (k_xh d) in
          let nl := length (k_xl_scaled d) in
          match solve2 np_solve (nl + n) (length X) LC c with
          | Raise e => (o, Raise e)
          | Ok W =>
              let epis j := fmul (fsqrt (fmaximum (fsub v (dot64 np_dot (nl + n) (transpose c) W j j)) f0)) (k_std d) in
              match c_noise o with
              | None => (o, Raise TypeError)
              | Some z =>
                  let z' := fmul z (k_std d) in
                  (put_cnoise o z', Ok (means, map (fun j => fsqrt (fadd (fmul (epis j) (epis j)) (fmul z' z'))) (seq 0 (length X))))
              end
          end
      end
  end.
End Train.

(** Histories: the calls of [train] and of [predict] with return_std=True, whose outcomes are ignored.  Predictions without std
    change nothing. *)
Inductive ckcall64 :=
  | CkTrain64 (Xh : mat) (Yh : list b64) (Xl : mat) (Yl : list b64) (sl : search64) (s : cksearch64)
  | CkPredictStd64 (X : mat).
Definition ck_do64 np_sum np_dot np_exp np_log np_pow10 np_cholesky np_solve bounds (o : ck64) (c : ckcall64) : ck64 :=
  match c with
  | CkTrain64 Xh Yh Xl Yl sl s => fst (ck_train64 np_sum np_dot np_exp np_log np_pow10 np_cholesky np_solve bounds o Xh Yh Xl Yl sl s)
  | CkPredictStd64 X => fst (ck_predict_std64 np_sum np_dot np_exp np_solve bounds o X)
  end.
