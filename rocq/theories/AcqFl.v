(** The acquisition functions (sf_uncons_acqusitions.py, sf_cons_acqusitions.py, mf_acqusitions.py) in binary64: what the
    [eval] methods return for a batch of points, NaN and infinities included.  [scipy.stats.norm.cdf], [norm.pdf] and
    [np.prod] are arguments; AcqFlSpec.v says what is assumed about them. *)
From Coq Require Import ZArith Bool List.
From Verif Require Import Fl NpList KernelFl.
Import ListNotations.

(** the literals 1e-9 and 1e-8 and [np.finfo(float).eps] *)
Definition nano64 : b64 := fdiv f1 (fz (10 ^ 9)).
Definition ten_nano64 : b64 := fdiv f1 (fz (10 ^ 8)).
Definition eps64 : b64 := fbin 1 (-52).

(** [predict(x, return_std=True)] of some surrogate: one mean and one standard deviation per point *)
Definition predictor64 := mat -> result (list b64 * list b64).
(** What the multi-fidelity acquisitions use of a surrogate, as in Acq.v. *)
Record surrogate64 := Surrogate64 {
  u_predict : mat -> result (list b64);
  u_predict_std : predictor64;
  u_predict_lf_std : predictor64;
  u_xh : mat;                                           (* _get_sample_hf *)
  u_xl : mat;                                           (* _get_sample_lf *)
  u_corr : mat -> mat -> nat -> option (list (list b64)); (* _eval_corr, one list per point *)
  u_hierarchical : bool;
  u_beta : result b64 }.

Section Acquisitions.
Variables (norm_cdf norm_pdf : b64 -> b64) (np_prod : list b64 -> b64).

(** ** sf_uncons_acqusitions.py *)

(** 93-119 [LCB.eval] *)
Definition lcb_eval64 (predict : predictor64) (kappa0 kappa1 : b64) (x : mat) : result (list b64) :=
  p <- predict x ;; Ok (map2 (fun y s => fsub (fmul kappa0 y) (fmul kappa1 s)) (fst p) (snd p)).
(** 152-154, sf_cons_acqusitions.py 122-124, mf_acqusitions.py 124-125 and 288-289; they divide by different [den] *)
Definition improvement64 (fmin y_hat sigma den : b64) : b64 :=
  let u := fsub fmin y_hat in
  let z := fdiv u den in
  fadd (fmul u (norm_cdf z)) (fmul sigma (norm_pdf z)).
(** 131-156 [EI.eval]; [y] is the attribute sample_y *)
Definition ei_eval64 (predict : predictor64) (y : list b64) (x : mat) : result (list b64) :=
  fmin <- np_min y ;;
  p <- predict x ;;
  Ok (map2 (fun m s => fopp (improvement64 fmin m s (fadd s nano64))) (fst p) (snd p)).
(** 174-198 [PI.eval] *)
Definition pi_eval64 (predict : predictor64) (y : list b64) (x : mat) : result (list b64) :=
  fmin <- np_min y ;;
  p <- predict x ;;
  Ok (map2 (fun m s => fopp (norm_cdf (fdiv (fsub fmin m) (fadd s nano64)))) (fst p) (snd p)).

(** ** sf_cons_acqusitions.py *)

(** 115-125 [CEI.ei] *)
Definition cei_ei64 (predict : predictor64) (y : list b64) (x : mat) : result (list b64) :=
  fmin <- np_min y ;;
  p <- predict x ;;
  Ok (map2 (fun m s => improvement64 fmin m s (fadd s nano64)) (fst p) (snd p)).
(** 127-138 [CEI.pof] before the product, for one point: u_g and mse_g have one row *)
Fixpoint pof_terms64 (cons_surrogates : list predictor64) (x : mat) : result (list b64) :=
  match cons_surrogates with
  | [] => Ok []
  | predict :: rest =>
      p <- predict x ;;
      match fst p, snd p with
      | [u], [s] => q <- pof_terms64 rest x ;; Ok (norm_cdf (fsub f0 (fdiv u (fadd s nano64))) :: q)
      | _, _ => Raise ValueError
      end
  end.
(** 86-113 [CEI.eval] for one point (C88: more points are an error) *)
Definition cei_eval64 (obj : predictor64) (y : list b64) (cons_surrogates : list predictor64) (x : mat) : result b64 :=
  ei <- cei_ei64 obj y x ;;
  pof <- pof_terms64 cons_surrogates x ;;
  match ei with [v] => Ok (fmul (fopp v) (np_prod pof)) | _ => Raise ValueError end.

(** ** mf_acqusitions.py *)

(** 368-405 [VFLCB.eval] *)
Definition vflcb_eval64 (s : surrogate64) (kappa0 kappa1 cost_ratio : b64) (fidelity : nat) (x : mat) : result (list b64) :=
  h <- u_predict_std s x ;;
  l <- u_predict_lf_std s x ;;
  std <- (match fidelity with
          | 0 => Ok (snd h)
          | 1 => Ok (map (fun v => fmul v cost_ratio) (snd l))
          | _ => Raise UnboundLocalError
          end) ;;
  Ok (map2 (fun y v => fsub (fmul kappa0 y) (fmul kappa1 v)) (fst h) std).
(** 247-291 [VFEI.eval] *)
Definition vfei_eval64 (s : surrogate64) (fmin : b64) (fidelity : nat) (x : mat) : result (list b64) :=
  if u_hierarchical s then
    h <- u_predict_std s x ;;
    sd <- (match fidelity with
           | 0 => Ok (snd h)
           | 1 => l <- u_predict_lf_std s x ;; beta <- u_beta s ;; Ok (map (fun v => fmul beta v) (snd l))
           | _ => Raise UnboundLocalError
           end) ;;
    Ok (map2 (fun v s => fopp (if flt s eps64 then f0 else v))
             (map2 (fun m s => improvement64 fmin m s (fadd s ten_nano64)) (fst h) (snd h)) sd)
  else Raise ValueError.
(** 179-200 [AugmentedEI._effective_best] *)
Definition effective_best64 (s : surrogate64) : result row :=
  let x := u_xh s ++ u_xl s in
  p <- u_predict_std s x ;;
  i <- np_argmin (map2 (fun m v => fadd m (fmul f1 v)) (fst p) (snd p)) ;;
  Ok (nth i x []).
(** 202-228 [AugmentedEI.corr] and 585-611 [ExtendedPI.corr]; with another fidelity the caller multiplies by None *)
Definition mf_corr64 (s : surrogate64) (fidelity : nat) (x : mat) : result (list b64) :=
  match fidelity with
  | 0 => Ok (map (fun _ => f1) x)
  | 1 =>
      h <- u_predict_std s x ;;
      l <- u_predict_lf_std s x ;;
      Ok (map2 (fun sl d => fdiv sl d) (snd l) (map2 fadd (map2 (fun a b => fabs (fsub a b)) (fst h) (fst l)) (snd h)))
  | _ => Raise TypeError
  end.
(** 85-129 [AugmentedEI.eval] *)
Definition aei_eval64 (s : surrogate64) (cost_ratio : b64) (fidelity : nat) (x : mat) : result (list b64) :=
  p <- u_predict_std s x ;;
  xb <- effective_best64 s ;;
  fm <- u_predict s [xb] ;;
  alpha1 <- mf_corr64 s fidelity x ;;
  let alpha3 := match fidelity with 0 => f1 | _ => cost_ratio end in
  Ok (map2 (fun v a => fopp (fmul (fmul v a) alpha3))
           (map2 (fun m v => if flt v eps64 then f0 else improvement64 (nth 0 fm fnan) m v v) (fst p) (snd p)) alpha1).
(** 519-526: [np.prod] of the correlations with the samples of the fidelity *)
Definition crowding64 (s : surrogate64) (fidelity : nat) (x : mat) : result (list b64) :=
  let products c := match c with Some c => Ok (map np_prod c) | None => Raise TypeError end in
  match fidelity with
  | 0 => products (u_corr s x (u_xh s) 0)
  | 1 => products (u_corr s x (u_xl s) 1)
  | _ => Raise UnboundLocalError
  end.
(** 485-527 [ExtendedPI.eval]: shapes (m, 1) and (m,) multiply to (m, m) *)
Definition epi_eval64 (s : surrogate64) (fmin cost_ratio : b64) (fidelity : nat) (x : mat) : result (list (list b64)) :=
  p <- u_predict_std s x ;;
  let pi := map2 (fun m v => if flt v eps64 then f0 else norm_cdf (fdiv (fsub fmin m) v)) (fst p) (snd p) in
  corr <- mf_corr64 s fidelity x ;;
  eta <- crowding64 s fidelity x ;;
  let cr := match fidelity with 0 => f1 | _ => cost_ratio end in
  Ok (map2 (fun q c => map (fun e => fmul (fmul (fmul (fopp q) c) cr) e) eta) pi corr).
End Acquisitions.
