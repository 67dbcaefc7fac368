(** Model of the acquisition functions (sf_uncons_acqusitions.py, sf_cons_acqusitions.py and
    mf_acqusitions.py) in exact real arithmetic: what the [eval] methods return for a batch of points.
    The [query] methods are in BO.v. *)
From Coq Require Import Reals.
From Verif Require Import Fl Normal.
From mathcomp Require Import all_ssreflect all_algebra.
From Verif Require Import RStruct LinAlg Kernel Krig GP MF.
Set Implicit Arguments.
Unset Strict Implicit.
Unset Printing Implicit Defensive.
Import GRing.Theory.
Local Open Scope ring_scope.

(** the constants 1e-9, 1e-8 and [np.finfo(float).eps] (the first two as decimal numbers) *)
Definition offset9 : R := Rinv (pow 10 9).
Definition offset8 : R := Rinv (pow 10 8).
Definition float_eps : R := Rinv (pow 2 52).

(** [predict(x, return_std=True)] of some surrogate: means and standard deviations of a batch *)
Definition predictor d := forall m, 'M[R]_(m, d) -> result ('cV[R]_m * 'cV[R]_m).
(** [np.min] of a column; [np.argmin] gives the first position *)
Definition first_min n (u : 'cV[R]_n) : option 'I_n :=
  foldl (fun b i => match b with None => Some i | Some k => if Rlt_dec (u i 0) (u k 0) then Some i else Some k end) None (enum 'I_n).
Definition col_min n (u : 'cV[R]_n) : result R :=
  match first_min u with Some i => Ok (u i 0) | None => Raise ValueError end.

(** ** sf_uncons_acqusitions.py *)

(** 93-119 [LCB.eval] *)
Definition lcb_eval d m (predict : predictor d) (kappa0 kappa1 : R) (x : 'M[R]_(m, d)) : result 'cV[R]_m :=
  bind (predict m x) (fun p =>
  Ok (\col_j Rminus (Rmult kappa0 (p.1 j 0)) (Rmult kappa1 (p.2 j 0)))).
(** the expression of 152-154, also in sf_cons_acqusitions.py 122-124 and, with the other offset,
    mf_acqusitions.py 288-289 *)
Definition improvement (offset fmin y_hat sigma : R) : R :=
  let z := Rdiv (Rminus fmin y_hat) (Rplus sigma offset) in
  Rplus (Rmult (Rminus fmin y_hat) (norm_cdf z)) (Rmult sigma (norm_pdf z)).
(** 131-156 [EI.eval]; [y] is the attribute sample_y, the responses of the last training *)
Definition ei_eval d n m (predict : predictor d) (y : 'cV[R]_n) (x : 'M[R]_(m, d)) : result 'cV[R]_m :=
  bind (col_min y) (fun fmin =>
  bind (predict m x) (fun p =>
  Ok (\col_j Ropp (improvement offset9 fmin (p.1 j 0) (p.2 j 0))))).
(** 174-198 [PI.eval] *)
Definition pi_eval d n m (predict : predictor d) (y : 'cV[R]_n) (x : 'M[R]_(m, d)) : result 'cV[R]_m :=
  bind (col_min y) (fun fmin =>
  bind (predict m x) (fun p =>
  Ok (\col_j Ropp (norm_cdf (Rdiv (Rminus fmin (p.1 j 0)) (Rplus (p.2 j 0) offset9)))))).

(** ** sf_cons_acqusitions.py *)

(** 115-125 [CEI.ei] *)
Definition cei_ei d n m (predict : predictor d) (y : 'cV[R]_n) (x : 'M[R]_(m, d)) : result 'cV[R]_m :=
  bind (col_min y) (fun fmin =>
  bind (predict m x) (fun p =>
  Ok (\col_j improvement offset9 fmin (p.1 j 0) (p.2 j 0)))).
(** 127-139 [CEI.pof].  [u_g[:, ii], mse_g[:, ii] = ...] assigns arrays of shape (m, 1) to slots of shape
    (m,), which NumPy only accepts for m = 1. *)
Fixpoint cei_pof d m (cons_surrogates : seq (predictor d)) (x : 'M[R]_(m, d)) : result 'cV[R]_m :=
  if cons_surrogates is predict :: rest then
    bind (predict m x) (fun p =>
    if m == 1%N then
      bind (cei_pof rest x) (fun q =>
      Ok (\col_j Rmult (norm_cdf (Rminus 0 (Rdiv (p.1 j 0) (Rplus (p.2 j 0) offset9)))) (q j 0)))
    else Raise ValueError)
  else Ok (const_mx 1).
(** 86-113 [CEI.eval]: an array of shape (m, 1) times one of shape (m,) is one of shape (m, m) *)
Definition cei_eval d n m (obj : predictor d) (y : 'cV[R]_n) (cons_surrogates : seq (predictor d)) (x : 'M[R]_(m, d)) : result 'M[R]_m :=
  bind (cei_ei obj y x) (fun ei =>
  bind (cei_pof cons_surrogates x) (fun pof =>
  Ok (\matrix_(i, j) Rmult (Ropp (ei i 0)) (pof j 0)))).

(** ** mf_acqusitions.py *)

(** What the acquisitions use of a multi-fidelity surrogate. *)
Record surrogate d := Surrogate {
  su_predict : forall m, 'M[R]_(m, d) -> result 'cV[R]_m;     (* predict(x) *)
  su_predict_std : predictor d;                               (* predict(x, return_std=True) *)
  su_predict_lf_std : predictor d;                            (* predict_lf(x, return_std=True) *)
  su_nh : nat; su_nl : nat;
  su_Xh : 'M[R]_(su_nh, d);                                   (* _get_sample_hf *)
  su_Xl : 'M[R]_(su_nl, d);                                   (* _get_sample_lf *)
  su_corr : forall n m, 'M[R]_(n, d) -> 'M[R]_(m, d) -> nat -> option 'M[R]_(n, m);   (* _eval_corr *)
  su_hierarchical : bool;                                     (* isinstance(_, HierarchicalKriging) *)
  su_beta : result R }.                                       (* the attribute beta, of shape (1, 1) *)
(** a hierarchical Kriging object whose last training got the samples [Xh] and [Xl] *)
Definition hk_surrogate d nh nl (lo hi : 'rV[R]_d) (o : hk d) (Xh : 'M[R]_(nh, d)) (Xl : 'M[R]_(nl, d)) : surrogate d :=
  Surrogate (fun m => @hk_predict d lo hi m o) (fun m => @hk_predict_std d lo hi m o)
            (fun m => @gp_predict_std d 1 (@Ordinary d) lo hi m (hk_lf o)) Xh Xl
            (fun n m => @eval_corr d lo hi n m (hk_kernel o) (hk_lf o)) true
            (if hk_model o is Some t then Ok (kr_beta (hk_krig t) 0 0) else Raise AttributeError).
(** a scaled Kriging object *)
Definition sk_surrogate d nh nl (lo hi : 'rV[R]_d) (o : sk d) (Xh : 'M[R]_(nh, d)) (Xl : 'M[R]_(nl, d)) : surrogate d :=
  Surrogate (fun m => @sk_predict d lo hi m o) (fun m => @sk_predict_std d lo hi m o)
            (fun m => @gp_predict_std d 1 (@Ordinary d) lo hi m (sk_lf o)) Xh Xl
            (fun n m => @eval_corr d lo hi n m (sk_kernel o) (sk_lf o)) false (Raise AttributeError).

(** 368-405 [VFLCB.eval]; a fidelity other than 0 and 1 leaves [std] unbound (the ValueError is built but
    not raised) *)
Definition vflcb_eval d m (s : surrogate d) (kappa0 kappa1 cost_ratio : R) (fidelity : nat) (x : 'M[R]_(m, d)) : result 'cV[R]_m :=
  bind (su_predict_std s x) (fun h =>
  bind (su_predict_lf_std s x) (fun l =>
  bind (match fidelity with
        | 0%N => Ok h.2
        | 1%N => Ok (\col_j Rmult (l.2 j 0) cost_ratio)
        | _ => Raise UnboundLocalError
        end) (fun std =>
  Ok (\col_j Rminus (Rmult kappa0 (h.1 j 0)) (Rmult kappa1 (std j 0)))))).

(** 247-291 [VFEI.eval] *)
Definition vfei_eval d m (s : surrogate d) (fmin : R) (fidelity : nat) (x : 'M[R]_(m, d)) : result 'cV[R]_m :=
  if su_hierarchical s then
    bind (su_predict_std s x) (fun h =>
    bind (match fidelity with
          | 0%N => Ok h.2
          | 1%N => bind (su_predict_lf_std s x) (fun l => bind (su_beta s) (fun beta => Ok (\col_j Rmult beta (l.2 j 0))))
          | _ => Raise UnboundLocalError
          end) (fun sd =>
    Ok (\col_j Ropp (if Rlt_dec (sd j 0) float_eps then 0 else improvement offset8 fmin (h.1 j 0) (h.2 j 0)))))
  else Raise ValueError.

(** 179-200 [AugmentedEI._effective_best] *)
Definition effective_best d (s : surrogate d) : result 'rV[R]_d :=
  let x := col_mx (su_Xh s) (su_Xl s) in
  bind (su_predict_std s x) (fun p =>
  match first_min (\col_j Rplus (p.1 j 0) (Rmult 1 (p.2 j 0))) with
  | Some i => Ok (row i x)
  | None => Raise ValueError
  end).
(** 202-228 [corr], also 585-611 in ExtendedPI.  [None] is NaN or infinity (a zero denominator); another
    fidelity gives the value None of the language, and the product with it is a TypeError. *)
Definition mf_corr d m (s : surrogate d) (fidelity : nat) (x : 'M[R]_(m, d)) : result ('I_m -> option R) :=
  match fidelity with
  | 0%N => Ok (fun _ => Some 1)
  | 1%N =>
      bind (su_predict_std s x) (fun h =>
      bind (su_predict_lf_std s x) (fun l =>
      Ok (fun j =>
        let den := Rplus (Rabs (Rminus (h.1 j 0) (l.1 j 0))) (h.2 j 0) in
        if Req_EM_T den 0 then None else Some (Rdiv (l.2 j 0) den))))
  | _ => Raise TypeError
  end.
(** 85-129 [AugmentedEI.eval].  Where std is below eps the value is set to 0 before the products, which
    leaves NaN if the correlation is not a number. *)
Definition aei_eval d m (s : surrogate d) (cost_ratio : R) (fidelity : nat) (x : 'M[R]_(m, d)) : result ('I_m -> option R) :=
  bind (su_predict_std s x) (fun p =>
  bind (effective_best s) (fun xb =>
  bind (su_predict s xb) (fun fm =>
  bind (mf_corr s fidelity x) (fun alpha1 =>
  let alpha3 := if fidelity is 0%N then 1 else cost_ratio in
  let aei j := if Rlt_dec (p.2 j 0) float_eps then 0 else improvement 0 (fm 0 0) (p.1 j 0) (p.2 j 0) in
  Ok (fun j => omap (fun a => Ropp (Rmult (Rmult (aei j) a) alpha3)) (alpha1 j)))))).

(** 519-526: [np.prod] of the correlations with all samples of the fidelity *)
Definition crowding d m (s : surrogate d) (fidelity : nat) (x : 'M[R]_(m, d)) : result 'cV[R]_m :=
  let row_prod n (c : option 'M[R]_(m, n)) :=
    match c with Some c => Ok (\col_j \prod_k c j k) | None => Raise TypeError end in
  match fidelity with
  | 0%N => row_prod _ (su_corr s x (su_Xh s) 0)
  | 1%N => row_prod _ (su_corr s x (su_Xl s) 1)
  | _ => Raise UnboundLocalError
  end.
(** 485-527 [ExtendedPI.eval]: shapes (m, 1) and (m,) multiply to (m, m) *)
Definition epi_eval d m (s : surrogate d) (fmin cost_ratio : R) (fidelity : nat) (x : 'M[R]_(m, d)) : result ('I_m -> 'I_m -> option R) :=
  bind (su_predict_std s x) (fun p =>
  let pi j := if Rlt_dec (p.2 j 0) float_eps then 0 else norm_cdf (Rdiv (Rminus fmin (p.1 j 0)) (p.2 j 0)) in
  bind (mf_corr s fidelity x) (fun corr =>
  bind (crowding s fidelity x) (fun eta =>
  let cr := if fidelity is 0%N then 1 else cost_ratio in
  Ok (fun i j => omap (fun c => Rmult (Rmult (Rmult (Ropp (pi i)) c) cr) (eta j 0)) (corr i))))).
