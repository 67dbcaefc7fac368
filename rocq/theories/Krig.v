(** Model of the Kriging computations that models/ repeats in every class: the fit (beta, gamma,
    sigma2) and the prediction with its mean squared error.  Exact real arithmetic. *)
From Coq Require Import Reals.
From Verif Require Import Fl.
From mathcomp Require Import all_ssreflect all_algebra.
From Verif Require Import RStruct LinAlg.
Set Implicit Arguments.
Unset Strict Implicit.
Unset Printing Implicit Defensive.
Import GRing.Theory.
Local Open Scope ring_scope.

(** The attributes L, f (F in hierarchical_kriging.py), ld, beta, gamma, sigma2. *)
Record krig n p := Krig {
  kr_L : 'M[R]_n;
  kr_F : 'M[R]_(n, p);
  kr_ld : 'M[R]_p;
  kr_beta : 'cV[R]_p;
  kr_gamma : 'cV[R]_n;
  kr_sigma2 : R }.

(** gaussian_process.py 280-298 (and 236-253), hierarchical_kriging.py 237-256 (and 199-216),
    co_kriging.py 175-196 (and 126-143): from the Cholesky factorisation of K to sigma2.  The quotient
    is a 1x1 array in the code, a number here. *)
Definition krig_fit n p (K : 'M[R]_n) (F : 'M[R]_(n, p)) (Y : 'cV[R]_n) : result (krig n p) :=
  bind (chol K) (fun L =>
  bind (chol_solve L Y) (fun alpha =>
  bind (chol_solve L F) (fun KF =>
  bind (chol (F^T *m KF)) (fun ld =>
  bind (chol_solve ld (F^T *m alpha)) (fun beta =>
  bind (chol_solve L (Y - F *m beta)) (fun gamma =>
  Ok (Krig L F ld beta gamma (Rdiv (((Y - F *m beta)^T *m gamma) 0 0) (INR n))))))))).

(** [np.sum(np.log(np.diag(L)))] *)
Definition sum_log_diag n (L : 'M[R]_n) : R := \sum_i ln (L i i).

(** gaussian_process.py 123, hierarchical_kriging.py 90, co_kriging.py 225: the mean, not scaled back *)
Definition krig_mean n p m (k : krig n p) (f : 'M[R]_(m, p)) (knew : 'M[R]_(n, m)) : 'cV[R]_m :=
  f *m kr_beta k + knew^T *m kr_gamma k.
(** gaussian_process.py 129-134, hierarchical_kriging.py 96-102, co_kriging.py 230-236: the column of
    mean squared errors *)
Definition krig_mse n p m (k : krig n p) (f : 'M[R]_(m, p)) (knew : 'M[R]_(n, m)) : result 'cV[R]_m :=
  bind (chol_solve (kr_L k) knew) (fun delta =>
  let Rm := f^T - (kr_F k)^T *m delta in
  bind (chol_solve (kr_ld k) Rm) (fun S =>
  Ok (\col_j Rmult (kr_sigma2 k) (Rplus (Rminus 1 ((knew^T *m delta) j j)) ((Rm^T *m S) j j))))).
