(** Training and prediction of models/scale_kriging.py in binary64, attribute by attribute, for responses of every kind.
    The low-fidelity model and the discrepancy model are the Gaussian process of TrainFl.v with the default basis (71-88 with
    lfGP=None, disc_model=None).  [np.sum], [np.dot], [np.exp], [np.log], [10 ** t], [numpy.linalg.cholesky] and
    [numpy.linalg.solve] are arguments, as in TrainFl.v.  Line numbers without a file refer to scale_kriging.py. *)
From Coq Require Import ZArith Bool List.
From Verif Require Import Fl NpList KernelFl OutputFl TrainFl CKTrainFl HKTrainFl.
Import ListNotations.

(** The object: lfGP, disc_model, rho and noise (set in 105).  The samples, mu, the kernel attribute and the times are not
    read by training and prediction before they are set, and not kept. *)
Record sk64 := Sk64 { s_lf : gp64; s_disc : gp64; s_rho : b64; s_noise : option b64 }.
(** 144-183 [_rho_optimize].  The search for rho is free: it evaluates its objective at some values and returns one.  The
    objective of "bumpiness" trains disc_model, each time with a search of its own; its values do not matter here. *)
Inductive rho_search64 :=
  | RhoFixed64                                                  (* rho_optimize=False *)
  | RhoError64 (rho : b64)                                      (* rho_method="error": the value returned *)
  | RhoBumpiness64 (queries : list (b64 * search64)) (rho : b64) (* rho_method="bumpiness" *)
  | RhoOther64.                                                 (* any other rho_method *)

(** 142, 223: the discrepancies for low-fidelity predictions [v] *)
Definition disc64 (rho : b64) (Yh v : list b64) : list b64 := map (fun q => fsub (fst q) (fmul rho (snd q))) (combine Yh v).

Section Train.
Variables (np_sum : list b64 -> b64) (np_dot : list (b64 * b64) -> b64) (np_exp np_log np_pow10 : b64 -> b64).
Variable np_cholesky : nat -> array -> result array.
Variable np_solve : nat -> nat -> array -> array -> result array.
Variable bounds : box.
Let gp_train := lf64_train np_sum np_dot np_exp np_log np_pow10 np_cholesky np_solve bounds.
Let gp_predict := lf64_predict np_sum np_dot np_exp bounds.
Let gp_predict_std := predict_std64 np_sum np_dot np_exp np_solve ordinary64 1 bounds.

(** 13-88 [__init__] *)
Definition sk_new64 (noise_prior : option b64) (optimizer_restart : nat) : sk64 :=
  Sk64 (new64 np_pow10 bounds noise_prior optimizer_restart) (new64 np_pow10 bounds noise_prior optimizer_restart) f1 None.
(** 217-227: the trainings of disc_model in one search, up to the first that raises *)
Fixpoint bumps64 (disc : gp64) (X : mat) (Y v : list b64) (qs : list (b64 * search64)) : gp64 * result unit :=
  match qs with
  | [] => (disc, Ok tt)
  | (rho, s) :: qs' =>
      let (disc', r) := gp_train disc X (disc64 rho Y v) s in
      match r with Raise e => (disc', Raise e) | Ok _ => bumps64 disc' X Y v qs' end
  end.
(** 102-103: disc_model afterwards and the value of rho *)
Definition rho64 (disc : gp64) (rho : b64) (X : mat) (Y v : list b64) (s : rho_search64) : gp64 * result b64 :=
  match s with
  | RhoFixed64 => (disc, Ok rho)
  | RhoError64 rho' => (disc, Ok rho')
  | RhoBumpiness64 qs rho' => let (disc', r) := bumps64 disc X Y v qs in (disc', match r with Ok _ => Ok rho' | Raise e => Raise e end)
  | RhoOther64 => (disc, Raise UnboundLocalError)
  end.
(** 90-105 [_train_hf].  The low-fidelity predictions at the samples are the same whenever they are computed. *)
Definition sk_train_hf64 (o : sk64) (Xh : mat) (Yh : list b64) (sr : rho_search64) (sd : search64) : sk64 * result unit :=
  match gp_predict (s_lf o) Xh with
  | Raise e => (o, Raise e)
  | Ok v =>
      let (disc, r) := rho64 (s_disc o) (s_rho o) Xh Yh v sr in
      match r with
      | Raise e => (Sk64 (s_lf o) disc (s_rho o) (s_noise o), Raise e)
      | Ok rho =>
          let (disc', t) := gp_train disc Xh (disc64 rho Yh v) sd in
          match t with
          | Raise e => (Sk64 (s_lf o) disc' rho (s_noise o), Raise e)
          | Ok _ => (Sk64 (s_lf o) disc' rho (g_noise disc'), Ok tt)
          end
      end
  end.
(** mf_gaussian_process.py 46-92 [train], with the object it leaves *)
Definition sk_train64 (o : sk64) (Xh : mat) (Yh : list b64) (Xl : mat) (Yl : list b64) (sl : search64) (sr : rho_search64) (sd : search64) : sk64 * result unit :=
  let (lf, r) := gp_train (s_lf o) Xl Yl sl in
  let o1 := Sk64 lf (s_disc o) (s_rho o) (s_noise o) in
  match r with Raise e => (o1, Raise e) | Ok _ => sk_train_hf64 o1 Xh Yh sr sd end.

(** 124-126 [predict] without std *)
Definition sk_predict64 (o : sk64) (X : mat) : result (list b64) :=
  pd <- gp_predict (s_disc o) X ;;
  pl <- gp_predict (s_lf o) X ;;
  Ok (map (fun q => fadd (fmul (fst q) (s_rho o)) (snd q)) (combine pd pl)).
(** 127-131 with return_std=True; squares are products *)
Definition sk_predict_std64 (o : sk64) (X : mat) : result (list b64 * list b64) :=
  l <- gp_predict_std (s_lf o) X ;;
  e <- gp_predict_std (s_disc o) X ;;
  Ok (map (fun q => fadd (fmul (s_rho o) (fst q)) (snd q)) (combine (fst l) (fst e)),
      map (fun q => fsqrt (fadd (fmul (fmul (s_rho o) (s_rho o)) (fmul (fst q) (fst q))) (fmul (snd q) (snd q)))) (combine (snd l) (snd e))).
End Train.
