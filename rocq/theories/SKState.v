(** Model of models/scale_kriging.py (and the training of models/mf_gaussian_process.py) at the level of
    single attributes: what [train] leaves in the object when one of its stages raises.  MF.v models the
    same class with training as one step; SKStateFacts.v proves the two agree.  Exact real arithmetic. *)
From Coq Require Import Reals.
From Verif Require Import Fl.
From mathcomp Require Import all_ssreflect all_algebra.
From Verif Require Import RStruct LinAlg Kernel Krig GP MF GPState.
Set Implicit Arguments.
Unset Strict Implicit.
Unset Printing Implicit Defensive.
Import GRing.Theory.
Local Open Scope ring_scope.

Section SK.
Variables (d : nat) (lo hi : 'rV[R]_d).
Local Notation Ordinary := (@Ordinary d).
Local Notation attrs := (attrs d 1).

(** sample_xh and sample_yh *)
Record hf_data := HFData { hd_n : nat; hd_x : 'M[R]_(hd_n, d); hd_y : 'cV[R]_hd_n }.
(** The object: lfGP, sample_xl, the high-fidelity data, disc_model, rho, kernel, noise.  [None] stands for
    an attribute that does not exist yet.  sample_xl_scaled, sample_yl and the two training times are never
    read and left out, like mu. *)
Record sk_attrs := SKAttrs { s_lf : attrs; s_xl : option (columns d); s_hf : option hf_data; s_disc : attrs; s_rho : R;
  s_kernel : rbf d; s_noise : option R }.

(** 13-88 [__init__] with the default models *)
Definition sk_attrs_new (noise_prior : option R) (optimizer_restart : nat) : sk_attrs :=
  SKAttrs (attrs_new d 1 noise_prior optimizer_restart) None None (attrs_new d 1 noise_prior optimizer_restart) 1
    (rbf_new (0 : 'rV[R]_d)) None.

(** 217-227: the trainings of disc_model in one bumpiness search, up to the first that raises *)
Fixpoint bumps_attrs n (disc : attrs) (X : 'M[R]_(n, d)) (Y pred_lf : 'cV[R]_n) (qs : seq (R * search (hyper d))) : attrs * result unit :=
  if qs is (rho, s) :: qs' then
    let t := train_attrs Ordinary lo hi disc X (sk_disc_data Y pred_lf rho) s in
    if t.2 is Raise e then (t.1, Raise e) else bumps_attrs t.1 X Y pred_lf qs'
  else (disc, Ok tt).
(** 102-103 and 144-183 [_rho_optimize]: disc_model afterwards, and the value assigned to rho unless it raises *)
Definition rho_attrs n (disc : attrs) (rho : R) (X : 'M[R]_(n, d)) (Y pred_lf : 'cV[R]_n) (s : rho_search d) : attrs * result R :=
  match s with
  | RhoFixed => (disc, Ok rho)
  | RhoError rho' => (disc, Ok rho')
  | RhoBumpiness qs rho' => let b := bumps_attrs disc X Y pred_lf qs in (b.1, if b.2 is Raise e then Raise e else Ok rho')
  | RhoOther => (disc, Raise UnboundLocalError)
  end.
(** 90-105 [_train_hf], on an object whose low-fidelity model is trained.  The low-fidelity predictions at the
    samples are the same whenever they are computed, at 142, 199 or 223. *)
Definition sk_train_hf_attrs n (o : sk_attrs) (X : 'M[R]_(n, d)) (Y : 'cV[R]_n) (sr : rho_search d) (sh : search (hyper d)) : sk_attrs * result unit :=
  let o := SKAttrs (s_lf o) (s_xl o) (Some (HFData X Y)) (s_disc o) (s_rho o) (s_kernel o) (s_noise o) in
  match predict_attrs Ordinary lo hi (s_lf o) X with
  | Raise e => (o, Raise e)
  | Ok pred_lf =>
      let r := rho_attrs (s_disc o) (s_rho o) X Y pred_lf sr in
      let o := SKAttrs (s_lf o) (s_xl o) (s_hf o) r.1 (s_rho o) (s_kernel o) (s_noise o) in
      match r.2 with
      | Raise e => (o, Raise e)
      | Ok rho =>
          let t := train_attrs Ordinary lo hi (s_disc o) X (sk_disc_data Y pred_lf rho) sh in
          let o := SKAttrs (s_lf o) (s_xl o) (s_hf o) t.1 rho (s_kernel o) (s_noise o) in
          match t.2 with
          | Raise e => (o, Raise e)
          | Ok _ => (SKAttrs (s_lf o) (s_xl o) (s_hf o) (s_disc o) (s_rho o) (s_kernel o) (a_noise (s_disc o)), Ok tt)
          end
      end
  end.
(** mf_gaussian_process.py 46-73 [train] and 75-92 [_train_lf] *)
Definition sk_train_attrs nh nl (o : sk_attrs) (Xh : 'M[R]_(nh, d)) (Yh : 'cV[R]_nh) (Xl : 'M[R]_(nl, d)) (Yl : 'cV[R]_nl)
    (sl : search (hyper d)) (sr : rho_search d) (sh : search (hyper d)) : sk_attrs * result unit :=
  let l := train_attrs Ordinary lo hi (s_lf o) Xl Yl sl in
  if l.2 is Raise e then (SKAttrs l.1 (s_xl o) (s_hf o) (s_disc o) (s_rho o) (s_kernel o) (s_noise o), Raise e) else
  sk_train_hf_attrs (SKAttrs l.1 (Some (Columns Xl)) (s_hf o) (s_disc o) (s_rho o) (s_kernel o) (s_noise o)) Xh Yh sr sh.

(** 94-111 of mf_gaussian_process.py [predict_lf] *)
Definition sk_predict_lf_attrs m (o : sk_attrs) (X : 'M[R]_(m, d)) : result 'cV[R]_m := predict_attrs Ordinary lo hi (s_lf o) X.
(** 124-126 [predict] without std *)
Definition sk_predict_attrs m (o : sk_attrs) (X : 'M[R]_(m, d)) : result 'cV[R]_m :=
  bind (predict_attrs Ordinary lo hi (s_disc o) X) (fun pd =>
  bind (predict_attrs Ordinary lo hi (s_lf o) X) (fun pl =>
  Ok (\col_j Rplus (Rmult (pd j 0) (s_rho o)) (pl j 0)))).
(** 127-131 [predict] with return_std=True *)
Definition sk_predict_std_attrs m (o : sk_attrs) (X : 'M[R]_(m, d)) : result ('cV[R]_m * 'cV[R]_m) :=
  bind (predict_std_attrs Ordinary lo hi (s_lf o) X) (fun l =>
  bind (predict_std_attrs Ordinary lo hi (s_disc o) X) (fun e =>
  let mse j := Rplus (Rmult (Rmult (s_rho o) (s_rho o)) (Rmult (l.2 j 0) (l.2 j 0))) (Rmult (e.2 j 0) (e.2 j 0)) in
  Ok (\col_j Rplus (Rmult (s_rho o) (l.1 j 0)) (e.1 j 0), \col_j sqrt (mse j)))).
End SK.
