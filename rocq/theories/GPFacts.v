(** Facts about Gaussian process regression. *)
From Coq Require Import Reals Lra.
From Verif Require Import Fl FlFacts.
From mathcomp Require Import all_ssreflect all_algebra.
From Verif Require Import RStruct LinAlg LinSpec LinAlgFacts Kernel KernelFacts Krig KrigFacts GP GPSpec.
Set Implicit Arguments.
Unset Strict Implicit.
Unset Printing Implicit Defensive.
Import GRing.Theory.
Local Open Scope ring_scope.

(** ** multi-start *)

Lemma multistart_inv A (t0 : A * b64) (ts : seq (A * b64)) :
  let s := foldl multistart_step (None, finf) ts in
  match s.1 with
  | None => s.2 = finf /\ forall j, (j < size ts)%N -> flt (nth t0 ts j).2 finf = false
  | Some x => exists i, first_best t0 ts i /\ nth t0 ts i = (x, s.2)
  end.
Proof.
elim/last_ind: ts => [|ts t IH] //=; rewrite foldl_rcons.
move: IH; set s := foldl _ _ ts. case: s => -[x|] v /=.
  case=> i [[Hi [Hv [Hm Hf]]] Ei]; rewrite /multistart_step /=. case E: (flt t.2 v).
    exists (size ts); rewrite nth_rcons ltnn eqxx -surjective_pairing; split=> //; split; first by rewrite size_rcons.
    have Hni : isnan v = false by exact: (flt_nnan_r _ _ E).
    have Hiv : flt v finf = true by move: Hv; rewrite Ei.
    rewrite nth_rcons ltnn eqxx; split; first exact: (flt_fle_trans _ _ _ E (flt_fle _ _ Hiv)).
    have K : forall j, (j < size ts)%N -> fle (nth t0 ts j).2 t.2 = false.
      move=> j Hj; apply/negP => C; have := Hm j Hj; rewrite Ei /=.
      by rewrite (fle_flt_trans _ _ _ C E).
    split=> j; rewrite ?size_rcons ?ltnS => Hj; rewrite nth_rcons.
      case: (ltnP j (size ts)) => H; last by rewrite eqn_leq Hj H /= flt_irrefl.
      by apply/negP => C; have := K j H; rewrite (flt_fle _ _ C).
    by rewrite Hj; exact: K.
  exists i; rewrite /first_best size_rcons !nth_rcons Hi Ei /=; split=> //; split; first exact: ltnW.
  split; first by move: Hv; rewrite Ei.
  split=> j; rewrite ?ltnS => Hj; rewrite nth_rcons.
    case: (ltnP j (size ts)) => H; last by rewrite eqn_leq Hj H.
    by have := Hm j H; rewrite Ei.
  by rewrite (ltn_trans Hj Hi); have := Hf j Hj; rewrite Ei.
case=> -> Hn; rewrite /multistart_step /=. case E: (flt t.2 finf).
  exists (size ts); rewrite /first_best size_rcons !nth_rcons ltnn eqxx -surjective_pairing; split=> //; split=> //; split=> //.
  have K : forall j, (j < size ts)%N -> fle (nth t0 ts j).2 t.2 = false.
    move=> j Hj; apply/negP => C; have := Hn j Hj. by rewrite (fle_flt_trans _ _ _ C E).
  split=> j; rewrite ?ltnS => Hj; rewrite nth_rcons.
    case: (ltnP j (size ts)) => H; last by rewrite eqn_leq Hj H /= flt_irrefl.
    by apply/negP => C; have := K j H; rewrite (flt_fle _ _ C).
  by rewrite Hj; exact: K.
split=> // j; rewrite size_rcons ltnS => Hj; rewrite nth_rcons.
case: (ltnP j (size ts)) => H; [exact: Hn|by rewrite eqn_leq Hj H].
Qed.
Lemma multistart_ok A (t0 : A * b64) (ts : seq (A * b64)) x :
  multistart ts = Ok x -> exists i, first_best t0 ts i /\ (nth t0 ts i).1 = x.
Proof.
rewrite /multistart; have := multistart_inv t0 ts. case: (foldl _ _ _) => -[y|] v //= [i [H E]] [<-].
by exists i; rewrite E.
Qed.
Lemma multistart_raise A (ts : seq (A * b64)) e :
  multistart ts = Raise e -> e = UnboundLocalError /\ forall j t0, (j < size ts)%N -> flt (nth t0 ts j).2 finf = false.
Proof.
rewrite /multistart. case E: ((foldl _ _ _).1) => [y|] //= [<-]; split=> // j t0 Hj.
by have := multistart_inv t0 ts; rewrite /= E => -[_ /(_ j Hj)].
Qed.
Lemma multistart_some A (t0 : A * b64) (ts : seq (A * b64)) j :
  (j < size ts)%N -> flt (nth t0 ts j).2 finf = true -> exists x, multistart ts = Ok x.
Proof.
move=> Hj H; case E: (multistart ts) => [x|e]; first by exists x.
by have [_ /(_ j t0 Hj)] := multistart_raise E; rewrite H.
Qed.

(** ** the search *)
Lemma run_queries_ok A (f : A -> result R) qs : (forall q, exists v, f q = Ok v) -> run_queries f qs = Ok tt.
Proof. by move=> H; elim: qs => //= q qs IH; have [v ->] := H q. Qed.
Lemma run_queries_ext A (f g : A -> result R) qs : f =1 g -> run_queries f qs = run_queries g qs.
Proof. by move=> H; elim: qs => //= q qs IH; rewrite H IH. Qed.
Lemma hyper_search_ext A r (f g : A -> result R) s : f =1 g -> hyper_search r f s = hyper_search r g s.
Proof. by move=> H; case: s => [o|qs b] /=; rewrite (run_queries_ext _ H). Qed.
Lemma search_lbfgs A r (f : A -> result R) oracle h :
  hyper_search r f (Lbfgs oracle) = Ok h -> multistart (trials r oracle) = Ok h.
Proof. by rewrite /hyper_search /trials; case: (run_queries _ _) => //= _; rewrite -map_comp. Qed.
Lemma search_ok A r (f : A -> result R) s :
  (forall q, exists v, f q = Ok v) -> usable r s -> exists h, hyper_search r f s = Ok h.
Proof.
move=> H; case: s => [o|qs b]; rewrite /hyper_search run_queries_ok // /bind; last by exists b.
case=> i [Hi Hf]; rewrite -map_comp.
pose t0 := (t_x (o 0%N), t_fun (o 0%N)).
apply: (@multistart_some _ t0 _ i); first by rewrite size_map size_iota.
by rewrite (nth_map 0%N) ?size_iota // nth_iota.
Qed.
Lemma search_result A r (f : A -> result R) s h : hyper_search r f s = Ok h -> result_of s r h.
Proof.
case: s => [o|qs b]; last by rewrite /=; case: (run_queries _ _) => //= _ [].
move=> Hs; have Em := search_lbfgs Hs; have [i [[Hi _] E]] := multistart_ok (t_x (o 0%N), t_fun (o 0%N)) Em.
move: Hi E; rewrite /trials size_map size_iota => Hi; rewrite (nth_map 0%N) ?size_iota // nth_iota //= => E.
by exists i.
Qed.

(** ** means and standard deviations *)
Lemma INR_pos n : (0 < n)%N -> (0 < INR n)%Re.
Proof. by move=> H; apply: lt_0_INR; apply/ltP. Qed.
Lemma stdev_pos n (Y : 'cV[R]_n) i j : Y i 0 <> Y j 0 -> (0 < stdev Y)%Re.
Proof.
move=> H; rewrite /stdev; apply: sqrt_lt_R0; apply: Rmult_lt_0_compat; last first.
  apply: Rinv_0_lt_compat; apply: INR_pos; exact: leq_ltn_trans (ltn_ord i).
apply: sumR_gt0 => [l|]; first exact: Rle_0_sqr.
case: (Req_dec (Y i 0) (mean Y)) => E; last by exists i; apply: Rlt_0_sqr; lra.
exists j; apply: Rlt_0_sqr. rewrite -E. lra.
Qed.
Lemma stdev_ge0 n (Y : 'cV[R]_n) : (0 <= stdev Y)%Re.
Proof. exact: sqrt_pos. Qed.
Lemma stdev_nz n (Y : 'cV[R]_n) : stdev Y <> R0 -> (0 < n)%N.
Proof.
case: n Y => // Y; rewrite /stdev big_ord0. case; rewrite /Rdiv Rmult_0_l. exact: sqrt_0.
Qed.
Lemma sum_const n (c : R) : \sum_(i < n) c = Rmult (INR n) c.
Proof.
elim: n => [|n IH]; first by rewrite big_ord0 /= Rmult_0_l.
rewrite big_ord_recr IH; have -> : INR n.+1 = Rplus (INR n) 1 by exact: S_INR.
by rewrite Rmult_plus_distr_r Rmult_1_l.
Qed.
Lemma mean_affine n (Y : 'cV[R]_n) a b : (0 < n)%N ->
  mean (\col_i Rplus (Rmult a (Y i 0)) b) = Rplus (Rmult a (mean Y)) b.
Proof.
move=> Hn; rewrite /mean. have P := INR_pos Hn.
have -> : \sum_i (\col_i0 Rplus (Rmult a (Y i0 0)) b) i 0 = Rplus (Rmult a (\sum_i Y i 0)) (Rmult (INR n) b).
  rewrite -sum_const RplusE RmultE mulr_sumr -big_split /=; apply: eq_bigr => i _; by rewrite mxE.
field. lra.
Qed.
Lemma stdev_affine n (Y : 'cV[R]_n) a b : (0 < n)%N -> (0 <= a)%Re ->
  stdev (\col_i Rplus (Rmult a (Y i 0)) b) = Rmult a (stdev Y).
Proof.
move=> Hn Ha; rewrite /stdev mean_affine //.
have -> : \sum_i Rmult (Rminus ((\col_i0 Rplus (Rmult a (Y i0 0)) b) i 0) (Rplus (Rmult a (mean Y)) b))
    (Rminus ((\col_i0 Rplus (Rmult a (Y i0 0)) b) i 0) (Rplus (Rmult a (mean Y)) b)) =
  Rmult (Rmult a a) (\sum_i Rmult (Rminus (Y i 0) (mean Y)) (Rminus (Y i 0) (mean Y))).
  rewrite [RHS]RmultE mulr_sumr; apply: eq_bigr => i _; rewrite mxE. toR. ring.
rewrite /Rdiv Rmult_assoc sqrt_mult_alt; last exact: Rle_0_sqr.
by rewrite sqrt_square.
Qed.
Lemma normalize_output_mean n (Y : 'cV[R]_n) : stdev Y <> R0 -> mean (normalize_output Y) = R0.
Proof.
move=> H; have Hn := stdev_nz H. have P := INR_pos Hn.
have -> : normalize_output Y = \col_i Rplus (Rmult (Rinv (stdev Y)) (Y i 0)) (Ropp (Rmult (Rinv (stdev Y)) (mean Y))).
  apply/matrixP => i j; rewrite !mxE /Rdiv. toR. ring.
rewrite mean_affine //. ring.
Qed.
Lemma normalize_output_std n (Y : 'cV[R]_n) : stdev Y <> R0 -> stdev (normalize_output Y) = R1.
Proof.
move=> H; have Hn := stdev_nz H. have P := INR_pos Hn.
have -> : normalize_output Y = \col_i Rplus (Rmult (Rinv (stdev Y)) (Y i 0)) (Ropp (Rmult (Rinv (stdev Y)) (mean Y))).
  apply/matrixP => i j; rewrite !mxE /Rdiv. toR. ring.
rewrite stdev_affine //; first by field.
apply: Rlt_le; apply: Rinv_0_lt_compat. have := stdev_ge0 Y; lra.
Qed.
Lemma normalize_output_affine n (Y : 'cV[R]_n) a b : (0 < a)%Re -> stdev Y <> R0 ->
  normalize_output (\col_i Rplus (Rmult a (Y i 0)) b) = normalize_output Y.
Proof.
move=> Ha H; have Hn := stdev_nz H; rewrite /normalize_output mean_affine // stdev_affine //; last lra.
apply/matrixP => i j; rewrite !mxE. toR. field. lra.
Qed.

(** ** inputs *)
Lemma normalize_input_inv d n (lo hi : 'rV[R]_d) (X : 'M[R]_(n, d)) i k : space_ok lo hi ->
  Rplus (lo 0 k) (Rmult (normalize_input lo hi X i k) (Rminus (hi 0 k) (lo 0 k))) = X i k.
Proof. move=> H; rewrite mxE. have := H k => ?. toR. field. lra. Qed.
Lemma normalize_input_affine d n (lo hi c t : 'rV[R]_d) (X : 'M[R]_(n, d)) :
  space_ok lo hi -> (forall k, c 0 k <> R0) ->
  normalize_input (\row_k Rplus (Rmult (c 0 k) (lo 0 k)) (t 0 k)) (\row_k Rplus (Rmult (c 0 k) (hi 0 k)) (t 0 k))
    (\matrix_(i, k) Rplus (Rmult (c 0 k) (X i k)) (t 0 k)) = normalize_input lo hi X.
Proof.
move=> H Hc; apply/matrixP => i k; rewrite !mxE. have Hk := H k; have Hck := Hc k. toR. field. split; first lra.
have -> : Rminus (Rplus (Rmult (c 0 k) (hi 0 k)) (t 0 k)) (Rplus (Rmult (c 0 k) (lo 0 k)) (t 0 k)) =
  Rmult (c 0 k) (Rminus (hi 0 k) (lo 0 k)) by ring.
apply: Rmult_integral_contrapositive_currified => //; lra.
Qed.

(** ** training *)
Lemma ordinary_full d n (X : 'M[R]_(n, d)) : (0 < n)%N -> full_rank (regr_matrix (@Ordinary d) X).
Proof.
case: n X => // n X _ x /matrixP /(_ 0 0); rewrite !mxE big_ord_recl big_ord0 addr0 !mxE /= mul1r => E.
by apply/matrixP => i j; rewrite !ord1 mxE.
Qed.

Section Train.
Variables (d p : nat) (phi : 'rV[R]_d -> 'rV[R]_p) (lo hi : 'rV[R]_d).

Lemma kernel_noise_pos n (k : rbf d) (X : 'M[R]_(n, d)) s : positive_params (rbf_param k) ->
  posdef (get_kernel_matrix k X X + (Rmult s s)%:M).
Proof. move=> H; apply: kernel_posdef => //; exact: Rle_0_sqr. Qed.
Lemma set_params_pos (k : rbf d) theta : positive_params (rbf_param (set_params k theta)).
Proof. exact: pow10_pos. Qed.

Lemma loglik_ok n noise (X : 'M[R]_(n, d)) (Y : 'cV[R]_n) ys k h : full_rank (regr_matrix phi X) ->
  exists v, loglik phi noise X Y ys k h = Ok v.
Proof.
move=> HF; rewrite /loglik kernel_callE.
have [m ->] := krig_fit_ok Y (kernel_noise_pos X (if noise is Some s then Rdiv s ys else h_sigma h) (set_params_pos k (h_theta h))) HF.
by rewrite /=; eexists.
Qed.
Lemma train_ok n (o : gp d p) (X : 'M[R]_(n, d)) (Y : 'cV[R]_n) s :
  full_rank (regr_matrix phi (normalize_input lo hi X)) -> stdev Y <> R0 -> usable (gp_restart o) s ->
  exists o', gp_train phi lo hi o X Y s = Ok o'.
Proof.
move=> HF HY Hs; rewrite /gp_train; case: (Req_EM_T _ _) => [E|N]; first by case: HY.
have [h ->] := search_ok (f := loglik phi (gp_noise o) (normalize_input lo hi X) (normalize_output Y) (stdev Y) (gp_kernel o))
   (fun q => loglik_ok _ _ _ _ _ HF) Hs.
rewrite /= /gp_update.
set K := get_kernel_matrix _ _ _ + _.
have [m ->] := krig_fit_ok (normalize_output Y) (kernel_noise_pos (normalize_input lo hi X)
  (Rdiv (if gp_noise o is Some s0 then s0 else Rmult (h_sigma h) (stdev Y)) (stdev Y)) (set_params_pos (gp_kernel o) (h_theta h))) HF.
by rewrite /=; eexists.
Qed.

(** what a successful training has done *)
Definition new_noise (o : gp d p) (ys : R) (h : hyper d) : R :=
  if gp_noise o is Some s then s else Rmult (h_sigma h) ys.
Definition noise_matrix n (X : 'M[R]_(n, d)) (k : rbf d) (r : R) : 'M[R]_n := get_kernel_matrix k X X + (Rmult r r)%:M.
Lemma train_inv n (o o' : gp d p) (X : 'M[R]_(n, d)) (Y : 'cV[R]_n) s :
  gp_train phi lo hi o X Y s = Ok o' ->
  stdev Y <> R0 /\ exists h m,
    let Xs := normalize_input lo hi X in
    let K := noise_matrix Xs (set_params (gp_kernel o) (h_theta h)) (Rdiv (new_noise o (stdev Y) h) (stdev Y)) in
    hyper_search (gp_restart o) (loglik phi (gp_noise o) Xs (normalize_output Y) (stdev Y) (gp_kernel o)) s = Ok h /\
    fit_spec K (regr_matrix phi Xs) (normalize_output Y) m /\
    o' = MkGP (Some (new_noise o (stdev Y) h)) (gp_restart o) (set_params (gp_kernel o) (h_theta h))
      (Some (GPTrained Xs (normalize_output Y) (mean Y) (stdev Y) K m
        (Rminus (Rmult (Rmult (Ropp (Rdiv 1 2)) (INR n)) (kr_sigma2 m)) (sum_log_diag (kr_L m))))).
Proof.
rewrite /gp_train; case: (Req_EM_T _ _) => // HY.
case Eh: (hyper_search _ _ _) => [h|//] /=; rewrite /gp_update -/(new_noise o (stdev Y) h).
rewrite -/(noise_matrix (normalize_input lo hi X) (set_params (gp_kernel o) (h_theta h)) (Rdiv (new_noise o (stdev Y) h) (stdev Y))).
case Em: (krig_fit _ _ _) => [m|//] [<-]; split=> //; exists h, m; split=> //; split=> //.
apply: krig_fit_spec Em. apply: (kernel_noise_pos _ _ _).1. exact: set_params_pos.
Qed.
End Train.
