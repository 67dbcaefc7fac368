(** Proofs: the order of the training samples. *)
From Coq Require Import Reals Lra Classical_Prop.
From Verif Require Import Fl.
From mathcomp Require Import all_ssreflect fingroup perm all_algebra.
From Verif Require Import RStruct LinAlg LinSpec LinAlgFacts Kernel KernelFacts Krig KrigFacts GP GPSpec GPFacts GPMain LikSpec LikFacts.
Set Implicit Arguments.
Unset Strict Implicit.
Unset Printing Implicit Defensive.
Import GRing.Theory.
Local Open Scope ring_scope.
Local Arguments chol : simpl never.

Section Perm.
Variables (n : nat) (s : 'S_n).
Local Notation P := (perm_mx s : 'M[R]_n).
Lemma perm_tr : P^T *m P = 1%:M /\ P *m P^T = 1%:M.
Proof. by rewrite tr_perm_mx -!perm_mxM mulVg mulgV perm_mx1. Qed.
Lemma perm_unit : P \in unitmx. Proof. exact: unitmx_perm. Qed.
Lemma perm_inv : invmx P = P^T.
Proof. by apply: (can_inj (mulKmx perm_unit)); rewrite mulmxV ?perm_unit //; case: perm_tr. Qed.
Lemma conj_inv (K : 'M[R]_n) : K \in unitmx -> invmx (P *m K *m P^T) = P *m invmx K *m P^T.
Proof.
move=> U; have [A B] := perm_tr.
have UP : P *m K *m P^T \in unitmx by rewrite !unitmx_mul perm_unit U unitmx_tr perm_unit.
apply: (can_inj (mulKmx UP)); rewrite mulmxV // !mulmxA -[_ *m P^T *m P]mulmxA A mulmx1 -[P *m K *m _]mulmxA mulmxV // mulmx1.
by rewrite B.
Qed.
Lemma conj_pos (K : 'M[R]_n) : posdef K -> posdef (P *m K *m P^T).
Proof.
move=> H; have {1}-> : P = (P^T)^T by rewrite trmxK. apply: pos_congr => // x E.
have [_ B] := perm_tr. by rewrite -[x]mul1mx -B -mulmxA E mulmx0.
Qed.
Lemma conj_det (K : 'M[R]_n) : \det (P *m K *m P^T) = \det K.
Proof. rewrite !det_mulmx mulrAC -det_mulmx; have [_ ->] := perm_tr. by rewrite det1 mul1r. Qed.

Lemma perm_fit p (K : 'M[R]_n) (F : 'M[R]_(n, p)) (Y : 'cV[R]_n) k : fit_spec K F Y k ->
  exists k', krig_fit (P *m K *m P^T) (P *m F) (P *m Y) = Ok k' /\ fit_spec (P *m K *m P^T) (P *m F) (P *m Y) k' /\
    kr_beta k' = kr_beta k /\ kr_sigma2 k' = kr_sigma2 k /\ kr_gamma k' = P *m kr_gamma k /\ kr_ld k' = kr_ld k /\
    sum_log_diag (kr_L k') = sum_log_diag (kr_L k).
Proof.
move=> H; have [A B] := perm_tr; have PK := fs_K H; have U := pos_unit PK.
have N : normal_mx (P *m K *m P^T) (P *m F) = normal_mx K F.
  by rewrite /normal_mx conj_inv // trmx_mul !mulmxA -[_ *m P^T *m P]mulmxA A mulmx1 -[_ *m P^T *m P]mulmxA A mulmx1.
have HF : full_rank (P *m F).
  move=> x E; apply: (normal_full (fs_N H)). by rewrite -[F *m x]mul1mx -A -mulmxA [P *m (F *m x)]mulmxA E mulmx0.
have [k' Ek] := krig_fit_ok (P *m Y) (conj_pos PK) HF; have H' := krig_fit_spec (conj_pos PK).1 Ek.
have Eb : kr_beta k' = kr_beta k.
  rewrite (fs_beta H') (fs_beta H) N conj_inv // trmx_mul.
  by rewrite !mulmxA -[_ *m P^T *m P]mulmxA A mulmx1 -[_ *m P^T *m P]mulmxA A mulmx1.
have Er : P *m Y - P *m F *m kr_beta k' = P *m (Y - F *m kr_beta k) by rewrite Eb mulmxBr mulmxA.
exists k'; split=> //; split=> //; split=> //; split.
  rewrite (fs_sigma2 H') (fs_sigma2 H) /gls Er /qf conj_inv // trmx_mul.
  by rewrite !mulmxA -[_ *m P^T *m P]mulmxA A mulmx1 -[_ *m P^T *m P]mulmxA A mulmx1.
split; first by rewrite (fs_gamma H') (fs_gamma H) Er conj_inv // !mulmxA -[_ *m P^T *m P]mulmxA A mulmx1.
split; first by have := fs_ld H'; rewrite N (fs_ld H) => -[].
have [_ ->] := chol_det (fs_K H').1 (fs_L H'). have [_ ->] := chol_det (fs_K H).1 (fs_L H). by rewrite conj_det.
Qed.

Lemma chol_err q (A : 'M[R]_q) e : chol A = Raise e -> e = LinAlgError.
Proof.
elim: q A e => [|q IH] A e //=; rewrite /chol -/chol; case: Rlt_dec => [a0|]; last by move=> _ [].
by case E0: (chol _) => [z|z] //= [<-]; exact: IH E0.
Qed.
Lemma fit_err p (K : 'M[R]_n) (F : 'M[R]_(n, p)) (Y : 'cV[R]_n) e : posdef K -> krig_fit K F Y = Raise e -> e = LinAlgError.
Proof.
move=> PK; rewrite /krig_fit; have [L EL] := chol_pos PK. rewrite EL /= !(chol_solve_ok _ PK.1 EL) /= -/(normal_mx _ _).
case Ed: (chol _) => [ld|e1] /=; first by rewrite (chol_solve_ok _ (normal_sym _ PK.1) Ed) /= (chol_solve_ok _ PK.1 EL).
move=> [<-]; exact: chol_err Ed.
Qed.
Lemma perm_fit_raise p (K : 'M[R]_n) (F : 'M[R]_(n, p)) (Y : 'cV[R]_n) e : posdef K -> krig_fit K F Y = Raise e ->
  krig_fit (P *m K *m P^T) (P *m F) (P *m Y) = Raise e.
Proof.
move=> PK E; case E': (krig_fit _ (P *m F) _) => [m'|e'].
  exfalso. have H' := krig_fit_spec (conj_pos PK).1 E'.
  have HF : full_rank F by move=> x Ex; apply: (normal_full (fs_N H')); rewrite -mulmxA Ex mulmx0.
  have [m Em] := krig_fit_ok Y PK HF. by rewrite Em in E.
by rewrite (fit_err PK E) (fit_err (conj_pos PK) E').
Qed.

(** data in another order *)
Lemma perm_entry m (A : 'M[R]_(n, m)) i j : (P *m A) i j = A (s i) j.
Proof. by rewrite -row_permE mxE. Qed.
Lemma perm_conj (K : 'M[R]_n) i j : (P *m K *m P^T) i j = K (s i) (s j).
Proof. by rewrite tr_perm_mx -col_permE mxE -row_permE mxE. Qed.
Lemma perm_sum (f : 'I_n -> R) : \sum_i f (s i) = \sum_i f i.
Proof. by rewrite [RHS](reindex_inj (perm_inj (s := s))). Qed.
Lemma perm_mean (Y : 'cV[R]_n) : mean (row_perm s Y) = mean Y.
Proof. by rewrite /mean -[in RHS](perm_sum (fun i => Y i 0)); congr Rdiv; apply: eq_bigr => i _; rewrite mxE. Qed.
Lemma perm_stdev (Y : 'cV[R]_n) : stdev (row_perm s Y) = stdev Y.
Proof.
rewrite /stdev perm_mean -[in RHS](perm_sum (fun i => Rmult (Rminus (Y i 0) (mean Y)) (Rminus (Y i 0) (mean Y)))).
by congr sqrt; congr Rdiv; apply: eq_bigr => i _; rewrite mxE.
Qed.
Lemma perm_output (Y : 'cV[R]_n) : normalize_output (row_perm s Y) = P *m normalize_output Y.
Proof. by apply/matrixP => i j; rewrite perm_entry /normalize_output perm_mean perm_stdev !mxE. Qed.
Variables (d p : nat) (phi : 'rV[R]_d -> 'rV[R]_p) (lo hi : 'rV[R]_d).
Lemma perm_input (X : 'M[R]_(n, d)) : normalize_input lo hi (row_perm s X) = row_perm s (normalize_input lo hi X).
Proof. by apply/matrixP => i j; rewrite !mxE. Qed.
Lemma perm_row (X : 'M[R]_(n, d)) i : row i (row_perm s X) = row (s i) X.
Proof. by apply/matrixP => a b; rewrite !mxE. Qed.
Lemma perm_regr (X : 'M[R]_(n, d)) : regr_matrix phi (row_perm s X) = P *m regr_matrix phi X.
Proof. by apply/matrixP => i j; rewrite perm_entry !mxE perm_row. Qed.
Lemma perm_kernel (k : rbf d) (X : 'M[R]_(n, d)) r : positive_params (rbf_param k) ->
  noise_matrix (row_perm s X) k r = P *m noise_matrix X k r *m P^T.
Proof.
move=> H; rewrite !noise_matrixE //; apply/matrixP => i j; rewrite perm_conj !addE; congr (_ + _); first by rewrite !mxE !perm_row.
by rewrite !mxE (inj_eq (perm_inj (s := s))).
Qed.
Lemma perm_loglik noise (X : 'M[R]_(n, d)) (Y : 'cV[R]_n) ys k h :
  loglik phi noise (row_perm s X) (P *m Y) ys k h = loglik phi noise X Y ys k h.
Proof.
rewrite /loglik !kernel_callE; set r := if noise is Some s then _ else _.
rewrite -!/(noise_matrix _ (set_params k (h_theta h)) r) perm_kernel; last exact: set_params_pos.
rewrite perm_regr; set K := noise_matrix X _ _.
have PK : posdef K by apply: kernel_noise_pos; exact: set_params_pos.
case E: (krig_fit K _ _) => [m|e] /=.
  have [k' [Ek [_ [_ [Es [_ [_ El]]]]]]] := perm_fit (krig_fit_spec PK.1 E). by rewrite Ek /= Es El.
by rewrite (perm_fit_raise PK E).
Qed.

Lemma perm_objective noise (X : 'M[R]_(n, d)) (Y : 'cV[R]_n) k h :
  loglik phi noise (row_perm s X) (normalize_output (row_perm s Y)) (stdev (row_perm s Y)) k h =
  loglik phi noise X (normalize_output Y) (stdev Y) k h.
Proof. by rewrite perm_output perm_stdev perm_loglik. Qed.
Lemma perm_cross m (k : rbf d) (X : 'M[R]_(n, d)) (Z : 'M[R]_(m, d)) : positive_params (rbf_param k) ->
  get_kernel_matrix k (row_perm s X) Z = P *m kpure (rbf_param k) X Z + jitter *: eye n m.
Proof. by move=> H; rewrite kernelE //; congr (_ + _); apply/matrixP => i j; rewrite perm_entry !mxE perm_row. Qed.
Lemma eye_col m (j : 'I_m) (g : 'cV[R]_n) : (n <= j)%N -> ((eye n m)^T *m g) j 0 = 0.
Proof.
move=> Hj; rewrite mxE big1 // => i _; rewrite trE mxE.
have -> : ((i : nat) == j) = false by apply/negbTE; rewrite neq_ltn (leq_trans (ltn_ord i) Hj). by rewrite mul0r.
Qed.
Lemma eye_pick m (j : 'I_m) (g : 'cV[R]_n) (i : 'I_n) : (i : nat) = j -> ((eye n m)^T *m g) j 0 = g i 0.
Proof.
move=> Hj; rewrite mxE (bigD1 i) //= big1 => [|l Hl]; first by rewrite trE mxE Hj eqxx mul1r addr0.
rewrite trE mxE -Hj; case: eqP => [E|_]; last by rewrite mul0r. by case/eqP: Hl; exact: val_inj.
Qed.

Lemma perm_mse m (K : 'M[R]_n) (F : 'M[R]_(n, p)) (Y : 'cV[R]_n) k k' (f : 'M[R]_(m, p)) (c1 c2 : 'M[R]_(n, m)) m1 m2 j :
  fit_spec K F Y k -> fit_spec (P *m K *m P^T) (P *m F) (P *m Y) k' -> kr_sigma2 k' = kr_sigma2 k ->
  col j c2 = P *m col j c1 -> krig_mse k f c1 = Ok m1 -> krig_mse k' f c2 = Ok m2 -> m2 j 0 = m1 j 0.
Proof.
move=> H H' Es Ec E1 E2; rewrite (fit_mse_entry H j E1) (fit_mse_entry H' j E2) Es Ec.
have [A B] := perm_tr; have U := pos_unit (fs_K H).
have N : normal_mx (P *m K *m P^T) (P *m F) = normal_mx K F.
  by rewrite /normal_mx conj_inv // trmx_mul !mulmxA -[_ *m P^T *m P]mulmxA A mulmx1 -[_ *m P^T *m P]mulmxA A mulmx1.
have -> : qf (invmx (P *m K *m P^T)) (P *m col j c1) = qf (invmx K) (col j c1).
  by rewrite /qf conj_inv // trmx_mul !mulmxA -[_ *m P^T *m P]mulmxA A mulmx1 -[_ *m P^T *m P]mulmxA A mulmx1.
rewrite N; congr (_ * (_ + qf _ (_ - _))).
by rewrite conj_inv // trmx_mul !mulmxA -[_ *m P^T *m P]mulmxA A mulmx1 -[_ *m P^T *m P]mulmxA A mulmx1.
Qed.
Lemma perm_train_raise (o : gp d p) (X : 'M[R]_(n, d)) (Y : 'cV[R]_n) sr e : gp_train phi lo hi o X Y sr = Raise e ->
  gp_train phi lo hi o (row_perm s X) (row_perm s Y) sr = Raise e.
Proof.
rewrite /gp_train perm_stdev perm_output perm_mean; case: (Req_EM_T _ _) => // HY.
rewrite perm_input (hyper_search_ext _ _ (fun h => perm_loglik (gp_noise o) (normalize_input lo hi X) (normalize_output Y) (stdev Y) (gp_kernel o) h)).
case: (hyper_search _ _ _) => [h|//]; rewrite [bind _ _]/= [X in _ -> X = _]/= /gp_update.
set r := Rdiv _ _. rewrite -!/(noise_matrix _ (set_params (gp_kernel o) (h_theta h)) r) perm_kernel; last exact: set_params_pos.
rewrite perm_regr; set K := noise_matrix (normalize_input lo hi X) _ _.
have PK : posdef K by apply: kernel_noise_pos; exact: set_params_pos.
case E: (krig_fit K _ _) => [m|e'] //= [<-]. by rewrite (perm_fit_raise PK E).
Qed.
Lemma perm_train (o o1 : gp d p) (X : 'M[R]_(n, d)) (Y : 'cV[R]_n) sr : gp_train phi lo hi o X Y sr = Ok o1 ->
  exists o2, gp_train phi lo hi o (row_perm s X) (row_perm s Y) sr = Ok o2 /\
    gp_noise o2 = gp_noise o1 /\ gp_kernel o2 = gp_kernel o1 /\
    exists t1 t2 (E : tr_n t1 = n), gp_model o1 = Some t1 /\ gp_model o2 = Some t2 /\
      kr_beta (tr_krig t2) = kr_beta (tr_krig t1) /\ kr_sigma2 (tr_krig t2) = kr_sigma2 (tr_krig t1) /\ tr_logp t2 = tr_logp t1 /\
    forall m (Z : 'M[R]_(m, d)) mu1 sd1, gp_predict_std phi lo hi o1 Z = Ok (mu1, sd1) ->
      exists mu2 sd2, gp_predict phi lo hi o2 Z = Ok mu2 /\ gp_predict_std phi lo hi o2 Z = Ok (mu2, sd2) /\
      (forall j : 'I_m, (n <= j)%N -> mu2 j 0 = mu1 j 0 /\ sd2 j 0 = sd1 j 0) /\
      (forall (j : 'I_m) (i : 'I_n), (i : nat) = j ->
         let gamma := castmx (E, erefl 1%N) (kr_gamma (tr_krig t1)) in
         Rminus (mu2 j 0) (mu1 j 0) = Rmult (Rmult (Rinv (10 ^ 10)) (Rminus (gamma (s i) 0) (gamma i 0))) (tr_std t1)).
Proof.
case/train_inv => HY [h [k [Eh [Hf ->]]]].
set nz := new_noise o (stdev Y) h in Hf *. set ker := set_params _ _ in Hf *. set Xs := normalize_input lo hi X in Hf Eh *.
have Hk : positive_params (rbf_param ker) by exact: set_params_pos.
have [k' [Ek [Hf' [Eb [Es [Eg [_ El]]]]]]] := perm_fit Hf.
have EK : noise_matrix (row_perm s Xs) ker (Rdiv nz (stdev Y)) = P *m noise_matrix Xs ker (Rdiv nz (stdev Y)) *m P^T by exact: perm_kernel.
have ET : gp_train phi lo hi o (row_perm s X) (row_perm s Y) sr = Ok (MkGP (Some nz) (gp_restart o) ker
   (Some (GPTrained (row_perm s Xs) (P *m normalize_output Y) (mean Y) (stdev Y) (noise_matrix (row_perm s Xs) ker (Rdiv nz (stdev Y))) k'
     (Rminus (Rmult (Rmult (Ropp (Rdiv 1 2)) (INR n)) (kr_sigma2 k')) (sum_log_diag (kr_L k')))))).
  rewrite /gp_train perm_stdev perm_output perm_mean; case: (Req_EM_T _ _) => [Z|N]; first by case: HY.
  rewrite perm_input (hyper_search_ext _ _ (fun h => perm_loglik (gp_noise o) (normalize_input lo hi X) (normalize_output Y) (stdev Y) (gp_kernel o) h)).
  rewrite Eh [bind _ _]/= /gp_update -/(new_noise o (stdev Y) h) -/nz -/ker -/(noise_matrix _ ker (Rdiv nz (stdev Y))) perm_regr -/Xs.
  by rewrite EK Ek.
exists (MkGP (Some nz) (gp_restart o) ker
   (Some (GPTrained (row_perm s Xs) (P *m normalize_output Y) (mean Y) (stdev Y) (noise_matrix (row_perm s Xs) ker (Rdiv nz (stdev Y))) k'
     (Rminus (Rmult (Rmult (Ropp (Rdiv 1 2)) (INR n)) (kr_sigma2 k')) (sum_log_diag (kr_L k')))))).
split; first exact: ET. split; first by []. split; first by [].
exists (GPTrained Xs (normalize_output Y) (mean Y) (stdev Y) (noise_matrix Xs ker (Rdiv nz (stdev Y))) k
     (Rminus (Rmult (Rmult (Ropp (Rdiv 1 2)) (INR n)) (kr_sigma2 k)) (sum_log_diag (kr_L k)))),
  (GPTrained (row_perm s Xs) (P *m normalize_output Y) (mean Y) (stdev Y) (noise_matrix (row_perm s Xs) ker (Rdiv nz (stdev Y))) k'
     (Rminus (Rmult (Rmult (Ropp (Rdiv 1 2)) (INR n)) (kr_sigma2 k')) (sum_log_diag (kr_L k')))), (erefl n).
split; first reflexivity. split; first reflexivity.
split; first exact: Eb. split; first exact: Es. split; first by rewrite [LHS]/= [RHS]/= Es El.
move=> m Z mu1 sd1; rewrite /gp_predict_std /gp_predict /=.
set W := normalize_input lo hi Z. rewrite perm_cross // kernelE //; set C := kpure _ _ _.
have S := (fs_K Hf).1; have S' := (fs_K Hf').1. have [A B] := perm_tr; have U := pos_unit (fs_K Hf).
set c1 := C + _; set c2 := P *m C + _.
have E1 := fit_mse Hf (regr_matrix phi W) c1; set m1 := (\col__ _) in E1.
have E2 := fit_mse Hf' (regr_matrix phi W) c2; set m2 := (\col__ _) in E2.
rewrite E1 E2 [bind _ _]/= [bind _ _]/= => -[<- <-].
have EM j : krig_mean k' (regr_matrix phi W) c2 j 0 = Rplus (krig_mean k (regr_matrix phi W) c1 j 0)
    (Rmult jitter (Rminus (((eye n m)^T *m (P *m kr_gamma k)) j 0) (((eye n m)^T *m kr_gamma k) j 0))).
  rewrite /krig_mean Eb Eg /c1 /c2 [(C + _)^T]linearD [(P *m C + _)^T]linearD /= !linearZ /= !mulmxDl -!scalemxAl.
  rewrite trmx_mul -[C^T *m P^T *m _]mulmxA [P^T *m (P *m _)]mulmxA A mul1mx !addE !scaleE. toR. ring.
do 2 eexists; split; first reflexivity. split; first reflexivity. split.
  move=> j Hj; split.
    rewrite [LHS]mxE [RHS]mxE EM !eye_col //. by rewrite Rminus_eq_0 Rmult_0_r Rplus_0_r.
  rewrite [LHS]mxE [RHS]mxE; congr (sqrt (Rmax (Rplus (Rmult _ _) _) _)).
  apply: (perm_mse Hf Hf' Es _ E1 E2). apply/matrixP => i l; rewrite perm_entry [LHS]mxE [RHS]mxE /c1 /c2 !addE perm_entry.
  congr (_ + _); rewrite !scaleE !mxE.
  have N (q : 'I_n) : ((q : nat) == j) = false by apply/negbTE; rewrite neq_ltn (leq_trans (ltn_ord q) Hj).
  by rewrite !N.
move=> j i Hi; rewrite [(\col__ _) j 0]mxE [(\col__ _) j 0]mxE EM !(eye_pick _ Hi) perm_entry castmx_id -/jitter. toR; ring.
Qed.
End Perm.

(** with the Ordinary basis some exchange of two samples always shows in the first rows of a batch *)
Lemma order_shows d (lo hi : 'rV[R]_d) n (o o1 : gp d 1) (X : 'M[R]_(n, d)) (Y : 'cV[R]_n) sr : gp_train (@Ordinary d) lo hi o X Y sr = Ok o1 ->
  exists (s : 'S_n) o2, gp_train (@Ordinary d) lo hi o (row_perm s X) (row_perm s Y) sr = Ok o2 /\
    forall m (Z : 'M[R]_(m, d)) mu1 mu2, (n <= m)%N -> gp_predict (@Ordinary d) lo hi o1 Z = Ok mu1 -> gp_predict (@Ordinary d) lo hi o2 Z = Ok mu2 ->
      exists j, mu2 j 0 <> mu1 j 0.
Proof.
move=> Ht; have [t1 [_ [Et _]]] := gp_data Ht. have s0 := ordinary_sigma2 Ht Et.
have [i [i' Hi]] : exists i i', kr_gamma (tr_krig t1) i 0 <> kr_gamma (tr_krig t1) i' 0.
  apply: Classical_Prop.NNPP => N; apply: (Rlt_irrefl R0); rewrite -{2}(_ : kr_sigma2 (tr_krig t1) = R0) //.
  move: Et N; case/train_inv: Ht => HY [h [k [_ [Hf ->]]]] [<-] /= N.
  have G : forall i i', kr_gamma k i 0 = kr_gamma k i' 0.
    by move=> i i'; apply: Classical_Prop.NNPP => E; apply: N; exists i, i'.
  have n0 := stdev_nz HY; have Pn := INR_pos n0.
  have S0 := fit_normal Hf. move/matrixP/(_ 0 0): S0; rewrite !mxE => S0.
  have Z : kr_gamma k = 0.
    apply/matrixP => i j; rewrite [j]ord1 [RHS]mxE.
    have E : \sum_j (regr_matrix (@Ordinary d) (normalize_input lo hi X))^T 0 j * kr_gamma k j 0 = Rmult (INR n) (kr_gamma k i 0).
      by rewrite -sum_const; apply: eq_bigr => l _; rewrite !mxE /= mul1r; exact: G.
    move: S0; rewrite E => /Rmult_integral [E0|//]. exfalso; lra.
  by rewrite (fs_sigma2 Hf) /gls /qf -mulmxA -(fs_gamma Hf) Z mulmx0 mxE /Rdiv Rmult_0_l.
have [E1 _] : exists E : tr_n t1 = n, True.
  by move: Et; case/train_inv: Ht => HY [h [k [_ [_ ->]]]] [<-] /=; exists (erefl n).
pose a := cast_ord E1 i; pose b := cast_ord E1 i'.
have [o2 [E2 [_ [_ [t1' [t2 [E [Et' [Et2 [_ [_ [_ H]]]]]]]]]]]] := perm_train (tperm a b) Ht.
exists (tperm a b), o2; split=> // m Z mu1 mu2 Hm P1 P2.
have [mu [sd [Em Es]]] := gp_predict_ok Z Ht; move: Em; rewrite P1 => -[Em].
rewrite -Em in Es; have [mu2' [sd2 [P2' [_ [_ D]]]]] := H _ _ _ _ Es.
move: P2'; rewrite P2 => -[E3]; rewrite -E3 in D.
pose j := widen_ord Hm a; exists j => Ej. have := D j a erefl; cbv zeta; rewrite Ej tpermL.
have -> : Rminus (mu1 j 0) (mu1 j 0) = R0 by ring.
have T : t1' = t1 by move: Et'; rewrite Et => -[].
move: E {H D}; rewrite T => E.
have -> : castmx (E, erefl 1%N) (kr_gamma (tr_krig t1)) b 0 = kr_gamma (tr_krig t1) i' 0.
  by rewrite castmxE; congr (kr_gamma _ _ _); [exact: val_inj | exact: val_inj].
have -> : castmx (E, erefl 1%N) (kr_gamma (tr_krig t1)) a 0 = kr_gamma (tr_krig t1) i 0.
  by rewrite castmxE; congr (kr_gamma _ _ _); [exact: val_inj | exact: val_inj].
move/esym/Rmult_integral => [/Rmult_integral [H0|H0]|H0].
- by have := jitter_pos; rewrite /jitter H0; exact: Rlt_irrefl.
- by apply: Hi; lra.
- by move: Et H0; case/train_inv: Ht => HY [h [k [_ [_ ->]]]] [<-] /=.
Qed.
