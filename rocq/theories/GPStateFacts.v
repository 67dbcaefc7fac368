(** Proofs about failed trainings of the Gaussian process. *)
From Coq Require Import Reals Lra.
From Verif Require Import Fl FlFacts.
From mathcomp Require Import all_ssreflect all_algebra.
From Verif Require Import RStruct LinAlg LinSpec LinAlgFacts Kernel KernelFacts Krig KrigFacts GP GPSpec GPFacts GPMain GPState GPStateSpec.
Set Implicit Arguments.
Unset Strict Implicit.
Unset Printing Implicit Defensive.
Import GRing.Theory.
Local Open Scope ring_scope.

Lemma with_rows_id m n (A : 'M[R]_(n, m)) : with_rows n A = Ok A.
Proof. by rewrite /with_rows; case: eqP => // E; rewrite castmx_id. Qed.
Lemma with_order_id n (A : 'M[R]_n) : with_order n A = Ok A.
Proof. by rewrite /with_order; case: eqP => // E; rewrite castmx_id. Qed.
Lemma with_rows_ne m n n' (A : 'M[R]_(n, m)) : n <> n' -> with_rows n' A = Raise ValueError.
Proof. by rewrite /with_rows; case: eqP. Qed.

Lemma run_queries_in A (f : A -> result R) qs q : run_queries f qs = Ok tt -> List.In q qs -> exists v, f q = Ok v.
Proof.
elim: qs => [|q' qs IH] //=; case E: (f q') => [v|//] /= H [<-|]; first by exists v.
exact: IH.
Qed.
Lemma in_cat A (x : A) s t : List.In x s \/ List.In x t -> List.In x (s ++ t).
Proof. by elim: s => [|y s IH] /=; case=> //; [case=> [->|H]; [left|right; apply: IH; left]|move=> H; right; apply: IH; right]. Qed.
Lemma in_flatten A (x : A) s ss : List.In s ss -> List.In x s -> List.In x (flatten ss).
Proof. elim: ss => [|t ss IH] //= [->|H] Hx; apply: in_cat; [by left|right; exact: IH]. Qed.
Lemma in_map_iota B (g : nat -> B) a n i : (a <= i < a + n)%N -> List.In (g i) [seq g j | j <- iota a n].
Proof.
elim: n a => [|n IH] a /=; first by rewrite addn0 => /andP [H1 H2]; move: (leq_ltn_trans H1 H2); rewrite ltnn.
case/andP=> H1 H2. case: (ltngtP a i) H1 => // [H _|-> _]; last by left.
right; apply: IH; by rewrite H addSnnS.
Qed.
Lemma search_evaluated A r (f : A -> result R) s h : evaluated s -> hyper_search r f s = Ok h -> exists v, f h = Ok v.
Proof.
case: s => [oracle|qs x] He; last first.
  by rewrite /=; case E: (run_queries _ _) => [[]|//] /= [<-]; apply: run_queries_in E _.
move=> H; have [i [Hi Ex]] := search_result H; move: H; rewrite /hyper_search.
case E: (run_queries _ _) => [[]|//] _. apply: (run_queries_in E).
rewrite -Ex. apply: in_flatten (He i). rewrite -map_comp.
exact: (@in_map_iota _ (fun j => t_queries (oracle j)) 0 r.+1).
Qed.

(** ** which exceptions *)
Lemma chol_raise n (A : 'M[R]_n) e : chol A = Raise e -> e = LinAlgError.
Proof.
elim: n A e => [|n IH] A e //=. case: (Rlt_dec _ _) => H; last by case.
case E: (chol _) => [L|e'] //= [<-]. exact: IH E.
Qed.
Lemma chol_solve_raise n m (L : 'M[R]_n) (B : 'M[R]_(n, m)) e : chol_solve L B = Raise e -> e = LinAlgError.
Proof. by rewrite /chol_solve /solve; case: (_ \in _) => /=; [case: (_ \in _) => // -[]|case]. Qed.
Lemma krig_fit_raise n q (K : 'M[R]_n) (F : 'M[R]_(n, q)) Y e : krig_fit K F Y = Raise e -> e = LinAlgError.
Proof.
rewrite /krig_fit. case E1: (chol _) => [L|e1] /=; last by case=> <-; exact: chol_raise E1.
case E2: (chol_solve L Y) => [alpha|e2] /=; last by case=> <-; exact: chol_solve_raise E2.
case E3: (chol_solve L _) => [KF|e3] /=; last by case=> <-; exact: chol_solve_raise E3.
case E4: (chol _) => [ld|e4] /=; last by case=> <-; exact: chol_raise E4.
case E5: (chol_solve ld _) => [beta|e5] /=; last by case=> <-; exact: chol_solve_raise E5.
case E6: (chol_solve L _) => [gamma|e6] //= [<-]; exact: chol_solve_raise E6.
Qed.
Lemma run_queries_raise A (f : A -> result R) qs e : (forall q e, f q = Raise e -> e = LinAlgError) ->
  run_queries f qs = Raise e -> e = LinAlgError.
Proof. move=> H; elim: qs => [|q qs IH] //=; case E: (f q) => [v|e1] //= [<-]; exact: H E. Qed.
Lemma search_raise A r (f : A -> result R) s e : (forall q e, f q = Raise e -> e = LinAlgError) ->
  hyper_search r f s = Raise e -> e = UnboundLocalError \/ e = LinAlgError.
Proof.
move=> H; case: s => [oracle|qs x]; rewrite /hyper_search.
  case E: (run_queries _ _) => [u|e'] /=; last by case=> <-; right; exact: run_queries_raise H E.
  by case/multistart_raise; left.
by case E: (run_queries _ _) => [u|e'] //= [<-]; right; exact: run_queries_raise H E.
Qed.

Section State.
Variables (d p : nat) (phi : 'rV[R]_d -> 'rV[R]_p) (lo hi : 'rV[R]_d).
Notation train := (train_attrs phi lo hi).
Notation after o X Y := (put_data o (Dataset X (normalize_input lo hi X) Y (normalize_output Y))).

(** the object after a completed update *)
Definition fitted n (o : attrs d p) (X : 'M[R]_(n, d)) (Y : 'cV[R]_n) ys (h : hyper d) (alpha : 'cV[R]_n) (m : krig n p) : attrs d p :=
  let noise := if a_noise o is Some s then s else Rmult (h_sigma h) ys in
  let k := set_params (a_kernel o) (h_theta h) in
  Attrs (Some noise) (a_restart o) k (a_data o) (a_opt o)
    (Some (Square (get_kernel_matrix k X X + (Rmult (Rdiv noise ys) (Rdiv noise ys))%:M)))
    (Some (Square (kr_L m))) (Some (Columns (kr_F m))) (Some (Columns alpha)) (Some (kr_ld m)) (Some (kr_beta m))
    (Some (Columns (kr_gamma m))) (Some (kr_sigma2 m))
    (Some (Rminus (Rmult (Rmult (Ropp (Rdiv 1 2)) (INR n)) (kr_sigma2 m)) (sum_log_diag (kr_L m)))).
Lemma update_ok n (o : attrs d p) (X : 'M[R]_(n, d)) (Y : 'cV[R]_n) ys h m :
  let noise := if a_noise o is Some s then s else Rmult (h_sigma h) ys in
  let r := Rdiv noise ys in
  krig_fit (get_kernel_matrix (set_params (a_kernel o) (h_theta h)) X X + (Rmult r r)%:M) (regr_matrix phi X) Y = Ok m ->
  exists alpha, update_attrs phi o X Y ys h = (fitted o X Y ys h alpha m, Ok tt).
Proof.
rewrite /krig_fit /update_attrs /fitted /=.
case: (chol _) => [L|//] /=; case: (chol_solve L Y) => [alpha|//] /=; case: (chol_solve L _) => [KF|//] /=.
case: (chol _) => [ld|//] /=; case: (chol_solve ld _) => [beta|//] /=; case: (chol_solve L _) => [gamma|//] /= [<-] /=.
by exists alpha.
Qed.
Lemma update_raise n (o : attrs d p) (X : 'M[R]_(n, d)) (Y : 'cV[R]_n) ys h e :
  let noise := if a_noise o is Some s then s else Rmult (h_sigma h) ys in
  let r := Rdiv noise ys in
  krig_fit (get_kernel_matrix (set_params (a_kernel o) (h_theta h)) X X + (Rmult r r)%:M) (regr_matrix phi X) Y = Raise e ->
  (update_attrs phi o X Y ys h).2 = Raise e.
Proof.
rewrite /krig_fit /update_attrs /=.
case: (chol _) => [L|?] /=; last by case=> ->. case: (chol_solve L Y) => [alpha|?] /=; last by case=> ->.
case: (chol_solve L _) => [KF|?] /=; last by case=> ->. case: (chol _) => [ld|?] /=; last by case=> ->.
by case: (chol_solve ld _) => [beta|?] /=; last (by case=> ->); case: (chol_solve L _) => [gamma|?] //= [->].
Qed.

Lemma train_ok_attrs n (o : attrs d p) (X : 'M[R]_(n, d)) (Y : 'cV[R]_n) s g :
  gp_train phi lo hi (plain o) X Y s = Ok g ->
  exists h alpha m, stdev Y <> R0 /\
    let Xs := normalize_input lo hi X in
    let noise := if a_noise o is Some s0 then s0 else Rmult (h_sigma h) (stdev Y) in
    let k := set_params (a_kernel o) (h_theta h) in
    let K := noise_matrix Xs k (Rdiv noise (stdev Y)) in
    fit_spec K (regr_matrix phi Xs) (normalize_output Y) m /\
    train o X Y s = (fitted (put_opt (after o X Y) h) Xs (normalize_output Y) (stdev Y) h alpha m, Ok tt) /\
    g = MkGP (Some noise) (a_restart o) k
      (Some (GPTrained Xs (normalize_output Y) (mean Y) (stdev Y) K m
        (Rminus (Rmult (Rmult (Ropp (Rdiv 1 2)) (INR n)) (kr_sigma2 m)) (sum_log_diag (kr_L m))))).
Proof.
rewrite /gp_train /train_attrs; case: (Req_EM_T _ _) => // HY /=.
case: (hyper_search _ _ _) => [h|//] /=; rewrite /gp_update /=.
case Em: (krig_fit _ _ _) => [m|//] /= [<-].
have [alpha Ea] := @update_ok n (put_opt (after o X Y) h) (normalize_input lo hi X) (normalize_output Y) (stdev Y) h m Em.
exists h, alpha, m; split=> //; split; last by split.
apply: krig_fit_spec Em. apply: (kernel_noise_pos _ _ _).1. exact: set_params_pos.
Qed.
Lemma train_raise_attrs n (o : attrs d p) (X : 'M[R]_(n, d)) (Y : 'cV[R]_n) s e :
  gp_train phi lo hi (plain o) X Y s = Raise e <-> (train o X Y s).2 = Raise e.
Proof.
rewrite /gp_train /train_attrs; case: (Req_EM_T _ _) => [E|HY] /=; first by split=> -[->].
case: (hyper_search _ _ _) => [h|e'] /=; last by split=> -[->].
rewrite /gp_update /=; case Em: (krig_fit _ _ _) => [m|e'] /=.
  by have [alpha ->] := @update_ok n (put_opt (after o X Y) h) (normalize_input lo hi X) (normalize_output Y) (stdev Y) h m Em.
by rewrite (@update_raise n (put_opt (after o X Y) h) (normalize_input lo hi X) (normalize_output Y) (stdev Y) h e' Em); split=> -[->].
Qed.
(** a failed training only replaced the data *)
Lemma stdev_constant n (Y : 'cV[R]_n) : ~ constant Y -> stdev Y <> R0.
Proof.
move=> HY. have : exists i j, Y i 0 <> Y j 0.
  apply: Classical_Prop.NNPP => N; apply: HY => i j; apply: Classical_Prop.NNPP => E; apply: N. by exists i, j.
case=> i [j E]; have P := stdev_pos E => E'. move: P; rewrite E'; exact: Rlt_irrefl.
Qed.
Lemma failed_train n (o : attrs d p) (X : 'M[R]_(n, d)) (Y : 'cV[R]_n) s e : ~ constant Y -> evaluated s ->
  (train o X Y s).2 = Raise e -> train o X Y s = (after o X Y, Raise e).
Proof.
move=> HY He; rewrite /train_attrs; case: (Req_EM_T _ _) => [E|N] /=; first by case: (stdev_constant HY).
case Es: (hyper_search _ _ _) => [h|e'] /=; last by case=> ->.
have [v] := search_evaluated He Es; rewrite /loglik kernel_callE.
have -> : (if a_noise o is Some s0 then Rdiv s0 (stdev Y) else h_sigma h) =
   Rdiv (if a_noise o is Some s0 then s0 else Rmult (h_sigma h) (stdev Y)) (stdev Y).
  by case: (a_noise o) => [s0|] //; field.
case Em: (krig_fit _ _ _) => [m|//] /= _.
by have [alpha ->] := @update_ok n (put_opt (after o X Y) h) (normalize_input lo hi X) (normalize_output Y) (stdev Y) h m Em.
Qed.

(** ** answers *)
Lemma fitted_answers n (o : attrs d p) (X : 'M[R]_(n, d)) (Y : 'cV[R]_n) h alpha m :
  let Xs := normalize_input lo hi X in
  let noise := if a_noise o is Some s0 then s0 else Rmult (h_sigma h) (stdev Y) in
  let k := set_params (a_kernel o) (h_theta h) in
  let K := noise_matrix Xs k (Rdiv noise (stdev Y)) in
  kr_F m = regr_matrix phi Xs ->
  forall lp, same_answers phi lo hi (fitted (put_opt (after o X Y) h) Xs (normalize_output Y) (stdev Y) h alpha m)
    (MkGP (Some noise) (a_restart o) k (Some (GPTrained Xs (normalize_output Y) (mean Y) (stdev Y) K m lp))).
Proof.
move=> Xs noise k K EF lp q Xq; rewrite /predict_attrs /gp_predict /fitted /= with_rows_id /=.
split=> //. rewrite /predict_std_attrs /gp_predict_std /predict_attrs /gp_predict /= !with_rows_id with_order_id /= /krig_mse.
case: (chol_solve (kr_L m) _) => [delta|//] /=.
case: (chol_solve (kr_ld m) _) => [S|//] /=. congr Ok; congr pair; apply/matrixP => i j; rewrite !mxE //.
Qed.
Lemma train_answers n (o : attrs d p) (X : 'M[R]_(n, d)) (Y : 'cV[R]_n) s g :
  gp_train phi lo hi (plain o) X Y s = Ok g ->
  (train o X Y s).2 = Ok tt /\ same_answers phi lo hi (train o X Y s).1 g /\
  a_noise (train o X Y s).1 = gp_noise g /\ a_restart (train o X Y s).1 = gp_restart g /\ a_kernel (train o X Y s).1 = gp_kernel g.
Proof.
case/train_ok_attrs => h [alpha [m [HY [Hf [-> ->]]]]] /=; split=> //; split=> //.
apply: fitted_answers. exact: (fs_F Hf).
Qed.
Lemma plain_train n (o : attrs d p) (g : gp d p) (X : 'M[R]_(n, d)) (Y : 'cV[R]_n) s :
  gp_noise g = a_noise o -> gp_restart g = a_restart o -> gp_kernel g = a_kernel o ->
  gp_train phi lo hi g X Y s = gp_train phi lo hi (plain o) X Y s.
Proof. by move=> E1 E2 E3; rewrite /gp_train /gp_update /= E1 E2 E3. Qed.

(** ** histories *)
Notation attempt := (attempt phi lo hi).
Notation attempts := (attempts phi lo hi).
Notation succeeded := (succeeded phi lo hi).
Lemma attempt_cases (o : attrs d p) c : call_ok c ->
  (exists g, gp_train phi lo hi (plain o) (c_X c) (c_Y c) (c_search c) = Ok g /\ (attempt o c).2 = Ok tt /\
     same_answers phi lo hi (attempt o c).1 g /\ a_noise (attempt o c).1 = gp_noise g /\
     a_restart (attempt o c).1 = gp_restart g /\ a_kernel (attempt o c).1 = gp_kernel g) \/
  (exists e, gp_train phi lo hi (plain o) (c_X c) (c_Y c) (c_search c) = Raise e /\ attempt o c = (after o (c_X c) (c_Y c), Raise e)).
Proof.
case=> HY He; case E: (gp_train _ _ _ (plain o) (c_X c) (c_Y c) (c_search c)) => [g|e].
  by left; exists g; split=> //; exact: train_answers.
by right; exists e; split=> //; apply: failed_train => //; apply/train_raise_attrs.
Qed.
(** the trained objects of GP.v that went through the successful calls only *)
Lemma history_plain (o : attrs d p) (g0 : gp d p) cs : List.Forall (@call_ok d) cs ->
  gp_noise g0 = a_noise o -> gp_restart g0 = a_restart o -> gp_kernel g0 = a_kernel o ->
  exists g, gp_trains phi lo hi g0 (succeeded o cs) = Ok g /\
    gp_noise g = a_noise (attempts o cs) /\ gp_restart g = a_restart (attempts o cs) /\ gp_kernel g = a_kernel (attempts o cs).
Proof.
elim: cs o g0 => [|c cs IH] o g0 H E1 E2 E3; first by exists g0.
have [Hc Hcs] : call_ok c /\ List.Forall (@call_ok d) cs by inversion H.
rewrite /attempts /= -/(attempts _ _).
case: (attempt_cases o Hc) => [[g [Eg [-> [_ [F1 [F2 F3]]]]]]|[e [Eg ->]]] /=.
  rewrite (plain_train _ _ _ E1 E2 E3) Eg /=. exact: IH.
exact: IH.
Qed.
Lemma history_answers (o : attrs d p) cs c g : List.Forall (@call_ok d) cs -> call_ok c ->
  gp_trains phi lo hi (plain o) (rcons (succeeded o cs) c) = Ok g ->
  (attempt (attempts o cs) c).2 = Ok tt /\ same_answers phi lo hi (attempt (attempts o cs) c).1 g.
Proof.
move=> H Hc. have [g1 [E [E1 [E2 E3]]]] := @history_plain o (plain o) cs H erefl erefl erefl.
have Q : forall g0 l, gp_trains phi lo hi g0 (rcons l c) = bind (gp_trains phi lo hi g0 l) (fun g => gp_train phi lo hi g (c_X c) (c_Y c) (c_search c)).
  by move=> g0 l; elim: l g0 => [|a l IH] g0 /=; [case: (gp_train _ _ _ _ _ _ _)|case: (gp_train _ _ _ _ _ _ _) => //= g2; exact: IH].
rewrite Q E /= (plain_train _ _ _ E1 E2 E3) => /train_answers [A [B _]]. by split.
Qed.
Lemma history_raises (o : attrs d p) cs c e : List.Forall (@call_ok d) cs -> call_ok c ->
  gp_trains phi lo hi (plain o) (rcons (succeeded o cs) c) = Raise e <-> (attempt (attempts o cs) c).2 = Raise e.
Proof.
move=> H Hc. have [g1 [E [E1 [E2 E3]]]] := @history_plain o (plain o) cs H erefl erefl erefl.
have Q : forall g0 l, gp_trains phi lo hi g0 (rcons l c) = bind (gp_trains phi lo hi g0 l) (fun g => gp_train phi lo hi g (c_X c) (c_Y c) (c_search c)).
  by move=> g0 l; elim: l g0 => [|a l IH] g0 /=; [case: (gp_train _ _ _ _ _ _ _)|case: (gp_train _ _ _ _ _ _ _) => //= g2; exact: IH].
rewrite Q E /= (plain_train _ _ _ E1 E2 E3). exact: train_raise_attrs.
Qed.

(** with a given noise nothing of the past matters *)
Lemma attempts_restart (o : attrs d p) cs : a_restart (attempts o cs) = a_restart o.
Proof.
elim: cs o => [|c cs IH] o //; rewrite /attempts /= -/(attempts _ _) IH /attempt /train_attrs.
case: (Req_EM_T _ _) => //= N. case: (hyper_search _ _ _) => [h|e] //=. rewrite /update_attrs /=.
by do !(case: (chol _) => [?|?] //= || case: (chol_solve _ _) => [?|?] //=).
Qed.
Lemma attempts_noise (o : attrs d p) cs s : a_noise o = Some s -> a_noise (attempts o cs) = Some s.
Proof.
elim: cs o => [|c cs IH] o // Hn; rewrite /attempts /= -/(attempts _ _); apply: IH; rewrite /attempt /train_attrs.
case: (Req_EM_T _ _) => //= N. case: (hyper_search _ _ _) => [h|e] //=. rewrite /update_attrs /= Hn.
by do !(case: (chol _) => [?|?] //= || case: (chol_solve _ _) => [?|?] //=).
Qed.
Lemma history_forgets (o : attrs d p) cs c noise : a_noise o = Some noise ->
  match gp_train phi lo hi (gp_new d p (Some noise) (a_restart o)) (c_X c) (c_Y c) (c_search c) with
  | Ok g => (attempt (attempts o cs) c).2 = Ok tt /\ same_answers phi lo hi (attempt (attempts o cs) c).1 g
  | Raise e => (attempt (attempts o cs) c).2 = Raise e
  end.
Proof.
move=> Hn. have En := attempts_noise cs Hn; have Er := attempts_restart o cs.
have -> : gp_train phi lo hi (gp_new d p (Some noise) (a_restart o)) (c_X c) (c_Y c) (c_search c) =
  gp_train phi lo hi (plain (attempts o cs)) (c_X c) (c_Y c) (c_search c).
  by rewrite /gp_train /gp_update /= En Er.
case E: (gp_train _ _ _ (plain _) _ _ _) => [g|e]; last by apply/train_raise_attrs.
by have [A [B _]] := train_answers E.
Qed.

(** ** what failures leave behind *)
(** the object after failures only: the attributes of the last successful training, and the last data *)
Lemma failures (o : attrs d p) cs : List.Forall (@call_ok d) cs -> succeeded o cs = [::] ->
  attempts o cs = if cs is c :: cs' then after o (c_X (last c cs')) (c_Y (last c cs')) else o.
Proof.
elim/last_ind: cs => [|cs c IH] // H E.
have [Hcs Hc] : List.Forall (@call_ok d) cs /\ call_ok c.
  move: H {E IH}; elim: cs => [|a cs IH] /= H; first by split=> //; inversion H.
  have [Ha /IH [A B]] : call_ok a /\ List.Forall (@call_ok d) (rcons cs c) by inversion H.
  by split=> //; constructor.
have : succeeded o (rcons cs c) = succeeded o cs ++ succeeded (attempts o cs) [:: c].
  elim: cs o {IH H E Hcs} => [|a cs IH] o //=. rewrite IH /attempts /=. by case: (attempt o a) => o' [u|e].
rewrite E => /esym; case Es: (succeeded o cs) => //= N.
have A : attempts o (rcons cs c) = (attempt (attempts o cs) c).1 by rewrite /attempts foldl_rcons.
rewrite A. move: N. case: (attempt_cases (attempts o cs) Hc) => [[g [_ [-> _]]] //|[e [_ ->]] _ /=].
rewrite (IH Hcs Es). by case: (cs) => [|a l] //=; rewrite last_rcons.
Qed.
Lemma fresh_predict noise r cs m (Xq : 'M[R]_(m, d)) : List.Forall (@call_ok d) cs ->
  succeeded (attrs_new d p noise r) cs = [::] ->
  predict_attrs phi lo hi (attempts (attrs_new d p noise r) cs) Xq = Raise AttributeError /\
  predict_std_attrs phi lo hi (attempts (attrs_new d p noise r) cs) Xq = Raise AttributeError.
Proof. by move=> H E; rewrite (failures H E); case: (cs). Qed.
Lemma stale_sizes (o : attrs d p) c cs c' m (Xq : 'M[R]_(m, d)) :
  (attempt o c).2 = Ok tt -> List.Forall (@call_ok d) (rcons cs c') -> succeeded (attempt o c).1 (rcons cs c') = [::] ->
  c_n c' <> c_n c ->
  predict_attrs phi lo hi (attempts (attempt o c).1 (rcons cs c')) Xq = Raise ValueError /\
  predict_std_attrs phi lo hi (attempts (attempt o c).1 (rcons cs c')) Xq = Raise ValueError.
Proof.
move=> Ho H E N.
case Eg: (gp_train phi lo hi (plain o) (c_X c) (c_Y c) (c_search c)) => [g|e]; last first.
  by move/train_raise_attrs: Eg; rewrite -[(train _ _ _ _).2]/((attempt o c).2) Ho.
have Ea : attempts (attempt o c).1 (rcons cs c') = after (attempt o c).1 (c_X c') (c_Y c').
  by rewrite (failures H E); case: (cs) => [|a l] //=; rewrite last_rcons.
have P : predict_attrs phi lo hi (attempts (attempt o c).1 (rcons cs c')) Xq = Raise ValueError.
  rewrite Ea. have [h [alpha [k [HY [Hf [Et _]]]]]] := train_ok_attrs Eg.
  rewrite /attempt Et /predict_attrs /=. rewrite with_rows_ne //. by move=> E'; apply: N.
by split=> //; rewrite /predict_std_attrs P.
Qed.
(** the same sites again *)
Lemma stale_mix (o : attrs d p) n (X : 'M[R]_(n, d)) (Y Y' : 'cV[R]_n) s s' g m (Xq : 'M[R]_(m, d)) mu e :
  gp_train phi lo hi (plain o) X Y s = Ok g -> gp_predict phi lo hi g Xq = Ok mu ->
  ~ constant Y' -> evaluated s' ->
  (train (train o X Y s).1 X Y' s').2 = Raise e ->
  predict_attrs phi lo hi (train (train o X Y s).1 X Y' s').1 Xq =
    Ok (\col_j Rplus (mean Y') (Rmult (Rdiv (stdev Y') (stdev Y)) (Rminus (mu j 0) (mean Y)))).
Proof.
move=> Eg Ep HY' He Er; rewrite (failed_train HY' He Er).
have [h [alpha [k [HY [Hf [Et Egg]]]]]] := train_ok_attrs Eg.
rewrite Et /predict_attrs /= with_rows_id /=; congr Ok.
move: Ep; rewrite Egg /gp_predict /= => -[<-].
apply/matrixP => i j; rewrite [LHS]mxE [RHS]mxE [in RHS]mxE /krig_mean. move: (fun_of_matrix (_ *m _ + _) i 0) => u. toR. field. exact: HY.
Qed.
Lemma stale_mix_std (o : attrs d p) n (X : 'M[R]_(n, d)) (Y Y' : 'cV[R]_n) s s' g m (Xq : 'M[R]_(m, d)) mu sd e :
  a_noise o = Some R0 ->
  gp_train phi lo hi (plain o) X Y s = Ok g -> gp_predict_std phi lo hi g Xq = Ok (mu, sd) ->
  ~ constant Y' -> evaluated s' ->
  (train (train o X Y s).1 X Y' s').2 = Raise e ->
  exists mu', predict_std_attrs phi lo hi (train (train o X Y s).1 X Y' s').1 Xq =
    Ok (mu', \col_j Rmult (Rdiv (stdev Y') (stdev Y)) (sd j 0)).
Proof.
move=> Hn Eg Ep HY' He Er. 
have [mu0 Ep0] : exists mu0, gp_predict phi lo hi g Xq = Ok mu0.
  move: Ep; rewrite /gp_predict_std; case: (gp_model g) => //= t; case: (gp_predict _ _ _ _ _) => [mu0|//] _. by exists mu0.
rewrite /predict_std_attrs (stale_mix Eg Ep0 HY' He Er) /=. rewrite (failed_train HY' He Er).
have [h [alpha [k [HY [Hf [Et Egg]]]]]] := train_ok_attrs Eg.
rewrite Et /= with_order_id /=.
move: Ep; rewrite Egg /gp_predict_std /gp_predict /= /krig_mse.
case: (chol_solve (kr_L k) _) => [delta|//] /=; rewrite with_rows_id /=.
case: (chol_solve (kr_ld k) _) => [S|//] /=. rewrite Hn => -[_ <-]. eexists; congr Ok; congr pair.
apply/matrixP => i j; rewrite [LHS]mxE [RHS]mxE [in RHS]mxE [in RHS]mxE. move: (Rmult (kr_sigma2 k) _) => v.
have Pa := stdev_ge0 Y'; have Pb := stdev_ge0 Y. have Q (a : R) : (0 <= a)%Re -> sqrt (Rmax (v * (a * a) + R0 * R0) 0)%Re = Rmult a (sqrt (Rmax v 0)).
  move=> Ha. have -> : Rmax (v * (a * a) + R0 * R0) 0 = Rmult (Rmult a a) (Rmax v 0).
    rewrite -RmaxRmult; last by apply: Rmult_le_pos. by rewrite Rmult_0_r Rmult_0_r Rplus_0_r Rmult_comm.
  rewrite sqrt_mult_alt; last exact: Rle_0_sqr. by rewrite sqrt_square.
rewrite (Q _ Pa) (Q _ Pb). field. exact: HY.
Qed.
(** without noise the old scaled responses come back in the new units *)
Lemma stale_sites (o : attrs d p) n (X : 'M[R]_(n, d)) (Y Y' : 'cV[R]_n) s s' e : a_noise o = Some R0 ->
  (train o X Y s).2 = Ok tt -> ~ constant Y' -> evaluated s' ->
  (train (train o X Y s).1 X Y' s').2 = Raise e ->
  predict_attrs phi lo hi (train o X Y s).1 X = Ok Y /\
  predict_attrs phi lo hi (train (train o X Y s).1 X Y' s').1 X =
    Ok (\col_i Rplus (mean Y') (Rmult (stdev Y') (normalize_output Y i 0))).
Proof.
move=> Hn Ho HY' He Er.
case Eg: (gp_train phi lo hi (plain o) X Y s) => [g|e']; last by move/train_raise_attrs: Eg; rewrite Ho.
have [Ep _] := @gp_interpolates _ _ _ _ _ _ (plain o) g X Y s Hn Eg.
have [_ [/(_ _ X) [-> _] _]] := train_answers Eg. split=> //.
rewrite (stale_mix Eg Ep HY' He Er); congr Ok; apply/matrixP => i j; rewrite !mxE; toR. have [HY _] := train_inv Eg. field. exact: HY.
Qed.
Lemma failed_kinds (o : attrs d p) n (X : 'M[R]_(n, d)) (Y : 'cV[R]_n) s e : ~ constant Y ->
  (train o X Y s).2 = Raise e -> e = UnboundLocalError \/ e = LinAlgError.
Proof.
move=> HY /train_raise_attrs; rewrite /gp_train; case: (Req_EM_T _ _) => [E|N] /=; first by case: (stdev_constant HY).
case Es: (hyper_search _ _ _) => [h|e'] /=.
  rewrite /gp_update; case Ek: (krig_fit _ _ _) => [m|e'] //= [<-]; right; exact: krig_fit_raise Ek.
case=> <-. apply: search_raise Es => q e1. rewrite /loglik; case Ek: (krig_fit _ _ _) => [m|e2] //= [<-]. exact: krig_fit_raise Ek.
Qed.
End State.

(** ** a concrete failure: two points on a line, responses 0 and 1, then 2 and 0 with a search that finds nothing *)
Definition fx_X : 'M[R]_(2, 1) := \matrix_(i, k) INR i.
Definition fx_Y : 'cV[R]_2 := \col_i INR i.
Definition fx_Y' : 'cV[R]_2 := \col_i Rmult 2 (Rminus 1 (INR i)).
Definition fx_lo : 'rV[R]_1 := 0.
Definition fx_hi : 'rV[R]_1 := const_mx 1.
Definition fx_search : search (hyper 1) := Lbfgs (fun _ => Trial [:: Hyper 0 1] (Hyper 0 1) f1).
Definition fx_nothing : search (hyper 1) := Lbfgs (fun _ => Trial [:: Hyper 0 1] (Hyper 0 1) fnan).
Lemma fx_varied : ~ constant fx_Y. Proof. by move=> /(_ 0 1); rewrite !mxE => E; apply: R1_neq_R0. Qed.
Lemma fx_varied' : ~ constant fx_Y'. Proof. by move=> /(_ 0 1); rewrite !mxE => E; move: E => /=; toR; lra. Qed.
Lemma fx_ok : call_ok (Call fx_X fx_Y fx_search). Proof. by split; [exact: fx_varied|move=> i /=; left]. Qed.
Lemma fx_ok' : call_ok (Call fx_X fx_Y' fx_nothing). Proof. by split; [exact: fx_varied'|move=> i /=; left]. Qed.
Definition fx_o noise : attrs 1 1 := attrs_new 1 1 noise 0.
Definition fx_o1 noise := (train_attrs (@Ordinary 1) fx_lo fx_hi (fx_o noise) fx_X fx_Y fx_search).1.
Lemma fx_trained noise : (train_attrs (@Ordinary 1) fx_lo fx_hi (fx_o noise) fx_X fx_Y fx_search).2 = Ok tt.
Proof.
have [g Eg] : exists g, gp_train (@Ordinary 1) fx_lo fx_hi (plain (fx_o noise)) fx_X fx_Y fx_search = Ok g.
  by apply: gp_train_ordinary; [exact: fx_varied|exists 0%N].
exact: (train_answers Eg).1.
Qed.
Lemma fx_fails (o : attrs 1 1) : a_restart o = 0%N -> (train_attrs (@Ordinary 1) fx_lo fx_hi o fx_X fx_Y' fx_nothing).2 = Raise UnboundLocalError.
Proof.
move=> Hr; apply/train_raise_attrs; rewrite /gp_train; case: (Req_EM_T _ _) => [E|HY]; first by case: (stdev_constant fx_varied').
rewrite /= Hr. have [v ->] := @loglik_ok 1 1 (@Ordinary 1) 2 (a_noise o) (normalize_input fx_lo fx_hi fx_X) (normalize_output fx_Y') (stdev fx_Y') (a_kernel o) (Hyper 0 1) (@ordinary_full 1 2 (normalize_input fx_lo fx_hi fx_X) isT).
by [].
Qed.
Lemma fx_restart noise : a_restart (fx_o1 noise) = 0%N.
Proof.
have [g Eg] : exists g, gp_train (@Ordinary 1) fx_lo fx_hi (plain (fx_o noise)) fx_X fx_Y fx_search = Ok g.
  by apply: gp_train_ordinary; [exact: fx_varied|exists 0%N].
have [_ [_ [_ [E _]]]] := train_answers Eg. by rewrite [LHS]E; have [_ [h [m [_ [_ ->]]]]] := train_inv Eg.
Qed.
Lemma rollback_refuted : exists n (X : 'M[R]_(n, 1)) (Y Y' Z : 'cV[R]_n) s s' e (o := attrs_new 1 1 (Some R0) 0),
  call_ok (Call X Y s) /\ call_ok (Call X Y' s') /\
  let o1 := train_attrs (@Ordinary 1) fx_lo fx_hi o X Y s in
  let o2 := train_attrs (@Ordinary 1) fx_lo fx_hi o1.1 X Y' s' in
  o1.2 = Ok tt /\ o2.2 = Raise e /\
  predict_attrs (@Ordinary 1) fx_lo fx_hi o1.1 X = Ok Y /\ predict_attrs (@Ordinary 1) fx_lo fx_hi o2.1 X = Ok Z /\ Z <> Y /\ Z <> Y'.
Proof.
exists 2%N, fx_X, fx_Y, fx_Y', (\col_i Rplus (mean fx_Y') (Rmult (stdev fx_Y') (normalize_output fx_Y i 0))), fx_search, fx_nothing, UnboundLocalError.
split; first exact: fx_ok. split; first exact: fx_ok'. move=> o1 o2.
have E1 : o1.2 = Ok tt by exact: fx_trained. split=> //.
have E2 : o2.2 = Raise UnboundLocalError by apply: fx_fails; exact: fx_restart. split=> //.
have [A B] := @stale_sites _ _ (@Ordinary 1) fx_lo fx_hi (fx_o (Some R0)) _ fx_X fx_Y fx_Y' fx_search fx_nothing UnboundLocalError erefl E1 fx_varied' (fx_ok').2 E2.
split; first exact: A. split; first exact: B.
have HY := stdev_constant fx_varied. have HY' := stdev_constant fx_varied'.
have P := stdev_ge0 fx_Y; have P' := stdev_ge0 fx_Y'.
have M : mean fx_Y = Rdiv 1 2 by rewrite /mean !big_ord_recl big_ord0 !mxE /=; toR; field.
have M' : mean fx_Y' = 1 by rewrite /mean !big_ord_recl big_ord0 !mxE /=; toR; field.
set a := stdev fx_Y'; set b := stdev fx_Y. 
have Z0 : forall i, (\col_i Rplus (mean fx_Y') (Rmult a (normalize_output fx_Y i 0))) i 0 = Rplus 1 (Rmult a (Rdiv (Rminus (INR (i : 'I_2)) (Rdiv 1 2)) b)).
  by move=> i; rewrite !mxE M M' -/b.
have Q : (0 < Rdiv a b)%Re by apply: Rdiv_lt_0_compat; rewrite /a /b; lra.
split=> /matrixP E; have := E 0 0; have := E 1 0; rewrite !Z0 !mxE /=; toR; rewrite /Rdiv -/(Rdiv a b).
  have -> : (a * ((1 - 1 * / 2) * / b) = (a / b) * (1 / 2))%Re by field; rewrite /b; lra.
  have -> : (a * ((0 - 1 * / 2) * / b) = - (a / b) * (1 / 2))%Re by field; rewrite /b; lra.
  move: Q; move: (a / b)%Re => q. lra.
have -> : (a * ((1 - 1 * / 2) * / b) = (a / b) * (1 / 2))%Re by field; rewrite /b; lra.
move: Q; move: (a / b)%Re => q. lra.
Qed.
