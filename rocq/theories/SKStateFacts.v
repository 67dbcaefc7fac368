(** Proofs about failed trainings of a scaled Kriging model. *)
From Coq Require Import Reals Lra.
From Verif Require Import Fl FlFacts.
From mathcomp Require Import all_ssreflect all_algebra.
From Verif Require Import RStruct LinAlg LinSpec LinAlgFacts Kernel KernelFacts Krig KrigFacts GP GPSpec GPFacts GPMain MF MFMain GPState GPStateSpec GPStateFacts SKState SKStateSpec.
Set Implicit Arguments.
Unset Strict Implicit.
Unset Printing Implicit Defensive.
Import GRing.Theory.
Local Open Scope ring_scope.

Local Arguments chol : simpl never.
Section State.
Variables (d : nat) (lo hi : 'rV[R]_d).
Local Notation Ord := (@Ordinary d).
Local Notation gtrain := (train_attrs Ord lo hi).
Local Notation train := (sk_train_attrs lo hi).

(** ** agreement with MF.v *)
Definition alike (o : attrs d 1) (g : gp d 1) : Prop :=
  gp_noise g = a_noise o /\ gp_restart g = a_restart o.
Lemma gp_alike n (o : attrs d 1) (g : gp d 1) (X : 'M[R]_(n, d)) (Y : 'cV[R]_n) s : alike o g ->
  match gp_train Ord lo hi g X Y s with
  | Ok g' => (gtrain o X Y s).2 = Ok tt /\ same_answers Ord lo hi (gtrain o X Y s).1 g' /\ alike (gtrain o X Y s).1 g'
  | Raise e => (gtrain o X Y s).2 = Raise e
  end.
Proof.
case=> E1 E2. have -> : gp_train Ord lo hi g X Y s = gp_train Ord lo hi (plain o) X Y s by rewrite /gp_train /gp_update /= E1 E2.
case E: (gp_train _ _ _ _ _ _ _) => [g'|e].
  by have [H1 [H2 [H3 [H4 H5]]]] := train_answers E.
exact/train_raise_attrs.
Qed.
Lemma bumps_alike n (o : attrs d 1) (g : gp d 1) (X : 'M[R]_(n, d)) (Y P : 'cV[R]_n) qs : alike o g ->
  match sk_bumps lo hi g X Y P qs with
  | Ok g' => (bumps_attrs lo hi o X Y P qs).2 = Ok tt /\ alike (bumps_attrs lo hi o X Y P qs).1 g'
  | Raise e => (bumps_attrs lo hi o X Y P qs).2 = Raise e
  end.
Proof.
elim: qs o g => [|[rho s] qs IH] o g A //=.
have := gp_alike X (sk_disc_data Y P rho) s A; case: (gp_train _ _ _ _ _ _ _) => [g'|e] /=; last by move=> H; rewrite H.
case=> -> [_ A'] /=; exact: IH.
Qed.
Lemma sk_alike nh nl (o : sk_attrs d) (g : sk d) (Xh : 'M[R]_(nh, d)) (Yh : 'cV[R]_nh) (Xl : 'M[R]_(nl, d)) (Yl : 'cV[R]_nl) sl sr sh :
  alike (s_lf o) (sk_lf g) -> alike (s_disc o) (sk_disc g) -> s_kernel o = sk_kernel g -> (rho_fixed sr -> s_rho o = sk_rho g) ->
  match sk_train lo hi g Xh Yh Xl Yl sl sr sh with
  | Ok g' => (train o Xh Yh Xl Yl sl sr sh).2 = Ok tt /\ sk_same_answers lo hi (train o Xh Yh Xl Yl sl sr sh).1 g'
  | Raise e => (train o Xh Yh Xl Yl sl sr sh).2 = Raise e
  end.
Proof.
move=> Al Ad Ek Er0; rewrite /sk_train /sk_train_attrs.
have := gp_alike Xl Yl sl Al; case: (gp_train _ _ _ _ _ _ _) => [lf|e] /=; last by move=> ->.
case=> -> [Ql Al'] /=. rewrite /sk_train_hf_attrs /= (Ql _ Xh).1.
case: (gp_predict _ _ _ _ _) => [P|e] //=.
have : match sk_rho_optimize lo hi g Xh Yh P sr with
  | Ok rd => (rho_attrs lo hi (s_disc o) (s_rho o) Xh Yh P sr).2 = Ok rd.1 /\ alike (rho_attrs lo hi (s_disc o) (s_rho o) Xh Yh P sr).1 rd.2
  | Raise e => (rho_attrs lo hi (s_disc o) (s_rho o) Xh Yh P sr).2 = Raise e
  end.
  case: sr Er0 => [Er0|r _|qs r _|_] //=; first by rewrite Er0.
  have := bumps_alike Xh Yh P qs Ad; case: (sk_bumps _ _ _ _ _ _ _) => [g'|e] /=; last by move=> ->.
  by case=> -> A'.
case: (sk_rho_optimize _ _ _ _ _ _ _) => [[rho disc]|e] /=; last by move=> ->.
case: (rho_attrs _ _ _ _ _ _ _ _) => [disc' r'] /= [-> A2].
have := gp_alike Xh (sk_disc_data Yh P rho) sh A2; case: (gp_train _ _ _ _ _ _ _) => [disc2|e] /=; last by move=> ->.
case=> -> [Qd A3] /=; split=> //; split=> //; split=> //=; split; first by case: A3.
move=> m Xq; rewrite /sk_predict_lf_attrs /sk_predict_attrs /sk_predict_std_attrs /sk_predict /sk_predict_std /=.
by have [-> ->] := Ql _ Xq; have [-> ->] := Qd _ Xq.
Qed.
Lemma sk_agrees nh nl (o : sk_attrs d) (Xh : 'M[R]_(nh, d)) (Yh : 'cV[R]_nh) (Xl : 'M[R]_(nl, d)) (Yl : 'cV[R]_nl) sl sr sh :
  match sk_train lo hi (plain_sk o) Xh Yh Xl Yl sl sr sh with
  | Ok g => (train o Xh Yh Xl Yl sl sr sh).2 = Ok tt /\ sk_same_answers lo hi (train o Xh Yh Xl Yl sl sr sh).1 g
  | Raise e => (train o Xh Yh Xl Yl sl sr sh).2 = Raise e
  end.
Proof. exact: sk_alike. Qed.

(** ** histories *)
Lemma gtrain_restart n (o : attrs d 1) (X : 'M[R]_(n, d)) (Y : 'cV[R]_n) s : a_restart (gtrain o X Y s).1 = a_restart o.
Proof. exact: (attempts_restart Ord lo hi o [:: Call X Y s]). Qed.
Lemma gtrain_noise n (o : attrs d 1) (X : 'M[R]_(n, d)) (Y : 'cV[R]_n) s v : a_noise o = Some v -> a_noise (gtrain o X Y s).1 = Some v.
Proof. by move=> H; exact: (attempts_noise Ord lo hi [:: Call X Y s] H). Qed.
Lemma bumps_keeps n (o : attrs d 1) (X : 'M[R]_(n, d)) (Y P : 'cV[R]_n) qs :
  a_restart (bumps_attrs lo hi o X Y P qs).1 = a_restart o /\
  forall v, a_noise o = Some v -> a_noise (bumps_attrs lo hi o X Y P qs).1 = Some v.
Proof.
elim: qs o => [|[rho s] qs IH] o //=.
case E: (gtrain _ _ _ _).2 => [u|e] /=; last by split=> [|v Hv]; [exact: gtrain_restart|exact: gtrain_noise].
have [-> H] := IH (gtrain o X (sk_disc_data Y P rho) s).1; split=> [|v Hv]; first exact: gtrain_restart.
by apply: H; exact: gtrain_noise.
Qed.
Lemma rho_keeps n (o : attrs d 1) r (X : 'M[R]_(n, d)) (Y P : 'cV[R]_n) sr :
  a_restart (rho_attrs lo hi o r X Y P sr).1 = a_restart o /\
  forall v, a_noise o = Some v -> a_noise (rho_attrs lo hi o r X Y P sr).1 = Some v.
Proof. case: sr => [|r'|qs r'|] //=; exact: bumps_keeps. Qed.
(** what no call changes *)
Definition keeps (o o' : sk_attrs d) : Prop :=
  [/\ a_restart (s_lf o') = a_restart (s_lf o), a_restart (s_disc o') = a_restart (s_disc o), s_kernel o' = s_kernel o,
      forall v, a_noise (s_lf o) = Some v -> a_noise (s_lf o') = Some v &
      forall v, a_noise (s_disc o) = Some v -> a_noise (s_disc o') = Some v].
Lemma train_keeps nh nl (o : sk_attrs d) (Xh : 'M[R]_(nh, d)) (Yh : 'cV[R]_nh) (Xl : 'M[R]_(nl, d)) (Yl : 'cV[R]_nl) sl sr sh :
  keeps o (train o Xh Yh Xl Yl sl sr sh).1.
Proof.
rewrite /sk_train_attrs; case: (gtrain _ _ _ _).2 => [u|e] /=; last first.
  by split=> //=; [exact: gtrain_restart|move=> v; exact: gtrain_noise].
rewrite /sk_train_hf_attrs /=; case: (predict_attrs _ _ _ _ _) => [P|e] /=; last first.
  by split=> //=; [exact: gtrain_restart|move=> v; exact: gtrain_noise].
have [R1 R2] := rho_keeps (s_disc o) (s_rho o) Xh Yh P sr.
case: (rho_attrs _ _ _ _ _ _ _ _) R1 R2 => [disc [rho|e]] /= R1 R2; last first.
  by split=> //=; [exact: gtrain_restart|move=> v; exact: gtrain_noise].
by case: (gtrain disc _ _ _).2 => [v|e] /=; split=> //=; rewrite ?gtrain_restart // => w; first [exact: gtrain_noise|move/R2; exact: gtrain_noise].
Qed.
Lemma keeps_trans o1 o2 o3 : keeps o1 o2 -> keeps o2 o3 -> keeps o1 o3.
Proof. by case=> A1 A2 A3 A4 A5 [B1 B2 B3 B4 B5]; split; [rewrite B1|rewrite B2|rewrite B3|move=> v /A4/B4|move=> v /A5/B5]. Qed.
Lemma attempts_keeps o cs : keeps o (sk_attempts lo hi o cs).
Proof.
elim: cs o => [|c cs IH] o //; rewrite /sk_attempts /= -/(sk_attempts _ _ _ _).
by apply: keeps_trans (IH _); exact: train_keeps.
Qed.
Lemma fixed_rho o cs : all (fun c => rho_fixed (q_sr c)) cs -> s_rho (sk_attempts lo hi o cs) = s_rho o.
Proof.
elim: cs o => [|c cs IH] o //= /andP [Hc H]; rewrite /sk_attempts /= -/(sk_attempts _ _ _ _) IH //.
case: c Hc {IH H} => nh nl Xh Yh Xl Yl sl [] // sh _; rewrite /sk_attempt /sk_train_attrs /=.
case: (gtrain _ _ _ _).2 => [u|e] //=. rewrite /sk_train_hf_attrs /=; case: (predict_attrs _ _ _ _ _) => [P|e] //=.
by case: (gtrain _ _ _ _).2.
Qed.
Lemma sk_forgets noise r cs c : (rho_fixed (q_sr c) -> all (fun c => rho_fixed (q_sr c)) cs) ->
  let o := sk_attempts lo hi (sk_attrs_new d (Some noise) r) cs in
  match sk_train lo hi (sk_new d (Some noise) r) (q_Xh c) (q_Yh c) (q_Xl c) (q_Yl c) (q_sl c) (q_sr c) (q_sh c) with
  | Ok g => (sk_attempt lo hi o c).2 = Ok tt /\ sk_same_answers lo hi (sk_attempt lo hi o c).1 g
  | Raise e => (sk_attempt lo hi o c).2 = Raise e
  end.
Proof.
move=> Hf o. have [R1 R2 K1 N1 N2] := attempts_keeps (sk_attrs_new d (Some noise) r) cs.
apply: sk_alike => //=; rewrite -/o; [by split; [rewrite (N1 noise)|rewrite R1]|by split; [rewrite (N2 noise)|rewrite R2]|].
by move=> /Hf H; rewrite (fixed_rho _ H).
Qed.
(** the noise attribute *)
Definition noise_inv (o : sk_attrs d) : Prop := s_noise o = None \/ s_noise o = a_noise (s_disc o) /\ a_noise (s_disc o) <> None.
Lemma gtrain_learns n (o : attrs d 1) (X : 'M[R]_(n, d)) (Y : 'cV[R]_n) s : (gtrain o X Y s).2 = Ok tt ->
  exists h, result_of s (a_restart o) h /\ a_noise (gtrain o X Y s).1 = Some (if a_noise o is Some v then v else Rmult (h_sigma h) (stdev Y)).
Proof.
case E: (gp_train Ord lo hi (plain o) X Y s) => [g|e]; last by move/train_raise_attrs: E => ->.
move=> _; have [_ [_ [En _]]] := train_answers E. have [HY [h [m [Hs [Hk Hg]]]]] := train_inv E.
exists h; split; first exact: search_result Hs. by rewrite En Hg.
Qed.

(** ** what a failed call leaves behind *)
Local Notation put a X Y := (with_data lo hi a X Y).
Lemma gtrain_failed n (o : attrs d 1) (X : 'M[R]_(n, d)) (Y : 'cV[R]_n) s e : evaluated s -> e <> ExternalError ->
  (gtrain o X Y s).2 = Raise e -> gtrain o X Y s = (put o X Y, Raise e).
Proof.
move=> He Ne; rewrite /train_attrs; case: (Req_EM_T _ _) => [E|N] /=; first by case=> E'; case: Ne.
case Es: (hyper_search _ _ _) => [h|e'] /=; last by case=> ->.
have [v] := search_evaluated He Es; rewrite /loglik kernel_callE.
have -> : (if a_noise o is Some s0 then Rdiv s0 (stdev Y) else h_sigma h) =
   Rdiv (if a_noise o is Some s0 then s0 else Rmult (h_sigma h) (stdev Y)) (stdev Y).
  by case: (a_noise o) => [s0|] //; field.
case Em: (krig_fit _ _ _) => [m|//] /= _.
by have [alpha ->] := @update_ok d 1 Ord n (put_opt (put o X Y) h) (normalize_input lo hi X) (normalize_output Y) (stdev Y) h m Em.
Qed.
Lemma gtrain_gp n (o : attrs d 1) (X : 'M[R]_(n, d)) (Y : 'cV[R]_n) s : (gtrain o X Y s).2 = Ok tt ->
  exists g, gp_train Ord lo hi (plain o) X Y s = Ok g.
Proof. by case E: (gp_train Ord lo hi (plain o) X Y s) => [g|e]; [exists g|move/train_raise_attrs: E => ->]. Qed.
Lemma gtrain_predict n (o : attrs d 1) (X : 'M[R]_(n, d)) (Y : 'cV[R]_n) s m (Xq : 'M[R]_(m, d)) : (gtrain o X Y s).2 = Ok tt ->
  exists mu sd, predict_attrs Ord lo hi (gtrain o X Y s).1 Xq = Ok mu /\ predict_std_attrs Ord lo hi (gtrain o X Y s).1 Xq = Ok (mu, sd).
Proof.
case/gtrain_gp => g Eg. have [mu [sd [E1 E2]]] := gp_predict_ok Xq Eg.
have [_ [Q _]] := train_answers Eg. exists mu, sd; by rewrite (Q _ Xq).1 (Q _ Xq).2.
Qed.
Lemma stale n n' (o : attrs d 1) (X : 'M[R]_(n, d)) (Y : 'cV[R]_n) s (X' : 'M[R]_(n', d)) (Y' : 'cV[R]_n') m (Xq : 'M[R]_(m, d)) :
  (gtrain o X Y s).2 = Ok tt ->
  if n' == n then
    exists mu sd, predict_attrs Ord lo hi (put (gtrain o X Y s).1 X' Y') Xq = Ok mu /\
      predict_std_attrs Ord lo hi (put (gtrain o X Y s).1 X' Y') Xq = Ok (mu, sd)
  else predict_attrs Ord lo hi (put (gtrain o X Y s).1 X' Y') Xq = Raise ValueError /\
    predict_std_attrs Ord lo hi (put (gtrain o X Y s).1 X' Y') Xq = Raise ValueError.
Proof.
case/gtrain_gp => g Eg. have [h [alpha [k [HY [Hf [Et _]]]]]] := train_ok_attrs Eg. rewrite Et.
case: eqP => N.
  move: X' Y'; rewrite N => X' Y'.
  rewrite /predict_std_attrs /predict_attrs /= !with_rows_id with_order_id /=.
  rewrite (chol_solve_ok _ (fs_K Hf).1 (fs_L Hf)) /= (chol_solve_ok _ (fs_N Hf).1 (fs_ld Hf)) /=.
  by eexists; eexists.
have P : predict_attrs Ord lo hi (put (fitted (put_opt (put o X Y) h) (normalize_input lo hi X) (normalize_output Y) (stdev Y) h alpha k) X' Y') Xq = Raise ValueError.
  by rewrite /predict_attrs /= with_rows_ne // => E; apply: N.
by split=> //; rewrite /predict_std_attrs P.
Qed.
Lemma stale_same n (o : attrs d 1) (X : 'M[R]_(n, d)) (Y Y' : 'cV[R]_n) s m (Xq : 'M[R]_(m, d)) mu :
  (gtrain o X Y s).2 = Ok tt -> predict_attrs Ord lo hi (gtrain o X Y s).1 Xq = Ok mu ->
  predict_attrs Ord lo hi (put (gtrain o X Y s).1 X Y') Xq =
    Ok (\col_j Rplus (mean Y') (Rmult (Rdiv (stdev Y') (stdev Y)) (Rminus (mu j 0) (mean Y)))).
Proof.
case/gtrain_gp => g Eg. have [h [alpha [k [HY [Hf [Et _]]]]]] := train_ok_attrs Eg. rewrite Et.
rewrite /predict_attrs /= !with_rows_id /= => -[<-]; congr Ok.
apply/matrixP => i j; rewrite [LHS]mxE [RHS]mxE [in RHS]mxE. move: (fun_of_matrix (_ *m _ + _) i 0) => u. toR. field. exact: HY.
Qed.

(** the trainings of the discrepancy model in one call *)
Notation tries X Y P qs := [seq Call X (sk_disc_data Y P q.1) q.2 | q <- qs].
Lemma succeeded_cons (o : attrs d 1) c cs : succeeded Ord lo hi o (c :: cs) = c :: cs ->
  (attempt Ord lo hi o c).2 = Ok tt /\ succeeded Ord lo hi (attempt Ord lo hi o c).1 cs = cs.
Proof.
have Q : forall o l, (size (succeeded Ord lo hi o l) <= size l)%N.
  move=> o' l; elim: l o' => [|a l IH] o' //=. case: (attempt _ _ _ _ _).2 => [u|e] /=; first exact: IH. by apply: leq_trans (IH _) _.
rewrite /=; case E: (attempt _ _ _ _ _).2 => [[]|e]; first by case=> ->.
by move=> H; have := Q (attempt Ord lo hi o c).1 cs; rewrite H /= ltnn.
Qed.
Lemma bumps_stages n (o : attrs d 1) (X : 'M[R]_(n, d)) (Y P : 'cV[R]_n) qs :
  List.Forall (fun q : R * search (hyper d) => evaluated q.2) qs ->
  match (bumps_attrs lo hi o X Y P qs).2 with
  | Ok _ => succeeded Ord lo hi o (tries X Y P qs) = tries X Y P qs /\ (bumps_attrs lo hi o X Y P qs).1 = attempts Ord lo hi o (tries X Y P qs)
  | Raise e => e <> ExternalError -> exists qs1 q qs2, qs = qs1 ++ q :: qs2 /\
      succeeded Ord lo hi o (tries X Y P qs1) = tries X Y P qs1 /\
      (gtrain (attempts Ord lo hi o (tries X Y P qs1)) X (sk_disc_data Y P q.1) q.2).2 = Raise e /\
      (bumps_attrs lo hi o X Y P qs).1 = put (attempts Ord lo hi o (tries X Y P qs1)) X (sk_disc_data Y P q.1)
  end.
Proof.
elim: qs o => [|[rho s] qs IH] o H //=. rewrite /attempt /=.
have [Hs Hq] : evaluated s /\ List.Forall (fun q : R * search (hyper d) => evaluated q.2) qs by inversion H.
case E: (gtrain _ _ _ _).2 => [u|e] /=; last first.
  move=> Ne; exists [::], (rho, s), qs; split=> //; split=> //; split; first by rewrite /attempts /= E.
  by rewrite /attempts /= (gtrain_failed Hs Ne E).
have := IH (gtrain o X (sk_disc_data Y P rho) s).1 Hq.
case E2: (bumps_attrs _ _ _ _ _ _ _).2 => [u2|e] /=; first by case=> H1 H2; split; [rewrite H1|rewrite H2].
move=> H' /H' [qs1 [q [qs2 [-> [H1 [H2 H3]]]]]]; exists ((rho, s) :: qs1), q, qs2; split=> //.
by split; [rewrite /= /attempt /= E H1|split].
Qed.

Theorem sk_failed nh nl (o : sk_attrs d) (Xh : 'M[R]_(nh, d)) (Yh : 'cV[R]_nh) (Xl : 'M[R]_(nl, d)) (Yl : 'cV[R]_nl) sl sr sh e :
  evaluated sl -> rho_evaluated sr -> evaluated sh -> e <> ExternalError ->
  (train o Xh Yh Xl Yl sl sr sh).2 = Raise e ->
  let l := gtrain (s_lf o) Xl Yl sl in
  let after disc rho := SKAttrs l.1 (Some (Columns Xl)) (Some (HFData Xh Yh)) disc rho (s_kernel o) (s_noise o) in
  (l.2 = Raise e /\ (train o Xh Yh Xl Yl sl sr sh).1 = SKAttrs (put (s_lf o) Xl Yl) (s_xl o) (s_hf o) (s_disc o) (s_rho o) (s_kernel o) (s_noise o)) \/
  (l.2 = Ok tt /\ sr = RhoOther d /\ e = UnboundLocalError /\ (train o Xh Yh Xl Yl sl sr sh).1 = after (s_disc o) (s_rho o)) \/
  (l.2 = Ok tt /\ exists pred before Y s later, predict_attrs Ord lo hi l.1 Xh = Ok pred /\
     disc_calls Xh Yh pred (s_rho o) sr sh = before ++ Call Xh Y s :: later /\
     succeeded Ord lo hi (s_disc o) before = before /\
     (gtrain (attempts Ord lo hi (s_disc o) before) Xh Y s).2 = Raise e /\
     (train o Xh Yh Xl Yl sl sr sh).1 =
       after (put (attempts Ord lo hi (s_disc o) before) Xh Y) (if later is [::] then rho_chosen sr (s_rho o) else s_rho o)).
Proof.
move=> Hl Hr Hh Ne; rewrite /sk_train_attrs.
case El: (gtrain _ _ _ _).2 => [[]|e'] /=; last first.
  by case=> E'; subst e'; left; split=> //; rewrite (gtrain_failed Hl Ne El).
have [P [_ [EP _]]] := gtrain_predict Xh El.
rewrite /sk_train_hf_attrs /= EP /= => H; right.
case: sr Hr H => [|r|qs r|] Hr /=.
- case E: (gtrain _ _ _ _).2 => [u|e'] //= [E']; subst e'; right; split=> //.
  exists P, [::], (sk_disc_data Yh P (s_rho o)), sh, [::]; split=> //; split=> //; split=> //; split=> //.
  by rewrite (gtrain_failed Hh Ne E).
- case E: (gtrain _ _ _ _).2 => [u|e'] //= [E']; subst e'; right; split=> //.
  exists P, [::], (sk_disc_data Yh P r), sh, [::]; split=> //; split=> //; split=> //; split=> //.
  by rewrite (gtrain_failed Hh Ne E).
- have := bumps_stages (s_disc o) Xh Yh P Hr; rewrite /disc_calls /=.
  case: (bumps_attrs _ _ _ _ _ _ _) => disc [u|e'] /=.
    case=> H1 H2; rewrite H2; case E: (gtrain _ _ _ _).2 => [u2|e'] //= [E']; subst e'; right; split=> //.
    exists P, (tries Xh Yh P qs), (sk_disc_data Yh P r), sh, [::]; split=> //; split; first by rewrite cats1.
    split=> //; split=> //. by rewrite (gtrain_failed Hh Ne E).
  move=> H1 [E']; subst e'; have [qs1 [q [qs2 [-> [H2 [H3 H4]]]]]] := H1 Ne; right; split=> //.
  exists P, (tries Xh Yh P qs1), (sk_disc_data Yh P q.1), q.2, (rcons (tries Xh Yh P qs2) (Call Xh (sk_disc_data Yh P r) sh)).
  split=> //; split; first by rewrite map_cat rcons_cat. split=> //; split=> //. rewrite H4.
  by case: (qs2).
- by case=> <-; left.
Qed.

(** ** predictions after a success and a failure *)
Lemma sk_success nh nl (o : sk_attrs d) (Xh : 'M[R]_(nh, d)) (Yh : 'cV[R]_nh) (Xl : 'M[R]_(nl, d)) (Yl : 'cV[R]_nl) sl sr sh :
  (train o Xh Yh Xl Yl sl sr sh).2 = Ok tt ->
  exists P disc, let l := gtrain (s_lf o) Xl Yl sl in
    let t := gtrain disc Xh (sk_disc_data Yh P (rho_chosen sr (s_rho o))) sh in
    [/\ l.2 = Ok tt, predict_attrs Ord lo hi l.1 Xh = Ok P, t.2 = Ok tt, rho_attrs lo hi (s_disc o) (s_rho o) Xh Yh P sr = (disc, Ok (rho_chosen sr (s_rho o))) &
     (train o Xh Yh Xl Yl sl sr sh).1 =
       SKAttrs l.1 (Some (Columns Xl)) (Some (HFData Xh Yh)) t.1 (rho_chosen sr (s_rho o)) (s_kernel o) (a_noise t.1)].
Proof.
rewrite /sk_train_attrs; case El: (gtrain _ _ _ _).2 => [[]|e] //=.
have [P [_ [EP _]]] := gtrain_predict Xh El. rewrite /sk_train_hf_attrs /= EP /= => H; exists P.
case: sr H => [|r|qs r|] //=.
- by case Ed: (gtrain _ _ _ _).2 => [[]|e] //= _; exists (s_disc o); split.
- by case Ed: (gtrain _ _ _ _).2 => [[]|e] //= _; exists (s_disc o); split.
- case: (bumps_attrs _ _ _ _ _ _ _) => disc [u|e] //=.
  by case Ed: (gtrain _ _ _ _).2 => [[]|e] //= _; exists disc; split.
Qed.
Ltac both H1 H2 H3 H4 := rewrite /sk_predict_attrs /sk_predict_std_attrs /= H1 H2 H3 H4 /=; split; eexists; reflexivity.
Section Twice.
Variables (nh nl nh' nl' : nat) (o : sk_attrs d) (Xh : 'M[R]_(nh, d)) (Yh : 'cV[R]_nh) (Xl : 'M[R]_(nl, d)) (Yl : 'cV[R]_nl).
Variables (sl : search (hyper d)) (sr : rho_search d) (sh : search (hyper d)).
Variables (Xh' : 'M[R]_(nh', d)) (Yh' : 'cV[R]_nh') (Xl' : 'M[R]_(nl', d)) (Yl' : 'cV[R]_nl').
Variables (sl' : search (hyper d)) (sr' : rho_search d) (sh' : search (hyper d)) (e : exn).
Let o1 := train o Xh Yh Xl Yl sl sr sh.
Let o2 := train o1.1 Xh' Yh' Xl' Yl' sl' sr' sh'.
Let l2 := gtrain (s_lf o1.1) Xl' Yl' sl'.
Lemma sk_lf_sizes m (Xq : 'M[R]_(m, d)) : o1.2 = Ok tt -> evaluated sl' -> e <> ExternalError -> l2.2 = Raise e ->
  o2.2 = Raise e /\
  if nl' == nl then (exists mu, sk_predict_attrs lo hi o2.1 Xq = Ok mu) /\ (exists v, sk_predict_std_attrs lo hi o2.1 Xq = Ok v)
  else sk_predict_attrs lo hi o2.1 Xq = Raise ValueError /\ sk_predict_std_attrs lo hi o2.1 Xq = Raise ValueError.
Proof.
case/sk_success => P [disc [El _ Et _ E1]] He Ne; rewrite /l2 => E2.
have -> : o2 = (SKAttrs (put (s_lf o1.1) Xl' Yl') (s_xl o1.1) (s_hf o1.1) (s_disc o1.1) (s_rho o1.1) (s_kernel o1.1) (s_noise o1.1), Raise e).
  by rewrite /o2 /sk_train_attrs E2 (gtrain_failed He Ne E2).
split=> //=; rewrite /o1 E1 /=. have [mud [sdd [D1 D2]]] := gtrain_predict Xq Et.
have := stale Xl' Yl' Xq El; case: eqP => [_ [mu [sd [P1 P2]]]|_ [P1 P2]]; first both P1 P2 D1 D2.
by rewrite /sk_predict_attrs /sk_predict_std_attrs /= D1 P1 P2.
Qed.
Lemma sk_unknown m (Xq : 'M[R]_(m, d)) : o1.2 = Ok tt -> l2.2 = Ok tt -> sr' = RhoOther d ->
  o2.2 = Raise UnboundLocalError /\
  exists pl pd, predict_attrs Ord lo hi l2.1 Xq = Ok pl /\ predict_attrs Ord lo hi (s_disc o1.1) Xq = Ok pd /\
    sk_predict_attrs lo hi o2.1 Xq = Ok (\col_j Rplus (Rmult (pd j 0) (s_rho o1.1)) (pl j 0)) /\
    exists sd, sk_predict_std_attrs lo hi o2.1 Xq = Ok (\col_j Rplus (Rmult (s_rho o1.1) (pl j 0)) (pd j 0), sd).
Proof.
case/sk_success => P [disc [El _ Et _ E1]] E2 Er. have [P' [_ [EP' _]]] := gtrain_predict Xh' E2.
rewrite /o2 Er /sk_train_attrs -/l2 E2 /sk_train_hf_attrs /= EP' /=; split=> //.
have [mul [sdl [L1 L2]]] := gtrain_predict Xq E2. have [mud [sdd [D1 D2]]] := gtrain_predict Xq Et.
exists mul, mud; split=> //. rewrite /sk_predict_attrs /sk_predict_std_attrs /= /o1 E1 /= -/o1. rewrite D1 D2 /= L1 L2 /=.
by split=> //; split=> //; eexists.
Qed.
Lemma attempts_rcons (a : attrs d 1) cs c : attempts Ord lo hi a (rcons cs c) = (attempt Ord lo hi (attempts Ord lo hi a cs) c).1.
Proof. by rewrite /attempts foldl_rcons. Qed.
Lemma succeeded_rcons (a : attrs d 1) cs c : succeeded Ord lo hi a (rcons cs c) = rcons cs c ->
  (attempt Ord lo hi (attempts Ord lo hi a cs) c).2 = Ok tt.
Proof.
elim: cs a => [|b cs IH] a; first by rewrite /=; case: (attempt _ _ _ _ _).2 => [[]|].
by rewrite rcons_cons => /succeeded_cons [_ /IH H].
Qed.
Lemma disc_calls_sites n (X : 'M[R]_(n, d)) (Y P : 'cV[R]_n) r s1 s2 :
  List.Forall (fun c => exists Y s, c = Call X Y s) (disc_calls X Y P r s1 s2).
Proof.
rewrite /disc_calls; elim: (rho_tried s1) => [|q qs IH] /=; first by constructor; [eexists; eexists|constructor].
by constructor; [eexists; eexists|].
Qed.
Lemma sk_disc_sizes : o1.2 = Ok tt ->
  evaluated sl' -> rho_evaluated sr' -> evaluated sh' -> e <> ExternalError -> o2.2 = Raise e ->
  l2.2 = Ok tt -> sr' <> RhoOther d ->
  exists pred before Y s later, predict_attrs Ord lo hi l2.1 Xh' = Ok pred /\
    disc_calls Xh' Yh' pred (s_rho o1.1) sr' sh' = before ++ Call Xh' Y s :: later /\
    succeeded Ord lo hi (s_disc o1.1) before = before /\
    forall m (Xq : 'M[R]_(m, d)),
    if (0 < size before)%N || (nh' == nh) then (exists mu, sk_predict_attrs lo hi o2.1 Xq = Ok mu) /\ (exists v, sk_predict_std_attrs lo hi o2.1 Xq = Ok v)
    else sk_predict_attrs lo hi o2.1 Xq = Raise ValueError /\ sk_predict_std_attrs lo hi o2.1 Xq = Raise ValueError.
Proof.
case/sk_success => P [disc [El _ Et _ E1]] H1 H2 H3 Ne E2 L2 N.
have := sk_failed H1 H2 H3 Ne E2; rewrite -/o2 -/l2.
case=> [[]|[[_ [/N]]|[_ [pred [before [Y [s [later [EP [Ec [Es [Ef E3]]]]]]]]]]]] //; first by rewrite L2.
exists pred, before, Y, s, later; split=> //; split=> //; split=> // m Xq.
rewrite E3. have [mul [sdl [Q1 Q2]]] := gtrain_predict Xq L2.
case: (lastP before) Ec Es Ef E3 => [|b0 b] Ec Es Ef E3 /=.
  rewrite /attempts /= /o1 E1 /=. have := stale Xh' Y Xq Et.
  case: eqP => [_ [mu [sd [P1 P2]]]|_ [P1 P2]]; first both Q1 Q2 P1 P2.
  by rewrite /sk_predict_attrs /sk_predict_std_attrs /= P1 P2 Q2.
rewrite size_rcons /=. have := disc_calls_sites Xh' Yh' pred (s_rho o1.1) sr' sh'; rewrite Ec.
case/List.Forall_app => F _; have [Yb [sb Eb]] : exists Y s, b = Call Xh' Y s.
  move: F {Ec Es Ef E3}; rewrite -cats1 => /List.Forall_app [_ F]; by inversion F.
have Eb2 := succeeded_rcons Es; rewrite attempts_rcons. move: Eb2; rewrite Eb /attempt /= => Eb2.
have := stale Xh' Y Xq Eb2; rewrite eqxx => -[mu [sd [P1 P2]]]. both Q1 Q2 P1 P2.
Qed.
End Twice.

(** the same sites: values *)
Lemma sk_lf_same_sites nh nl nh' (o : sk_attrs d) (Xh : 'M[R]_(nh, d)) (Yh : 'cV[R]_nh) (Xl : 'M[R]_(nl, d)) (Yl Yl' : 'cV[R]_nl) sl sr sh
    (Xh' : 'M[R]_(nh', d)) (Yh' : 'cV[R]_nh') sl' sr' sh' e m (Xq : 'M[R]_(m, d)) pl mu :
  let o1 := train o Xh Yh Xl Yl sl sr sh in
  let o2 := train o1.1 Xh' Yh' Xl Yl' sl' sr' sh' in
  o1.2 = Ok tt -> evaluated sl' -> e <> ExternalError -> (gtrain (s_lf o1.1) Xl Yl' sl').2 = Raise e ->
  sk_predict_lf_attrs lo hi o1.1 Xq = Ok pl -> sk_predict_attrs lo hi o1.1 Xq = Ok mu ->
  sk_predict_attrs lo hi o2.1 Xq =
    Ok (\col_j (mu j 0%R - pl j 0%R + (mean Yl' + stdev Yl' / stdev Yl * (pl j 0%R - mean Yl)))%Re).
Proof.
move=> o1 o2 /sk_success [P [disc [El _ Et _ E1]]] He Ne E2 Epl Emu.
have -> : o2 = (SKAttrs (put (s_lf o1.1) Xl Yl') (s_xl o1.1) (s_hf o1.1) (s_disc o1.1) (s_rho o1.1) (s_kernel o1.1) (s_noise o1.1), Raise e).
  by rewrite /o2 /sk_train_attrs E2 (gtrain_failed He Ne E2).
move: Epl Emu; rewrite /sk_predict_lf_attrs /sk_predict_attrs /o1 E1 /= => Epl.
rewrite (stale_same Yl' El Epl) Epl. case: (predict_attrs _ _ _ _ _) => [pd|//] /= [<-]; congr Ok.
apply/matrixP => i j; rewrite !mxE; toR; ring.
Qed.
Lemma sk_disc_same_sites nh nl nl' (o : sk_attrs d) (Xh : 'M[R]_(nh, d)) (Yh Yh' : 'cV[R]_nh) (Xl : 'M[R]_(nl, d)) (Yl : 'cV[R]_nl) sl sr sh
    (Xl' : 'M[R]_(nl', d)) (Yl' : 'cV[R]_nl') sl' sr' sh' e m (Xq : 'M[R]_(m, d)) P P' pd pl :
  let o1 := train o Xh Yh Xl Yl sl sr sh in
  let o2 := train o1.1 Xh Yh' Xl' Yl' sl' sr' sh' in
  o1.2 = Ok tt -> evaluated sh' -> e <> ExternalError -> o2.2 = Raise e ->
  (gtrain (s_lf o1.1) Xl' Yl' sl').2 = Ok tt -> rho_tried sr' = [::] -> sr' <> RhoOther d ->
  sk_predict_lf_attrs lo hi o1.1 Xh = Ok P -> sk_predict_lf_attrs lo hi o2.1 Xh = Ok P' ->
  predict_attrs Ord lo hi (s_disc o1.1) Xq = Ok pd -> sk_predict_lf_attrs lo hi o2.1 Xq = Ok pl ->
  let D := sk_disc_data Yh P (s_rho o1.1) in
  let rho' := rho_chosen sr' (s_rho o1.1) in
  let D' := sk_disc_data Yh' P' rho' in
  let pd' j := (mean D' + stdev D' / stdev D * (pd j 0%R - mean D))%Re in
  sk_predict_attrs lo hi o2.1 Xq = Ok (\col_j (rho' * pd' j + pl j 0%R)%Re) /\
  exists sd, sk_predict_std_attrs lo hi o2.1 Xq = Ok (\col_j (rho' * pl j 0%R + pd' j)%Re, sd).
Proof.
move=> o1 o2 /sk_success [P0 [disc [El EP0 Et _ E1]]] He Ne E2 L2 T N EP EP' Epd Epl D rho' D' pd'.
have [P2 [_ [EP2 _]]] := gtrain_predict Xh L2.
have EP0' : P0 = P by move: EP; rewrite /sk_predict_lf_attrs /o1 E1 /= EP0 => -[].
have E3 : exists t, o2.1 = SKAttrs (gtrain (s_lf o1.1) Xl' Yl' sl').1 (Some (Columns Xl')) (Some (HFData Xh Yh')) t rho' (s_kernel o1.1) (s_noise o1.1) /\
   t = put (s_disc o1.1) Xh (sk_disc_data Yh' P2 rho').
  move: E2; rewrite /o2 /sk_train_attrs L2 /sk_train_hf_attrs /= EP2 /=.
  have -> : rho_attrs lo hi (s_disc o1.1) (s_rho o1.1) Xh Yh' P2 sr' = (s_disc o1.1, Ok rho').
    by rewrite /rho'; case: (sr') T N => [|r|qs r|] //= ->.
  rewrite /=; case E: (gtrain _ _ _ _).2 => [u|e'] //= [E']; subst e'.
  by eexists; split; first reflexivity; rewrite (gtrain_failed He Ne E).
move: E3 => [t [E3 Et2]]; have EP2' : P2 = P' by move: EP'; rewrite E3 /sk_predict_lf_attrs /= EP2 => -[].
subst P2 P0. have ED : predict_attrs Ord lo hi t Xq = Ok (\col_j pd' j).
  rewrite Et2 {1}/o1 E1 /=. move: Epd; rewrite {1}/o1 E1 /= => Epd. rewrite (stale_same D' Et Epd). congr Ok.
  by rewrite /pd' /D /o1 E1.
move: Epl; rewrite /sk_predict_attrs /sk_predict_std_attrs /sk_predict_lf_attrs E3 /= => Epl; rewrite ED Epl /=; split.
  congr Ok; apply/matrixP => i j; rewrite !mxE; toR; ring.
have [mul [sdl [Q1 Q2]]] := gtrain_predict Xq L2. rewrite Q2 /=.
have Emul : mul = pl by move: Epl; rewrite Q1 => -[].
have := stale Xh D' Xq Et; rewrite eqxx => -[mu [sd [S1 S2]]].
have Et3 : t = put (gtrain disc Xh (sk_disc_data Yh P (rho_chosen sr (s_rho o))) sh).1 Xh D' by rewrite Et2 {1}/o1 E1.
move: ED; rewrite Et3 S1 S2 /= => -[->]. eexists; congr Ok; congr pair; rewrite Emul.
by apply/matrixP => i j; rewrite !mxE.
Qed.

(** ** the noise *)
Lemma sk_noise_attr noise r cs : let o := sk_attempts lo hi (sk_attrs_new d noise r) cs in
  s_kernel o = rbf_new 0 /\ (s_noise o = None \/ (s_noise o = a_noise (s_disc o) /\ a_noise (s_disc o) <> None)).
Proof.
move=> o; split; first by have [_ _ -> _ _] := attempts_keeps (sk_attrs_new d noise r) cs.
suff H : forall o, noise_inv o -> noise_inv (sk_attempts lo hi o cs) by apply: H; left.
move=> {o} ; elim: cs => [|c cs IH] o Ho //; rewrite /sk_attempts /= -/(sk_attempts _ _ _ _); apply: IH.
rewrite /sk_attempt; case E: (train o (q_Xh c) (q_Yh c) (q_Xl c) (q_Yl c) (q_sl c) (q_sr c) (q_sh c)).2 => [[]|e].
  have [P [disc [_ _ Et _ ->]]] := sk_success E; right => /=; split=> //.
  by have [h [_ ->]] := gtrain_learns Et.
have [_ _ _ _ N] := train_keeps o (q_Xh c) (q_Yh c) (q_Xl c) (q_Yl c) (q_sl c) (q_sr c) (q_sh c).
have -> : noise_inv (train o (q_Xh c) (q_Yh c) (q_Xl c) (q_Yl c) (q_sl c) (q_sr c) (q_sh c)).1 =
  noise_inv (SKAttrs (s_lf o) None None (train o (q_Xh c) (q_Yh c) (q_Xl c) (q_Yl c) (q_sl c) (q_sr c) (q_sh c)).1.(s_disc) 0 (s_kernel o) (s_noise o)).
  rewrite /noise_inv /=. congr (_ \/ _ /\ _); move: E; rewrite /sk_train_attrs; case: (gtrain _ _ _ _).2 => [u|e'] //=;
  rewrite /sk_train_hf_attrs /=; case: (predict_attrs _ _ _ _ _) => [P|e'] //=; case: (rho_attrs _ _ _ _ _ _ _ _) => [disc [rho|e']] //=;
  by case: (gtrain _ _ _ _).2.
case: Ho => [H|[H1 H2]]; [by left|right => /=].
by case Ed: (a_noise (s_disc o)) H1 H2 => [v|] // -> _; rewrite (N v).
Qed.
Lemma sk_learned nh nl (o : sk_attrs d) (Xh : 'M[R]_(nh, d)) (Yh : 'cV[R]_nh) (Xl : 'M[R]_(nl, d)) (Yl : 'cV[R]_nl) sl sr sh :
  a_noise (s_lf o) = None -> (gtrain (s_lf o) Xl Yl sl).2 = Ok tt ->
  exists h, result_of sl (a_restart (s_lf o)) h /\
    forall cs, a_noise (s_lf (sk_attempts lo hi (train o Xh Yh Xl Yl sl sr sh).1 cs)) = Some (h_sigma h * stdev Yl)%Re.
Proof.
move=> Hn E; have [h [Hh En]] := gtrain_learns E; exists h; split=> // cs.
have [_ _ _ N _] := attempts_keeps (train o Xh Yh Xl Yl sl sr sh).1 cs; apply: N.
have -> : s_lf (train o Xh Yh Xl Yl sl sr sh).1 = (gtrain (s_lf o) Xl Yl sl).1; last by rewrite En Hn.
rewrite /sk_train_attrs E /sk_train_hf_attrs /=; case: (predict_attrs _ _ _ _ _) => [P|e'] //=.
by case: (rho_attrs _ _ _ _ _ _ _ _) => [disc [rho|e']] //=; case: (gtrain _ _ _ _).2.
Qed.
Lemma sk_learned_disc nh nl (o : sk_attrs d) (Xh : 'M[R]_(nh, d)) (Yh : 'cV[R]_nh) (Xl : 'M[R]_(nl, d)) (Yl : 'cV[R]_nl) sl r s qs r' sh P :
  let l := gtrain (s_lf o) Xl Yl sl in
  a_noise (s_disc o) = None -> l.2 = Ok tt -> predict_attrs Ord lo hi l.1 Xh = Ok P ->
  (gtrain (s_disc o) Xh (sk_disc_data Yh P r) s).2 = Ok tt ->
  exists h, result_of s (a_restart (s_disc o)) h /\
    forall cs, a_noise (s_disc (sk_attempts lo hi (train o Xh Yh Xl Yl sl (RhoBumpiness ((r, s) :: qs) r') sh).1 cs)) =
      Some (h_sigma h * stdev (sk_disc_data Yh P r))%Re.
Proof.
move=> l Hn El EP E; have [h [Hh En]] := gtrain_learns E; exists h; split=> // cs.
have [_ _ _ _ N] := attempts_keeps (train o Xh Yh Xl Yl sl (RhoBumpiness ((r, s) :: qs) r') sh).1 cs; apply: N.
rewrite /sk_train_attrs El /sk_train_hf_attrs /= EP /= E /=.
have [_ N] := bumps_keeps (gtrain (s_disc o) Xh (sk_disc_data Yh P r) s).1 Xh Yh P qs.
move: N; rewrite En Hn => /(_ _ erefl). case: (bumps_attrs _ _ _ _ _ _ _) => disc [u|e] //= N.
by case: (gtrain _ _ _ _).2 => [u2|e] /=; apply: gtrain_noise.
Qed.
End State.
