(** Proofs about growing a low-fidelity model. *)
From Coq Require Import Reals Lra.
From Verif Require Import Fl FlFacts.
From mathcomp Require Import all_ssreflect all_algebra.
From Verif Require Import RStruct LinAlg LinSpec LinAlgFacts Kernel KernelFacts Krig KrigFacts GP GPSpec GPFacts GPMain MF CoKrig MFSpec CoKrigMain GPState GPStateSpec GPStateFacts CKState CKStateSpec CKStateFacts CKStateEx CKGrow CKGrowSpec.
Set Implicit Arguments.
Unset Strict Implicit.
Unset Printing Implicit Defensive.
Import GRing.Theory.
Local Open Scope ring_scope.

Local Arguments chol : simpl never.
Section Grow.
Variable d : nat.
Local Notation attrs := (attrs d 1).

Lemma train_data n (o : attrs) (X : 'M[R]_(n, d)) (Y : 'cV[R]_n) s : a_data (lgp_train_attrs o X Y s).1 = Some (Dataset X X Y Y).
Proof.
rewrite /lgp_train_attrs; cbv zeta. case: (hyper_search _ _ _) => [h|e]; last by [].
pose P (o' : attrs) := a_data o' = Some (Dataset X X Y Y).
suff: P (lgp_update_attrs (put_opt (put_data o (Dataset X X Y Y)) h) X Y h).1 by []. rewrite /lgp_update_attrs; cbv zeta.
by do 6 (apply: (@step_inv _ _ P); [by []|move=> ?]).
Qed.
(** a successful training leaves nothing of the object but its noise and its number of restarts *)
Lemma train_overwrites n (o o' : attrs) (X : 'M[R]_(n, d)) (Y : 'cV[R]_n) s : a_noise o = a_noise o' -> a_restart o = a_restart o' ->
  (lgp_train_attrs o X Y s).2 = (lgp_train_attrs o' X Y s).2 /\
  ((lgp_train_attrs o X Y s).2 = Ok tt -> lgp_train_attrs o X Y s = lgp_train_attrs o' X Y s).
Proof.
case: o => a1 a2 a3 a4 a5 a6 a7 a8 a9 a10 a11 a12 a13 a14; case: o' => b1 b2 b3 b4 b5 b6 b7 b8 b9 b10 b11 b12 b13 b14 /= E1 E2.
rewrite -E1 -E2 /lgp_train_attrs /=.
have -> : hyper_search a2 (lgp_loglik a1 X Y b3) s = hyper_search a2 (lgp_loglik a1 X Y a3) s by [].
case: (hyper_search _ _ _) => [h|e] //=. rewrite /lgp_update_attrs /=.
have -> : set_params b3 (h_theta h) = set_params a3 (h_theta h) by [].
case: (chol _) => [L|?] //=. case: (chol_solve L Y) => [alpha|?] //=. case: (chol_solve L _) => [KF|?] //=.
case: (chol _) => [ld|?] //=. case: (chol_solve ld _) => [beta|?] //=. by case: (chol_solve L _).
Qed.
Lemma enum_split n m : enum 'I_(n + m) = [seq lshift m i | i <- enum 'I_n] ++ [seq rshift n i | i <- enum 'I_m].
Proof.
apply: (inj_map val_inj). rewrite map_cat val_enum_ord iotaD add0n; congr cat.
  by rewrite -map_comp -(val_enum_ord n); exact: eq_map.
rewrite -map_comp -[X in iota X _](addn0 n) iotaDl -(val_enum_ord m) -map_comp. exact: eq_map.
Qed.
Lemma points_cat n m (X : 'M[R]_(n, d)) (Y : 'cV[R]_n) (X' : 'M[R]_(m, d)) (Y' : 'cV[R]_m) :
  points (col_mx X X') (col_mx Y Y') = points X Y ++ points X' Y'.
Proof.
rewrite /points enum_split map_cat -!map_comp; congr cat; apply: eq_map => i /=.
  by rewrite rowKu col_mxEu.
by rewrite rowKd col_mxEd.
Qed.
Lemma size_points n (X : 'M[R]_(n, d)) (Y : 'cV[R]_n) : size (points X Y) = n.
Proof. by rewrite /points size_map size_enum_ord. Qed.
(** what an object holds *)
Lemma update_held (o : attrs) b : a_data o <> None -> a_data (lgp_update_model o b).1 <> None /\ held (lgp_update_model o b).1 = held o ++ points_of b.
Proof.
rewrite /held /lgp_update_model; case: (a_data o) => [D|] // _. rewrite train_data; split=> //=. exact: points_cat.
Qed.
Lemma grown_held (o : attrs) bs : a_data o <> None ->
  a_data (grown o bs) <> None /\ held (grown o bs) = held o ++ flatten [seq points_of b | b <- bs].
Proof.
rewrite /grown; elim: bs o => [|b bs IH] o Ho /=; first by rewrite cats0.
have [A B] := update_held b Ho. have [C D] := IH _ A. split=> //. by rewrite D B -catA.
Qed.
Lemma grown_holds n (o : attrs) (X : 'M[R]_(n, d)) (Y : 'cV[R]_n) s bs :
  let g := grown (lgp_train_attrs o X Y s).1 bs in
  held g = points X Y ++ flatten [seq points_of b | b <- bs] /\ lgp_num_samples g = Ok (size (held g)).
Proof.
cbv zeta. have H : a_data (lgp_train_attrs o X Y s).1 <> None by rewrite train_data.
have [A B] := grown_held bs H. split; first by rewrite B /held train_data.
by move: A; rewrite /lgp_num_samples /held; case: (a_data _) => [D|] //= _; rewrite size_points.
Qed.
Lemma update_keeps (o : attrs) b : a_restart (lgp_update_model o b).1 = a_restart o /\ (forall v, a_noise o = Some v -> a_noise (lgp_update_model o b).1 = Some v).
Proof. rewrite /lgp_update_model; case: (a_data o) => [D|//]. exact: lgp_train_keeps. Qed.
Lemma grown_keeps (o : attrs) bs : a_restart (grown o bs) = a_restart o /\ (forall v, a_noise o = Some v -> a_noise (grown o bs) = Some v).
Proof.
rewrite /grown; elim: bs o => [|b bs IH] o //=. have [A B] := update_keeps o b. have [C D] := IH (lgp_update_model o b).1.
by split; [rewrite C|move=> v Hv; apply: D; exact: B].
Qed.
(** growing and training once *)
Lemma grown_trained n (o : attrs) (X : 'M[R]_(n, d)) (Y : 'cV[R]_n) s v bs b : a_noise o = Some v ->
  let g := grown (lgp_train_attrs o X Y s).1 bs in
  exists n' (X' : 'M[R]_(n', d)) (Y' : 'cV[R]_n'),
    points X' Y' = points X Y ++ flatten [seq points_of b' | b' <- bs] ++ points_of b /\
    (lgp_update_model g b).2 = (lgp_train_attrs o X' Y' (b_search b)).2 /\
    ((lgp_update_model g b).2 = Ok tt -> (lgp_update_model g b).1 = (lgp_train_attrs o X' Y' (b_search b)).1).
Proof.
move=> Hv; cbv zeta; set o1 := (lgp_train_attrs o X Y s).1.
have H : a_data o1 <> None by rewrite train_data.
have [A B] := grown_held bs H. have [C D] := grown_keeps o1 bs. have [E F] := lgp_train_keeps o X Y s.
have Hn : a_noise (grown o1 bs) = a_noise o by rewrite Hv; apply: D; exact: F.
have Hr : a_restart (grown o1 bs) = a_restart o by rewrite C E.
move: A B; rewrite /lgp_update_model /held; case: (a_data (grown o1 bs)) => [Dt|] // _ B.
exists (ds_n Dt + b_n b)%N, (col_mx (ds_x Dt) (b_x b)), (col_mx (ds_y Dt) (b_y b)).
have [P Q] := train_overwrites (col_mx (ds_x Dt) (b_x b)) (col_mx (ds_y Dt) (b_y b)) (b_search b) Hn Hr.
split; first by rewrite points_cat B /o1 train_data -catA. split; first exact: P. by move=> K; rewrite Q.
Qed.
(** learned noise *)
Lemma grown_learned n (o : attrs) (X : 'M[R]_(n, d)) (Y : 'cV[R]_n) s bs : a_noise o = None ->
  (lgp_train_attrs o X Y s).2 = Ok tt -> exists h, result_of s (a_restart o) h /\ a_noise (grown (lgp_train_attrs o X Y s).1 bs) = Some (h_sigma h).
Proof.
move=> Hn Hok. have [r Er] := lgp_train_cases Hok. have [h [alpha [m [Hs [Hf [E _]]]]]] := lgp_train_attrs_ok Er.
exists h; split=> //. apply: (grown_keeps _ _).2. by rewrite E /= /lg_noise1 /= Hn.
Qed.
(** predictions after a failed update *)
Lemma failed_update n (o : attrs) (X : 'M[R]_(n, d)) (Y : 'cV[R]_n) s b e m (Xq : 'M[R]_(m, d)) :
  let t := lgp_train_attrs o X Y s in
  t.2 = Ok tt -> (0 < b_n b)%N -> (lgp_update_model t.1 b).2 = Raise e ->
  e = UnboundLocalError /\ lgp_predict_attrs (lgp_update_model t.1 b).1 Xq = Raise ValueError /\
  lgp_predict_std_attrs (lgp_update_model t.1 b).1 Xq = Raise ValueError.
Proof.
cbv zeta=> Hok Hb. rewrite /lgp_update_model train_data => Hf.
have Hn : (0 < n + b_n b)%N by rewrite addn_gt0 Hb orbT.
have [-> ->] := lgp_failed Hn Hf.
have [r Er] := lgp_train_cases Hok. have [h [alpha [k [_ [_ [-> _]]]]]] := lgp_train_attrs_ok Er.
have P : lgp_predict_attrs (put_data (lgp_fitted (put_opt (put_data o (Dataset X X Y Y)) h) X h alpha k)
  (Dataset (col_mx X (b_x b)) (col_mx X (b_x b)) (col_mx Y (b_y b)) (col_mx Y (b_y b)))) Xq = Raise ValueError.
  rewrite /lgp_predict_attrs /= with_rows_ne //. by apply/eqP; rewrite -[X in X == _]addn0 eqn_add2l eq_sym -lt0n.
by split=> //; split; [exact: P|rewrite /lgp_predict_std_attrs P].
Qed.
End Grow.

(** ** concrete calls *)
Definition gx_b (s : search (hyper 1)) : batch 1 := @Batch 1 1 (const_mx (Rdiv 1 2)) (const_mx 3) s.
Definition gx_search (sigma : R) : search (hyper 1) := Lbfgs (fun _ => Trial [:: Hyper 0 1] (Hyper 0 sigma) f1).
Lemma gx_usable sigma : usable 0 (gx_search sigma). Proof. by exists 0%N. Qed.
Lemma lf_train_ok n d (o : attrs d 1) (X : 'M[R]_(n, d)) (Y : 'cV[R]_n) s : (0 < n)%N -> usable (a_restart o) s -> (lgp_train_attrs o X Y s).2 = Ok tt.
Proof.
move=> Hn Hu. have [r Er] := @lgp_train_ok d n (plain_lgp o) X Y s Hn Hu. by have [] := lgp_predict_fitted (m := 0) 0 Er.
Qed.
Lemma lf_train_noise n d (o : attrs d 1) (X : 'M[R]_(n, d)) (Y : 'cV[R]_n) s : a_noise o = None -> (lgp_train_attrs o X Y s).2 = Ok tt ->
  exists h, result_of s (a_restart o) h /\ a_noise (lgp_train_attrs o X Y s).1 = Some (h_sigma h).
Proof. exact: (@grown_learned d n o X Y s [::]). Qed.
Definition gx_o (noise : option R) := (lgp_train_attrs (attrs_new 1 1 noise 0) fx_X fx_Y (gx_search 1)).1.
Lemma gx_o_ok noise : (lgp_train_attrs (attrs_new 1 1 noise 0) fx_X fx_Y (gx_search 1)).2 = Ok tt.
Proof. by apply: lf_train_ok => //; exact: gx_usable. Qed.
Lemma gx_o_restart noise : a_restart (gx_o noise) = 0%N.
Proof. exact: (lgp_train_keeps _ _ _ _).1. Qed.
Lemma gx_o_data noise : a_data (gx_o noise) = Some (Dataset fx_X fx_X fx_Y fx_Y).
Proof. exact: train_data. Qed.
Lemma gx_update_ok noise sigma : (lgp_update_model (gx_o noise) (gx_b (gx_search sigma))).2 = Ok tt.
Proof. rewrite /lgp_update_model gx_o_data /=. apply: lf_train_ok => //. rewrite gx_o_restart; exact: gx_usable. Qed.
Lemma gx_update_fails noise : (lgp_update_model (gx_o noise) (gx_b fx_nothing)).2 = Raise UnboundLocalError.
Proof.
rewrite /lgp_update_model gx_o_data /= /lgp_train_attrs /= gx_o_restart.
by have [v ->] := @lgp_loglik_ok 1 3 (a_noise (gx_o noise)) (col_mx fx_X (const_mx (Rdiv 1 2))) (col_mx fx_Y (const_mx 3)) (a_kernel (gx_o noise)) (Hyper 0 1) isT.
Qed.
Lemma gx_retry_ok noise : (lgp_update_model (lgp_update_model (gx_o noise) (gx_b fx_nothing)).1 (gx_b (gx_search 1))).2 = Ok tt.
Proof.
set o := (lgp_update_model _ _).1.
have [D Ho] : exists D, a_data o = Some D by rewrite /o /lgp_update_model gx_o_data train_data; eexists.
have Hr : a_restart o = 0%N by rewrite /o (update_keeps _ _).1 gx_o_restart.
rewrite /lgp_update_model Ho. apply: lf_train_ok; first by rewrite addn1. rewrite Hr; exact: gx_usable.
Qed.
Lemma retry_refuted : exists (o : attrs 1 1) (b : batch 1) s,
  let failed := lgp_update_model o b in
  let again := lgp_update_model failed.1 (Batch (b_x b) (b_y b) s) in
  let once := lgp_update_model o (Batch (b_x b) (b_y b) s) in
  failed.2 = Raise UnboundLocalError /\ again.2 = Ok tt /\ once.2 = Ok tt /\
  lgp_num_samples once.1 = Ok 3%N /\ lgp_num_samples again.1 = Ok 4%N.
Proof.
exists (gx_o (Some R0)), (gx_b fx_nothing), (gx_search 1). cbv zeta.
split; first exact: gx_update_fails. split; first exact: gx_retry_ok. split; first exact: (gx_update_ok (Some R0) 1).
have N b1 b2 : lgp_num_samples (grown (gx_o (Some R0)) [:: b1; b2]) = Ok (size (points fx_X fx_Y ++ flatten [:: points_of b1; points_of b2])).
  by have [A ->] := @grown_holds 1 2 (attrs_new 1 1 (Some R0) 0) fx_X fx_Y (gx_search 1) [:: b1; b2]; rewrite A.
have N1 b1 : lgp_num_samples (grown (gx_o (Some R0)) [:: b1]) = Ok (size (points fx_X fx_Y ++ flatten [:: points_of b1])).
  by have [A ->] := @grown_holds 1 2 (attrs_new 1 1 (Some R0) 0) fx_X fx_Y (gx_search 1) [:: b1]; rewrite A.
split; first by rewrite [LHS]N1 size_cat size_points /= cats0 size_points.
by rewrite [LHS]N size_cat size_points /= cats0 size_cat !size_points.
Qed.
Lemma learned_refuted : exists n (X : 'M[R]_(n, 1)) (Y : 'cV[R]_n) s (b : batch 1),
  let o := attrs_new 1 1 None 0 in
  let first := lgp_train_attrs o X Y s in
  let grown := lgp_update_model first.1 b in
  let once := lgp_train_attrs o (col_mx X (b_x b)) (col_mx Y (b_y b)) (b_search b) in
  first.2 = Ok tt /\ grown.2 = Ok tt /\ once.2 = Ok tt /\ held grown.1 = held once.1 /\ a_noise grown.1 = Some 1%Re /\ a_noise once.1 = Some 2%Re.
Proof.
exists 2%N, fx_X, fx_Y, (gx_search 1), (gx_b (gx_search 2)). cbv zeta.
have E : (lgp_train_attrs (attrs_new 1 1 None 0) (col_mx fx_X (b_x (gx_b (gx_search 2)))) (col_mx fx_Y (b_y (gx_b (gx_search 2)))) (gx_search 2)).2 = Ok tt.
  by apply: lf_train_ok; [|exact: (gx_usable 2)].
split; first exact: gx_o_ok. split; first exact: (gx_update_ok None 2). split; first exact: E.
split; first by rewrite /held /lgp_update_model gx_o_data !train_data.
split.
  have [h [[i [_ H]] Hn]] := @grown_learned 1 2 (attrs_new 1 1 None 0) fx_X fx_Y (gx_search 1) [:: gx_b (gx_search 2)] erefl (gx_o_ok None).
  by move: Hn; rewrite /= -H.
by have [h [[i [_ H]] Hn]] := lf_train_noise (o := attrs_new 1 1 None 0) erefl E; rewrite Hn -H.
Qed.
