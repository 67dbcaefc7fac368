(** Scaled Kriging on constant, non-finite and overflowing responses, in binary64. *)
From Coq Require Import ZArith Bool List Reals Lra Lia.
From Flocq Require Import Core IEEE754.BinarySingleNaN.
From Verif Require Import Fl Spec NpList FlFacts KernelFl CholFl OutputFl OutputFlThms TrainFl TrainFlSpec TrainFlFacts CKTrainFl HKTrainFl SKTrainFl TrainFlMain TrainFlWit HKTrainFlMain.
From Verif Require WideFlMain.
Import ListNotations.

Lemma fsub_nonfin_r x y : nonfin y -> nonfin (fsub x y).
Proof. intros H. destruct (nonfin_cases y H) as [-> |[b ->]]; destruct x as [s|s| |s m e B]; try reflexivity; now destruct s, b. Qed.
Lemma fsub_same x y : isfin x = true -> feq x y = true -> exists b, fsub x y = B754_zero b.
Proof.
  intros F E. assert (G : isfin y = true) by (destruct x as [s|s| |s m e B], y as [t|t| |t n f C]; try discriminate F; try reflexivity; destruct s; try destruct t; discriminate E).
  assert (V : B2R x = B2R y) by (unfold feq in E; rewrite (Beqb_correct 53 1024 x y F G) in E; revert E; now case Req_bool_spec).
  destruct (fsub_spec x y F G) as [W H]; [rewrite V, Rminus_diag_eq, rnd_0, Rabs_R0 by reflexivity; apply (Rle_lt_trans _ _ _ (Rabs_pos (B2R x)) (B2R_lt_fmax x))|].
  apply zero_of; [exact H|]. rewrite W, V, Rminus_diag_eq, rnd_0 by reflexivity. reflexivity.
Qed.
Lemma disc_length rho Y v : length v = length Y -> length (disc64 rho Y v) = length Y.
Proof. intros H. unfold disc64. rewrite map_length, combine_length. lia. Qed.
Lemma disc_high rho Y v : length v = length Y -> (exists y, In y Y /\ nonfin y) -> exists y, In y (disc64 rho Y v) /\ nonfin y.
Proof.
  revert v. induction Y as [|a Y IH]; intros v L (y & I & N); [destruct I|]. destruct v as [|b v]; [discriminate L|]. unfold disc64. cbn [combine map].
  destruct I as [<-|I]; [eexists; split; [now left|now apply fsub_nonfin_l]|]. destruct (IH v) as (w & W & Q); [now injection L|eauto|]. exists w. split; [now right|exact Q].
Qed.
Lemma disc_low rho Y v : length v = length Y -> (exists y, In y v /\ nonfin y) -> exists y, In y (disc64 rho Y v) /\ nonfin y.
Proof.
  revert v. induction Y as [|a Y IH]; intros v L (y & I & N); [destruct v; [destruct I|discriminate L]|]. destruct v as [|b v]; [discriminate L|]. unfold disc64. cbn [combine map].
  destruct I as [<-|I]; [eexists; split; [now left|now apply fsub_nonfin_r, fmul_nonfin_r]|]. destruct (IH v) as (w & W & Q); [now injection L|eauto|]. exists w. split; [now right|exact Q].
Qed.

Section Main.
Variables (np_sum : list b64 -> b64) (np_dot : list (b64 * b64) -> b64) (np_exp np_log np_pow10 : b64 -> b64).
Variable np_cholesky : nat -> array -> result array.
Variable np_solve : nat -> nat -> array -> array -> result array.
Variable bounds : box.
Local Notation gp_train := (lf64_train np_sum np_dot np_exp np_log np_pow10 np_cholesky np_solve bounds).
Local Notation gp_predict := (lf64_predict np_sum np_dot np_exp bounds).
Local Notation bumps := (bumps64 np_sum np_dot np_exp np_log np_pow10 np_cholesky np_solve bounds).
Local Notation rho_of := (rho64 np_sum np_dot np_exp np_log np_pow10 np_cholesky np_solve bounds).
Local Notation train := (sk_train64 np_sum np_dot np_exp np_log np_pow10 np_cholesky np_solve bounds).
Local Notation predict := (sk_predict64 np_sum np_dot np_exp bounds).
Local Notation dataset := (dataset64 np_sum bounds).

Lemma sk_cases o Xh Yh Xl Yl sl sr sd : let lf := fst (gp_train (s_lf o) Xl Yl sl) in
  (exists e, snd (gp_train (s_lf o) Xl Yl sl) = Raise e /\ train o Xh Yh Xl Yl sl sr sd = (Sk64 lf (s_disc o) (s_rho o) (s_noise o), Raise e)) \/
  (snd (gp_train (s_lf o) Xl Yl sl) = Ok tt /\ exists v, gp_predict lf Xh = Ok v /\ length v = length Xh /\
   let disc := fst (rho_of (s_disc o) (s_rho o) Xh Yh v sr) in
   ((exists e, snd (rho_of (s_disc o) (s_rho o) Xh Yh v sr) = Raise e /\ train o Xh Yh Xl Yl sl sr sd = (Sk64 lf disc (s_rho o) (s_noise o), Raise e)) \/
    (exists rho, snd (rho_of (s_disc o) (s_rho o) Xh Yh v sr) = Ok rho /\ let t := gp_train disc Xh (disc64 rho Yh v) sd in
      (exists e, snd t = Raise e /\ train o Xh Yh Xl Yl sl sr sd = (Sk64 lf (fst t) rho (s_noise o), Raise e)) \/
      (snd t = Ok tt /\ train o Xh Yh Xl Yl sl sr sd = (Sk64 lf (fst t) rho (g_noise (fst t)), Ok tt))))).
Proof.
  intros lf. unfold sk_train64. pose proof (lf_returns np_sum np_dot np_exp np_log np_pow10 np_cholesky np_solve bounds (s_lf o) Xl Yl sl) as Q. unfold lf in *. destruct (gp_train (s_lf o) Xl Yl sl) as [lf' [[]|e]]; cbn [fst snd] in *; [right|left; eauto].
  split; [reflexivity|]. destruct (Q eq_refl Xh) as (v & Ev & Lv). exists v. split; [exact Ev|]. split; [exact Lv|].
  unfold sk_train_hf64. cbn [s_lf s_disc s_rho s_noise]. rewrite Ev. destruct (rho_of _ _ _ _ _ _) as [disc [rho|e]]; cbn [fst snd]; [right|left; eauto].
  exists rho. split; [reflexivity|]. cbv zeta. destruct (gp_train disc Xh _ sd) as [disc' [[]|e]]; cbn [fst snd]; [right|left]; eauto.
Qed.
Lemma gp_keeps o X Y s v : g_noise o = Some v -> g_noise (fst (gp_train o X Y s)) = Some v.
Proof. unfold lf64_train. apply keeps_noise. Qed.
Lemma bumps_keeps X Y v z qs : forall disc, g_noise disc = Some z -> g_noise (fst (bumps disc X Y v qs)) = Some z.
Proof.
  induction qs as [|[rho s] qs IH]; intros disc H; [exact H|]. cbn [bumps64]. pose proof (gp_keeps disc X (disc64 rho Y v) s z H) as K.
  destruct (gp_train disc X _ s) as [disc' [[]|e]]; cbn [fst snd] in *; [exact (IH disc' K)|exact K].
Qed.
Lemma rho_keeps disc rho X Y v sr z : g_noise disc = Some z -> g_noise (fst (rho_of disc rho X Y v sr)) = Some z.
Proof.
  intros H. destruct sr as [|rho'|qs rho'|]; cbn [rho64]; try exact H. pose proof (bumps_keeps X Y v z qs disc H) as K. destruct (bumps disc X Y v qs); exact K.
Qed.
(** both noises are kept *)
Theorem sk_keeps o Xh Yh Xl Yl sl sr sd : let o' := fst (train o Xh Yh Xl Yl sl sr sd) in
  s_lf o' = fst (gp_train (s_lf o) Xl Yl sl) /\
  (forall v, g_noise (s_lf o) = Some v -> g_noise (s_lf o') = Some v) /\ (forall v, g_noise (s_disc o) = Some v -> g_noise (s_disc o') = Some v).
Proof.
  intros o'. unfold o'. assert (K : forall v, g_noise (s_lf o) = Some v -> g_noise (fst (gp_train (s_lf o) Xl Yl sl)) = Some v) by (intros v H; now apply gp_keeps).
  destruct (sk_cases o Xh Yh Xl Yl sl sr sd) as [(e & _ & ->)|(_ & v & _ & _ & [(e & _ & ->)|(rho & _ & [(e & _ & ->)|(_ & ->)])])]; cbn [fst s_lf s_disc]; (split; [reflexivity|]; split; [exact K|]); intros z H; try exact H.
  - now apply rho_keeps.
  - now apply gp_keeps, rho_keeps.
  - now apply gp_keeps, rho_keeps.
Qed.
Lemma sk_fixed o Xh Yh Xl Yl sl sd : s_rho (fst (train o Xh Yh Xl Yl sl RhoFixed64 sd)) = s_rho o.
Proof. destruct (sk_cases o Xh Yh Xl Yl sl RhoFixed64 sd) as [(e & _ & ->)|(_ & v & _ & _ & [(e & _ & ->)|(rho & E & [(e & _ & ->)|(_ & ->)])])]; try reflexivity; cbn in E; injection E as <-; reflexivity. Qed.
(** ** exceptions *)
Lemma bumps_exn X Y v qs : (forall n A, only_linalg (np_cholesky n A)) -> (forall n m A B, only_linalg (np_solve n m A B)) ->
  forall disc e, snd (bumps disc X Y v qs) = Raise e -> e = LinAlgError \/ e = UnboundLocalError.
Proof.
  intros HC HS. induction qs as [|[rho s] qs IH]; intros disc e; [discriminate|]. cbn [bumps64].
  pose proof (fun e => gp_exn np_sum np_dot np_exp np_log np_pow10 np_cholesky np_solve bounds disc X (disc64 rho Y v) s e HC HS) as K.
  destruct (gp_train disc X _ s) as [disc' [[]|e']]; cbn [fst snd] in *; [apply IH|intros Q; injection Q as <-; now apply K].
Qed.
Lemma rho_exn disc rho X Y v sr e : (forall n A, only_linalg (np_cholesky n A)) -> (forall n m A B, only_linalg (np_solve n m A B)) ->
  snd (rho_of disc rho X Y v sr) = Raise e -> e = LinAlgError \/ e = UnboundLocalError.
Proof.
  intros HC HS. destruct sr as [|rho'|qs rho'|]; cbn [rho64 snd]; try discriminate; [|intros Q; injection Q as <-; now right].
  pose proof (bumps_exn X Y v qs HC HS disc) as K. destruct (bumps disc X Y v qs) as [disc' [[]|e']]; cbn [snd] in *; [discriminate|]. intros Q. injection Q as <-. now apply K.
Qed.
Theorem sk_exn o Xh Yh Xl Yl sl sr sd e : (forall n A, only_linalg (np_cholesky n A)) -> (forall n m A B, only_linalg (np_solve n m A B)) ->
  snd (train o Xh Yh Xl Yl sl sr sd) = Raise e -> e = LinAlgError \/ e = UnboundLocalError.
Proof.
  intros HC HS. pose proof (gp_exn np_sum np_dot np_exp np_log np_pow10 np_cholesky np_solve bounds) as G.
  destruct (sk_cases o Xh Yh Xl Yl sl sr sd) as [(e' & E & ->)|(_ & v & _ & _ & [(e' & E & ->)|(rho & _ & [(e' & E & ->)|(_ & ->)])])]; cbn [snd]; intros Q; try discriminate Q; injection Q as <-.
  - exact (G _ _ _ _ _ HC HS E).
  - exact (rho_exn _ _ _ _ _ _ _ HC HS E).
  - exact (G _ _ _ _ _ HC HS E).
Qed.
(** ** the data of the discrepancy model *)
Lemma gp_data o X Y s : g_data (fst (gp_train o X Y s)) = Some (dataset X Y).
Proof. exact (train_data np_sum np_dot np_exp np_log np_pow10 np_cholesky np_solve ordinary64 1 bounds o X Y s). Qed.
Lemma bumps_data X Y v qs : forall disc, (qs <> [] \/ exists rho, g_data disc = Some (dataset X (disc64 rho Y v))) ->
  exists rho, g_data (fst (bumps disc X Y v qs)) = Some (dataset X (disc64 rho Y v)).
Proof.
  induction qs as [|[rho s] qs IH]; intros disc H; [destruct H as [H|H]; [now destruct H|exact H]|]. cbn [bumps64]. pose proof (gp_data disc X (disc64 rho Y v) s) as D.
  destruct (gp_train disc X _ s) as [disc' [[]|e]]; cbn [fst snd] in *; [apply IH; right|]; eauto.
Qed.
Lemma sk_data o Xh Yh Xl Yl sl sr sd : snd (gp_train (s_lf o) Xl Yl sl) = Ok tt -> sr <> RhoOther64 ->
  exists v rho, gp_predict (fst (gp_train (s_lf o) Xl Yl sl)) Xh = Ok v /\ length v = length Xh /\
  g_data (s_disc (fst (train o Xh Yh Xl Yl sl sr sd))) = Some (dataset Xh (disc64 rho Yh v)).
Proof.
  intros HL HR. destruct (sk_cases o Xh Yh Xl Yl sl sr sd) as [(e & E & _)|(_ & v & Ev & Lv & [(e & E & ->)|(rho & _ & [(e & _ & ->)|(_ & ->)])])]; [congruence| | |]; exists v; cbn [fst s_disc].
  - destruct sr as [|rho'|qs rho'|]; cbn [rho64 snd] in E; try discriminate E; [|congruence]. destruct qs as [|q qs]; [discriminate E|].
    destruct (bumps_data Xh Yh v (q :: qs) (s_disc o)) as (r & D); [left; discriminate|]. cbn [rho64]. destruct (bumps (s_disc o) Xh Yh v (q :: qs)) as [disc' r']. exists r. cbn [fst] in *. tauto.
  - exists rho. split; [exact Ev|]. split; [exact Lv|]. apply gp_data.
  - exists rho. split; [exact Ev|]. split; [exact Lv|]. apply gp_data.
Qed.
(** ** predictions *)
Lemma combine_nonfin (f : b64 * b64 -> b64) pd pl : (forall a b, nonfin b -> nonfin (f (a, b))) -> Forall nonfin pl -> Forall nonfin (map f (combine pd pl)).
Proof. intros Hf. revert pd. induction pl as [|b pl IH]; intros [|a pd] H; try constructor; inversion_clear H; [now apply Hf|now apply IH]. Qed.
Lemma combine_nonfin_l (f : b64 * b64 -> b64) pd pl : (forall a b, nonfin a -> nonfin (f (a, b))) -> Forall nonfin pd -> Forall nonfin (map f (combine pd pl)).
Proof. intros Hf. revert pl. induction pd as [|a pd IH]; intros [|b pl] H; try constructor; inversion_clear H; [now apply Hf|now apply IH]. Qed.
Theorem sk_low_after o Xh Yh Xl Yl sl sr sd : isfin (std64 np_sum Yl) = false ->
  forall Xq ys, predict (fst (train o Xh Yh Xl Yl sl sr sd)) Xq = Ok ys -> Forall (fun y => isfin y = false) ys.
Proof.
  intros H Xq ys. unfold sk_predict64. destruct (sk_keeps o Xh Yh Xl Yl sl sr sd) as (-> & _). destruct (gp_predict (s_disc _) Xq) as [pd|]; [|discriminate]. cbn [bind].
  destruct (gp_predict _ Xq) as [pl|] eqn:E; [|discriminate]. cbn [bind]. intros Q. injection Q as <-. apply combine_nonfin; [intros a b; apply fadd_nonfin_r|].
  exact (proj1 (WideFlMain.after_wide np_sum np_dot np_exp np_log np_pow10 np_cholesky np_solve ordinary64 1 bounds (s_lf o) Xl Yl sl H) Xq pl E).
Qed.
Lemma gp_after_data o d Xq ys : g_data o = Some d -> nonfin (std64 np_sum (d_y d)) -> gp_predict o Xq = Ok ys -> Forall nonfin ys.
Proof.
  intros D H. unfold lf64_predict, predict64. rewrite D. cbn [get64 bind]. cbv zeta. destruct (get_rows (g_attr o abeta) 1) as [beta|]; [|discriminate]. cbn [bind].
  destruct (get_rows (g_attr o agamma) _) as [gamma|]; [|discriminate]. cbn [bind]. intros E. injection E as <-.
  apply Forall_forall. intros y I. apply in_map_iff in I. destruct I as (j & <- & _). now apply WideFlMain.restored_wide.
Qed.
Hypothesis sum_ok : forall l, sum_of l (np_sum l).
Lemma disc_poison rho Yh v (Xh : mat) : length Yh = length Xh -> length v = length Xh -> (INR (length Xh) <= 2 ^ 20)%R ->
  (exists y, In y Yh /\ nonfin y) \/ (exists y, In y v /\ nonfin y) -> std64 np_sum (disc64 rho Yh v) = fnan.
Proof.
  intros L1 L2 HN H. apply (poison_std np_sum sum_ok); [rewrite disc_length by lia; now rewrite L1|]. destruct H as [H|H]; [apply disc_high|apply disc_low]; try exact H; lia.
Qed.
Theorem sk_high_after o Xh Yh Xl Yl sl sr sd : snd (gp_train (s_lf o) Xl Yl sl) = Ok tt -> sr <> RhoOther64 -> length Yh = length Xh -> (INR (length Xh) <= 2 ^ 20)%R ->
  (exists y, In y Yh /\ isfin y = false) -> forall Xq ys, predict (fst (train o Xh Yh Xl Yl sl sr sd)) Xq = Ok ys -> Forall (fun y => isfin y = false) ys.
Proof.
  intros HL HR L HN HY Xq ys. destruct (sk_data o Xh Yh Xl Yl sl sr sd HL HR) as (v & rho & _ & Lv & D).
  pose proof (disc_poison rho Yh v Xh L Lv HN (or_introl HY)) as P. unfold sk_predict64.
  destruct (gp_predict (s_disc _) Xq) as [pd|] eqn:E; [|discriminate]. cbn [bind]. destruct (gp_predict (s_lf _) Xq) as [pl|]; [|discriminate]. cbn [bind]. intros Q. injection Q as <-.
  apply combine_nonfin_l; [intros a b N; now apply fadd_nonfin_l, fmul_nonfin_l|]. apply (gp_after_data _ _ Xq pd D); [|exact E]. cbn [dataset64 d_y]. now rewrite P.
Qed.
(** a noise to be learned *)
Theorem sk_learned o Xh Yh Xl Yl sl sr qs x : g_noise (s_disc o) = None -> isfin (sigma64 x) = true -> snd (gp_train (s_lf o) Xl Yl sl) = Ok tt ->
  match sr with RhoFixed64 | RhoError64 _ => True | _ => False end -> length Yh = length Xh -> (INR (length Xh) <= 2 ^ 20)%R -> (exists y, In y Yh /\ isfin y = false) ->
  let r := train o Xh Yh Xl Yl sl sr (Evolution64 qs x) in
  (g_noise (s_disc (fst r)) = None /\ exists e, snd r = Raise e) \/ g_noise (s_disc (fst r)) = Some fnan.
Proof.
  intros N F HL HS L HN HY r. unfold r. destruct (sk_cases o Xh Yh Xl Yl sl sr (Evolution64 qs x)) as [(e & E & _)|(_ & v & _ & Lv & C)]; [congruence|].
  assert (Hd : fst (rho_of (s_disc o) (s_rho o) Xh Yh v sr) = s_disc o) by (destruct sr; try easy). rewrite Hd in C.
  destruct C as [(e & E & _)|(rho & _ & C)]; [destruct sr; easy|].
  pose proof (disc_poison rho Yh v Xh L Lv HN (or_introl HY)) as P.
  assert (K : (exists e, gp_train (s_disc o) Xh (disc64 rho Yh v) (Evolution64 qs x) = (put_data64 (s_disc o) (dataset Xh (disc64 rho Yh v)), Raise e)) \/ g_noise (fst (gp_train (s_disc o) Xh (disc64 rho Yh v) (Evolution64 qs x))) = Some fnan).
  { destruct (learned_noise np_sum np_dot np_exp np_log np_pow10 np_cholesky np_solve ordinary64 1 bounds (s_disc o) Xh (disc64 rho Yh v) qs x N F) as [H|(w & H & _ & Hn)]; [left; exact H|right]. rewrite <- (Hn P). exact H. }
  destruct C as [(e & E & ->)|(E & ->)]; cbn [fst snd s_disc].
  - destruct K as [(e' & K)|K]; [left|right; exact K]. rewrite K. split; [exact N|eauto].
  - destruct K as [(e' & K)|K]; [rewrite K in E; discriminate E|right; exact K].
Qed.
(** ** training that raises *)
Hypothesis dot_ok : forall l, dot_of l (np_dot l).
Hypothesis chol_ok : forall n A, cholesky64 n A (np_cholesky n A).
Hypothesis solve_only : forall n m A B, only_linalg (np_solve n m A B).
Hypothesis solve_ok : solve_one np_solve.
Lemma gp_raises o X Y s : X <> [] -> useless (std64 np_sum Y) \/ (exists v, g_noise o = Some v /\ nonfin v) -> exists e, snd (gp_train o X Y s) = Raise e.
Proof.
  intros HX [H|(v & N & F)].
  - destruct (always_raises np_sum np_dot np_exp np_log np_pow10 np_cholesky np_solve ordinary64 1 bounds dot_ok chol_ok solve_only solve_ok (fun _ => eq_refl) Nat.lt_0_1 o X Y s HX H) as (e & E & _). exists e. exact E.
  - destruct (WideFlMain.nonfin_raises np_sum np_dot np_exp np_log np_pow10 np_cholesky np_solve ordinary64 1 bounds dot_ok chol_ok solve_only solve_ok (fun _ => eq_refl) Nat.lt_0_1 o X Y s) as (e & E & _); [now rewrite N|exact HX|]. exists e. exact E.
Qed.
Lemma sk_raises o Xh Yh Xl Yl sl sr sd : (snd (train o Xh Yh Xl Yl sl sr sd) = Ok tt -> False) ->
  exists e, snd (train o Xh Yh Xl Yl sl sr sd) = Raise e /\ (e = LinAlgError \/ e = UnboundLocalError).
Proof.
  intros H. pose proof (fun e => sk_exn o Xh Yh Xl Yl sl sr sd e (chol_only np_cholesky chol_ok) solve_only) as X. destruct (snd (train o Xh Yh Xl Yl sl sr sd)) as [[]|e]; [now destruct H|]. exists e. split; [reflexivity|now apply X].
Qed.
(** what a training that returns has done *)
Lemma sk_returns o Xh Yh Xl Yl sl sr sd : snd (train o Xh Yh Xl Yl sl sr sd) = Ok tt ->
  snd (gp_train (s_lf o) Xl Yl sl) = Ok tt /\ exists v disc, gp_predict (fst (gp_train (s_lf o) Xl Yl sl)) Xh = Ok v /\ length v = length Xh /\
  (forall z, g_noise (s_disc o) = Some z -> g_noise disc = Some z) /\
  snd (gp_train disc Xh (disc64 (s_rho (fst (train o Xh Yh Xl Yl sl sr sd))) Yh v) sd) = Ok tt.
Proof.
  intros H. destruct (sk_cases o Xh Yh Xl Yl sl sr sd) as [(e & E & T)|(E & v & Ev & Lv & [(e & _ & T)|(rho & _ & [(e & _ & T)|(R & T)])])]; rewrite T in H; try discriminate H.
  split; [exact E|]. exists v, (fst (rho_of (s_disc o) (s_rho o) Xh Yh v sr)). split; [exact Ev|]. split; [exact Lv|]. split; [intros z; apply rho_keeps|]. rewrite T. exact R.
Qed.
Theorem sk_single o x y Xl Yl sl sr sd : exists e, snd (train o [x] [y] Xl Yl sl sr sd) = Raise e /\ (e = LinAlgError \/ e = UnboundLocalError).
Proof.
  apply sk_raises. intros R. destruct (sk_returns _ _ _ _ _ _ _ _ R) as (_ & v & disc & _ & Lv & _ & T). destruct v as [|w [|]]; try discriminate Lv.
  unfold disc64 in T. cbn [combine map fst snd] in T. set (q := fsub y _) in T.
  assert (U : useless (std64 np_sum [q])). { destruct (isfin q) eqn:F; [left; exact (single_std np_sum sum_ok q F)|]. right. rewrite (poison_std np_sum sum_ok [q]); [reflexivity|cbn; lra|exists q; split; [now left|exact F]]. }
  destruct (gp_raises disc [x] [q] sd) as (e & E); [discriminate|now left|]. congruence.
Qed.
Theorem sk_not_finite o Xh Yh Xl Yl sl sr sd : Xh <> [] -> length Yh = length Xh -> (INR (length Xh) <= 2 ^ 20)%R ->
  (exists y, In y Yh /\ isfin y = false) \/ isfin (std64 np_sum Yl) = false ->
  exists e, snd (train o Xh Yh Xl Yl sl sr sd) = Raise e /\ (e = LinAlgError \/ e = UnboundLocalError).
Proof.
  intros HX L HN H. apply sk_raises. intros R. destruct (sk_returns _ _ _ _ _ _ _ _ R) as (_ & v & disc & Ev & Lv & _ & T).
  match type of T with snd (gp_train disc Xh ?Y sd) = _ => destruct (gp_raises disc Xh Y sd) as (e & E); [exact HX| |congruence] end.
  left. right. rewrite (disc_poison _ Yh v Xh L Lv HN); [reflexivity|]. destruct H as [H|H]; [left; exact H|right].
  pose proof (proj1 (WideFlMain.after_wide np_sum np_dot np_exp np_log np_pow10 np_cholesky np_solve ordinary64 1 bounds (s_lf o) Xl Yl sl H) Xh v Ev) as F.
  destruct v as [|w v]; [destruct Xh; [now destruct HX|discriminate Lv]|]. exists w. split; [now left|]. now inversion F.
Qed.
(** discrepancies that are all the same *)
Theorem sk_flat o Xh Yh Xl Yl sl sr sd v : Xh <> [] -> length Yh = length Xh -> (INR (length Xh) <= 2 ^ 20)%R ->
  gp_predict (fst (gp_train (s_lf o) Xl Yl sl)) Xh = Ok v ->
  let D := disc64 (s_rho (fst (train o Xh Yh Xl Yl sl sr sd))) Yh v in
  isfin (mean64 np_sum D) = true -> (forall y, In y D -> isfin y = true /\ val y = val (mean64 np_sum D)) ->
  exists e, snd (train o Xh Yh Xl Yl sl sr sd) = Raise e /\ (e = LinAlgError \/ e = UnboundLocalError).
Proof.
  intros HX L HN HV D HM HD. apply sk_raises. intros R. destruct (sk_returns _ _ _ _ _ _ _ _ R) as (_ & v' & disc & Ev & Lv & _ & T).
  assert (v' = v) by congruence. subst v'. fold D in T. assert (LD : length D = length Xh) by (unfold D; rewrite disc_length; lia).
  destruct (gp_raises disc Xh D sd) as (e & E); [exact HX| |congruence]. left. left. apply (flat_std np_sum sum_ok D); [now rewrite LD|rewrite LD; destruct Xh; [now destruct HX|cbn; lia]|exact HM|exact HD].
Qed.
(** high-fidelity responses that the low-fidelity model predicts, up to the factor *)
Theorem sk_agree o Xh Yh Xl Yl sl sr sd v : Xh <> [] -> length Yh = length Xh -> (INR (length Xh) <= 2 ^ 20)%R ->
  gp_predict (fst (gp_train (s_lf o) Xl Yl sl)) Xh = Ok v ->
  (forall y w, In (y, w) (combine Yh v) -> isfin y = true /\ feq y (fmul (s_rho (fst (train o Xh Yh Xl Yl sl sr sd))) w) = true) ->
  exists e, snd (train o Xh Yh Xl Yl sl sr sd) = Raise e /\ (e = LinAlgError \/ e = UnboundLocalError).
Proof.
  intros HX L HN HV H. destruct (snd (train o Xh Yh Xl Yl sl sr sd)) as [[]|e] eqn:R; [|rewrite <- R; apply sk_raises; congruence]. rewrite <- R.
  destruct (sk_returns _ _ _ _ _ _ _ _ R) as (_ & v' & disc & Ev & Lv & _ & T). assert (v' = v) by congruence. subst v'.
  set (D := disc64 (s_rho (fst (train o Xh Yh Xl Yl sl sr sd))) Yh v) in *. assert (LD : length D = length Xh) by (unfold D; rewrite disc_length; lia).
  assert (Z : forall x, In x D -> exists b, x = B754_zero b).
  { intros x I. unfold D, disc64 in I. apply in_map_iff in I. destruct I as ([y w] & <- & I). destruct (H y w I) as [F E]. now apply fsub_same. }
  assert (PD : (0 < length D)%nat) by (rewrite LD; destruct Xh; [now destruct HX|cbn; lia]). assert (HD : (INR (length D) <= 2 ^ 20)%R) by now rewrite LD.
  assert (M : exists b, mean64 np_sum D = B754_zero b).
  { destruct (sum_zeros np_sum sum_ok D) as [Fs Vs]; [replace 1048576%R with (2 ^ 20)%R by ring; exact HD|intros x I; destruct (Z x I) as [c ->]; now split|]. destruct (zero_of _ Fs Vs) as [b1 E1]. unfold mean64. rewrite E1.
    destruct (count_pos D) as [C1 C2]; [replace 1048576%R with (2 ^ 20)%R by ring; exact HD|exact PD|]. exact (zero_div b1 (count64 D) C1 C2). }
  destruct M as [b M]. apply (sk_flat o Xh Yh Xl Yl sl sr sd v HX L HN HV); fold D; rewrite M; [reflexivity|]. intros y I. destruct (Z y I) as [c ->]. now split.
Qed.
Theorem sk_low o Xh Yh Xl Yl sl sr sd : Xl <> [] -> useless (std64 np_sum Yl) ->
  exists e, train o Xh Yh Xl Yl sl sr sd = (Sk64 (fst (gp_train (s_lf o) Xl Yl sl)) (s_disc o) (s_rho o) (s_noise o), Raise e) /\ (e = LinAlgError \/ e = UnboundLocalError).
Proof.
  intros HX H. destruct (gp_raises (s_lf o) Xl Yl sl HX (or_introl H)) as (e & E).
  destruct (sk_cases o Xh Yh Xl Yl sl sr sd) as [(e' & E' & T)|(E' & _)]; [|congruence]. exists e'. split; [exact T|]. apply (sk_exn o Xh Yh Xl Yl sl sr sd e' (chol_only np_cholesky chol_ok) solve_only). now rewrite T.
Qed.
(** ** objects that cannot be trained any more *)
Definition sk_retrain (o : sk64) (c : mat * list b64 * mat * list b64 * search64 * rho_search64 * search64) : sk64 :=
  match c with (Xh, Yh, Xl, Yl, sl, sr, sd) => fst (train o Xh Yh Xl Yl sl sr sd) end.
Definition sk_ruined (o : sk64) : Prop := (exists v, g_noise (s_lf o) = Some v /\ isfin v = false) \/ (exists v, g_noise (s_disc o) = Some v /\ isfin v = false).
Lemma ruined_kept calls : forall o, sk_ruined o -> sk_ruined (fold_left sk_retrain calls o).
Proof.
  induction calls as [|[[[[[[Xh Yh] Xl] Yl] sl] sr] sd] calls IH]; intros o H; [exact H|]. cbn [fold_left sk_retrain]. apply IH. destruct (sk_keeps o Xh Yh Xl Yl sl sr sd) as (_ & A & B).
  destruct H as [(v & H & F)|(v & H & F)]; [left; exists v; split; [now apply A|exact F]|right; exists v; split; [now apply B|exact F]].
Qed.
Theorem sk_forever o calls Xh Yh Xl Yl sl sr sd : sk_ruined o -> Xh <> [] -> Xl <> [] ->
  exists e, snd (train (fold_left sk_retrain calls o) Xh Yh Xl Yl sl sr sd) = Raise e /\ (e = LinAlgError \/ e = UnboundLocalError).
Proof.
  intros H HX HL. apply (ruined_kept calls) in H. set (o' := fold_left _ _ _) in *. apply sk_raises. intros R. destruct (sk_returns _ _ _ _ _ _ _ _ R) as (E & v & disc & _ & _ & K & T).
  destruct H as [H|(z & H & F)].
  - destruct (gp_raises (s_lf o') Xl Yl sl HL (or_intror H)) as (e & E'). congruence.
  - match type of T with snd (gp_train disc Xh ?Y sd) = _ => destruct (gp_raises disc Xh Y sd HX) as (e & E'); [right; exists z; split; [now apply K|exact F]|congruence] end.
Qed.
End Main.
