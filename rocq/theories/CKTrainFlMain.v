(** Co-Kriging on constant and non-finite responses, in binary64. *)
From Coq Require Import ZArith Bool List Reals Lra Lia Permutation.
From Flocq Require Import Core IEEE754.BinarySingleNaN.
From Verif Require Import Fl NpList FlFacts KernelFl CholFl OutputFl OutputFlThms TrainFl TrainFlSpec TrainFlFacts TrainFlMain TrainFlWit CKTrainFl.
Import ListNotations.

(** the factorisation of a matrix whose first column starts with two non-finite numbers *)
Lemma one_nonfin a s : dot_of [(a, f1)] s -> nonfin a -> nonfin s.
Proof. intros D H. apply (dot_nonfin _ _ D). exists a, f1. split; [now left|now left]. Qed.
Lemma chol_nonfin n A r : (1 < n)%nat -> nonfin (A 0%nat 0%nat) -> nonfin (A 1%nat 0%nat) -> cholesky64 n A r -> r = Raise LinAlgError.
Proof.
  intros P H0 H1 C. pose proof C as C0. destruct C as [L C|]; [|reflexivity]. destruct (nonfin_cases _ H0) as [E|[b E]]; [exact (chol_nan00 n A _ ltac:(lia) E C0)|].
  destruct (C 0%nat) as [(s0 & R0 & Q0 & _) B]; [lia|]. destruct b.
  - exfalso. unfold reduced64 in R0. cbn [seq map] in R0. rewrite E in R0. destruct (dot_of_one _ _ _ R0) as [-> | ->]; discriminate Q0.
  - pose proof (chol_inf00 n A L ltac:(lia) E C0) as E0. destruct (B 1%nat) as (s & R & Q); [lia|]. unfold reduced64 in R. cbn [seq map] in R. apply one_nonfin in R; [|exact H1].
    assert (V : L 1%nat 0%nat = fnan) by (rewrite E0 in Q; destruct (nonfin_cases s R) as [-> |[c ->]]; destruct Q as [-> | ->]; try reflexivity; now destruct c).
    exfalso. destruct (C 1%nat P) as [(t & R1 & Q1 & _) _]. unfold reduced64 in R1. cbn [seq map] in R1.
    rewrite (dot_nan _ _ R1) in Q1; [discriminate Q1|]. exists (fopp (L 1%nat 0%nat)), (L 1%nat 0%nat). split; [right; now left|]. right. exact V.
Qed.

Section Main.
Variables (np_sum : list b64 -> b64) (np_dot : list (b64 * b64) -> b64) (np_exp np_log np_pow10 : b64 -> b64).
Variable np_cholesky : nat -> array -> result array.
Variable np_solve : nat -> nat -> array -> array -> result array.
Variable bounds : box.
Local Notation lf_train := (lf_train64 np_sum np_dot np_exp np_log np_pow10 np_cholesky np_solve).
Local Notation lf_update := (lf_update64 np_sum np_dot np_exp np_log np_pow10 np_cholesky np_solve).
Local Notation lf_objective := (lf_loglik64 np_sum np_dot np_exp np_log np_pow10 np_cholesky np_solve).
Local Notation lf_predict := (lf_predict64 np_sum np_dot np_exp).
Local Notation train := (ck_train64 np_sum np_dot np_exp np_log np_pow10 np_cholesky np_solve bounds).
Local Notation update := (ck_update64 np_sum np_dot np_exp np_log np_cholesky np_solve).
Local Notation objective := (ck_loglik64 np_sum np_dot np_exp np_log np_pow10 np_cholesky np_solve).
Local Notation means := (ck_means64 np_sum np_dot np_exp np_solve bounds).
Local Notation predict := (ck_predict64 np_sum np_dot np_exp np_solve bounds).
Local Notation predict_std := (ck_predict_std64 np_sum np_dot np_exp np_solve bounds).
Local Notation dataset := (ck_dataset64 np_sum bounds).
Local Notation solve2 := (solve2 np_solve).
Local Notation dot := (dot64 np_dot).

(** ** the low-fidelity model *)
Ltac steps := repeat match goal with |- context [step _ ?r _] => destruct r as [?|?]; cbn [step fst snd] end.
Lemma lf_update_frame o d h : g_data o = Some d -> g_opt o = Some h ->
  g_noise (fst (lf_update o)) = Some (match g_noise o with None => sigma64 h | Some s => s end).
Proof. intros Hd Hh. unfold lf_update64. rewrite Hd, Hh. cbn [get64 step]. cbv zeta. steps; reflexivity. Qed.
Lemma lf_update_ok o d h : g_data o = Some d -> g_opt o = Some h -> snd (lf_update o) = Ok tt ->
  let n := length (d_x d) in let o' := fst (lf_update o) in
  g_data o' = Some d /\
  (exists beta, g_attr o' abeta = Some (Arr 1 beta)) /\ (exists gamma, g_attr o' agamma = Some (Arr n gamma)) /\
  (exists K, g_attr o' aK = Some (Arr n K)) /\
  exists beta gamma, g_attr o' asigma2 = Some (Arr 1 (fun _ _ => sigma2_64 np_dot 1 n (column (d_scaled_y d)) (regr64 ordinary64 (d_scaled_x d)) beta gamma)).
Proof.
  intros Hd Hh. unfold lf_update64. rewrite Hd, Hh. cbn [get64 step]. cbv zeta. steps; try discriminate.
  intros _. cbn. rewrite Hd. repeat split; eauto.
Qed.
Lemma lf_objective_exn noise d h e : (forall n A, only_linalg (np_cholesky n A)) -> (forall n m A B, only_linalg (np_solve n m A B)) ->
  lf_objective noise d h = Raise e -> e = LinAlgError.
Proof.
  intros HC HS. unfold lf_loglik64. cbv zeta. unfold TrainFl.solve2, bind.
  repeat match goal with
  | |- context [np_cholesky ?n ?A] => let C := fresh "C" in pose proof (HC n A) as C; destruct (np_cholesky n A); cbn in C; try (intros E; injection E as <-; exact C)
  | |- context [np_solve ?n ?m ?A ?B] => let C := fresh "C" in pose proof (HS n m A B) as C; destruct (np_solve n m A B); cbn in C; try (intros E; injection E as <-; exact C)
  end. discriminate.
Qed.
Lemma lf_update_exn o d h e : (forall n A, only_linalg (np_cholesky n A)) -> (forall n m A B, only_linalg (np_solve n m A B)) ->
  g_data o = Some d -> g_opt o = Some h -> snd (lf_update o) = Raise e -> e = LinAlgError.
Proof.
  intros HC HS Hd Hh. unfold lf_update64. rewrite Hd, Hh. cbn [get64 step]. cbv zeta. unfold TrainFl.solve2, bind.
  repeat match goal with
  | |- context [np_cholesky ?n ?A] => let C := fresh "C" in pose proof (HC n A) as C; destruct (np_cholesky n A); cbn [step snd]; cbn in C; try (intros E; injection E as <-; exact C)
  | |- context [np_solve ?n ?m ?A ?B] => let C := fresh "C" in pose proof (HS n m A B) as C; destruct (np_solve n m A B); cbn [step snd]; cbn in C; try (intros E; injection E as <-; exact C)
  end. discriminate.
Qed.
Lemma lf_cases o X Y s : let d := Data64 X X Y Y in
  (exists e, hyper_search64 (g_restart o) (lf_objective (g_noise o) d) s = Raise e /\ lf_train o X Y s = (put_data64 o d, Raise e)) \/
  (exists h, hyper_search64 (g_restart o) (lf_objective (g_noise o) d) s = Ok h /\ lf_train o X Y s = lf_update (put_opt64 (put_data64 o d) h)).
Proof. cbv zeta. unfold lf_train64. cbv zeta. destruct (hyper_search64 _ _ _) as [h|e]; [right|left]; eauto. Qed.
Lemma lf_keeps o X Y s v : g_noise o = Some v -> g_noise (fst (lf_train o X Y s)) = Some v.
Proof.
  intros H. destruct (lf_cases o X Y s) as [(e & _ & ->)|(h & _ & ->)]; [exact H|].
  rewrite (lf_update_frame (put_opt64 (put_data64 o (Data64 X X Y Y)) h) _ h eq_refl eq_refl). cbn [put_opt64 put_data64 g_noise]. now rewrite H.
Qed.
Lemma lf_ok o X Y s : snd (lf_train o X Y s) = Ok tt -> let n := length X in let o' := fst (lf_train o X Y s) in
  g_data o' = Some (Data64 X X Y Y) /\
  (exists beta, g_attr o' abeta = Some (Arr 1 beta)) /\ (exists gamma, g_attr o' agamma = Some (Arr n gamma)) /\
  (exists K, g_attr o' aK = Some (Arr n K)) /\
  exists beta gamma, g_attr o' asigma2 = Some (Arr 1 (fun _ _ => sigma2_64 np_dot 1 n (column Y) (regr64 ordinary64 X) beta gamma)).
Proof.
  destruct (lf_cases o X Y s) as [(e & _ & ->)|(h & _ & ->)]; [discriminate|]. intros H.
  exact (lf_update_ok (put_opt64 (put_data64 o (Data64 X X Y Y)) h) _ h eq_refl eq_refl H).
Qed.
Lemma lf_exn o X Y s e : (forall n A, only_linalg (np_cholesky n A)) -> (forall n m A B, only_linalg (np_solve n m A B)) ->
  snd (lf_train o X Y s) = Raise e -> e = LinAlgError \/ e = UnboundLocalError.
Proof.
  intros HC HS. destruct (lf_cases o X Y s) as [(e' & S & ->)|(h & _ & ->)].
  - cbn [snd]. intros E. injection E as <-. apply (search_exn _ _ _ _ (fun h e => lf_objective_exn _ _ h e HC HS) S).
  - intros E. left. exact (lf_update_exn (put_opt64 (put_data64 o (Data64 X X Y Y)) h) _ h e HC HS eq_refl eq_refl E).
Qed.

(** ** what training does to the object *)
Ltac csteps := repeat match goal with |- context [cstep _ ?r _] => destruct r as [?|?]; cbn [cstep fst snd] end.
Lemma update_frame o : let o' := fst (update o) in c_noise o' = c_noise o /\ c_data o' = c_data o /\ c_lf o' = c_lf o /\ c_restart o' = c_restart o.
Proof.
  unfold ck_update64. cbv zeta. destruct (get64 (c_data o)) as [d|]; cbn [cstep]; [|repeat split]. destruct (get64 (c_rho o)) as [rho|]; cbn [cstep]; [|repeat split].
  destruct (c_noise o) as [z|] eqn:E; [|cbn; rewrite E; repeat split]. csteps; cbn; rewrite ?E; repeat split.
Qed.
(** the noise that a training starts with *)
Definition start (o : ck64) (d : ckdata64) : ck64 :=
  match c_noise o with
  | None => put_cdata o d
  | Some v => put_clf (put_cnoise (put_cdata o d) (fdiv v (k_std d))) (put_noise64 (c_lf o) (fdiv v (k_std d)))
  end.
Lemma train_cases o Xh Yh Xl Yl sl s : let d := dataset Xh Yh Xl Yl in let o2 := start o d in
  let lf := fst (lf_train (c_lf o2) (k_xl_scaled d) (k_yl_scaled d) sl) in
  let o3 := put_clf o2 lf in
  (exists e, snd (lf_train (c_lf o2) (k_xl_scaled d) (k_yl_scaled d) sl) = Raise e /\ train o Xh Yh Xl Yl sl s = (o3, Raise e)) \/
  (snd (lf_train (c_lf o2) (k_xl_scaled d) (k_yl_scaled d) sl) = Ok tt /\ exists pred,
    let o4 := put_cattr o3 cpred (length Xh) pred in
    (exists e, ck_search64 (c_restart o4) (objective (c_noise o4) d pred) s = Raise e /\ train o Xh Yh Xl Yl sl s = (o4, Raise e)) \/
    exists h z, (match c_noise o4 with Some v => z = v | None => z = k_sigma h end) /\ exists o6,
      c_noise o6 = Some z /\ c_data o6 = Some d /\ c_lf o6 = lf /\ c_rho o6 = Some (k_rho h) /\ c_restart o6 = c_restart o /\ c_attr o6 = c_attr o4 /\
      train o Xh Yh Xl Yl sl s = update o6).
Proof.
  cbv zeta. set (d := dataset Xh Yh Xl Yl). unfold ck_train64. cbv zeta. fold d. fold (start o d).
  pose proof (lf_ok (c_lf (start o d)) (k_xl_scaled d) (k_yl_scaled d) sl) as LO.
  assert (D : c_data (start o d) = Some d) by (unfold start; destruct (c_noise o); reflexivity).
  assert (R : c_restart (start o d) = c_restart o) by (unfold start; destruct (c_noise o); reflexivity).
  set (o2 := start o d) in *. clearbody o2. destruct (lf_train (c_lf o2) (k_xl_scaled d) (k_yl_scaled d) sl) as [lf [[]|e]]; cbn [fst snd cstep] in *; [right|left; exists e; split; reflexivity].
  split; [reflexivity|]. destruct (LO eq_refl) as (Ld & (beta & Lb) & (gamma & Lg) & _).
  assert (P : exists pred, lf_predict lf (k_xh_scaled d) = Ok pred).
  { unfold lf_predict64. rewrite Ld. cbn [get64 bind]. cbv zeta. rewrite Lb, Lg. unfold get_rows. cbn [get64 bind arr_rows d_x]. rewrite !Nat.eqb_refl. cbn [bind]. eexists. reflexivity. }
  destruct P as [pred ->]. cbn [cstep]. exists pred. destruct (ck_search64 _ _ _) as [h|e]; cbn [cstep]; [right|left; exists e; split; reflexivity].
  exists h. destruct (c_noise (put_crho _ _)) as [z|] eqn:E; change (c_noise o2 = Some z) in E || change (c_noise o2 = None) in E.
  - exists z. split; [change (c_noise (put_cattr _ _ _ _)) with (c_noise o2); now rewrite E|]. refine (ex_intro _ _ (conj _ (conj _ (conj _ (conj _ (conj _ (conj _ eq_refl))))))); first [exact E|exact D|exact R|reflexivity].
  - exists (k_sigma h). split; [change (c_noise (put_cattr _ _ _ _)) with (c_noise o2); now rewrite E|]. refine (ex_intro _ _ (conj _ (conj _ (conj _ (conj _ (conj _ (conj _ eq_refl))))))); first [exact E|exact D|exact R|reflexivity].
Qed.
Lemma start_noise o d v : c_noise o = Some v -> c_noise (start o d) = Some (fdiv v (k_std d)) /\ g_noise (c_lf (start o d)) = Some (fdiv v (k_std d)).
Proof. intros H. unfold start. rewrite H. split; reflexivity. Qed.
Theorem train_noise o v Xh Yh Xl Yl sl s : c_noise o = Some v -> let o' := fst (train o Xh Yh Xl Yl sl s) in
  c_noise o' = Some (fdiv v (std64 np_sum Yh)) /\ g_noise (c_lf o') = Some (fdiv v (std64 np_sum Yh)).
Proof.
  intros H. cbv zeta. destruct (start_noise o (dataset Xh Yh Xl Yl) v H) as [N1 N2]. change (k_std (dataset Xh Yh Xl Yl)) with (std64 np_sum Yh) in N1, N2.
  assert (L := lf_keeps _ (k_xl_scaled (dataset Xh Yh Xl Yl)) (k_yl_scaled (dataset Xh Yh Xl Yl)) sl _ N2).
  destruct (train_cases o Xh Yh Xl Yl sl s) as [(e & _ & ->)|(_ & pred & [(e & _ & ->)|(h & z & Z & o6 & E1 & E2 & E3 & E4 & E5 & E6 & ->)])]; [split; [exact N1|exact L]|split; [exact N1|exact L]|].
  destruct (update_frame o6) as (F1 & F2 & F3 & _). rewrite F1, F3, E1, E3. split; [|exact L].
  change (c_noise (put_cattr _ _ _ _)) with (c_noise (start o (dataset Xh Yh Xl Yl))) in Z. rewrite N1 in Z. now rewrite Z.
Qed.
Theorem train_data o Xh Yh Xl Yl sl s : c_data (fst (train o Xh Yh Xl Yl sl s)) = Some (dataset Xh Yh Xl Yl).
Proof.
  assert (D : c_data (start o (dataset Xh Yh Xl Yl)) = Some (dataset Xh Yh Xl Yl)) by (unfold start; destruct (c_noise o); reflexivity).
  destruct (train_cases o Xh Yh Xl Yl sl s) as [(e & _ & ->)|(_ & pred & [(e & _ & ->)|(h & z & Z & o6 & E1 & E2 & E3 & E4 & E5 & E6 & ->)])]; [exact D|exact D|].
  destruct (update_frame o6) as (_ & F2 & _). now rewrite F2.
Qed.

(** exceptions *)
Lemma objective_exn noise d pred h e : (forall n A, only_linalg (np_cholesky n A)) -> (forall n m A B, only_linalg (np_solve n m A B)) ->
  objective noise d pred h = Raise e -> e = LinAlgError.
Proof.
  intros HC HS. unfold ck_loglik64. cbv zeta. unfold TrainFl.solve2, bind.
  repeat match goal with
  | |- context [np_cholesky ?n ?A] => let C := fresh "C" in pose proof (HC n A) as C; destruct (np_cholesky n A); cbn in C; try (intros E; injection E as <-; exact C)
  | |- context [np_solve ?n ?m ?A ?B] => let C := fresh "C" in pose proof (HS n m A B) as C; destruct (np_solve n m A B); cbn in C; try (intros E; injection E as <-; exact C)
  end. discriminate.
Qed.
Lemma ck_queries_exn f qs e : (forall h e, f h = Raise e -> e = LinAlgError) -> ck_queries64 f qs = Raise e -> e = LinAlgError.
Proof. intros H. induction qs as [|q qs IH]; [discriminate|]. cbn. destruct (f q) as [v|e'] eqn:E; cbn [bind]; [exact IH|]. intros F. injection F as <-. exact (H q e' E). Qed.
Lemma ck_multistart_exn ts : forall b v e, ck_multistart64 b v ts = Raise e -> e = UnboundLocalError.
Proof. induction ts as [|t ts IH]; intros b v e; cbn; [destruct b; [discriminate|intros E; now injection E as <-]|]. destruct (flt _ _); apply IH. Qed.
Lemma ck_search_exn restart f s e : (forall h e, f h = Raise e -> e = LinAlgError) -> ck_search64 restart f s = Raise e -> e = LinAlgError \/ e = UnboundLocalError.
Proof.
  intros H. destruct s as [t|qs x]; unfold ck_search64; cbv zeta; destruct (ck_queries64 f _) as [[]|e'] eqn:E; cbn [bind].
  - intros F. right. exact (ck_multistart_exn _ _ _ _ F).
  - intros F. injection F as <-. left. exact (ck_queries_exn f _ e' H E).
  - discriminate.
  - intros F. injection F as <-. left. exact (ck_queries_exn f _ e' H E).
Qed.
(** what an update that has what it needs can do *)
Lemma update_cases o d z rho pred s2 Kl : c_data o = Some d -> c_noise o = Some z -> c_rho o = Some rho -> c_attr o cpred = Some (Arr (length (k_xh d)) pred) ->
  g_attr (c_lf o) asigma2 = Some (Arr 1 (fun _ _ => s2)) -> g_attr (c_lf o) aK = Some (Arr (length (k_xl_scaled d)) Kl) ->
  (forall n A, only_linalg (np_cholesky n A)) -> (forall n m A B, only_linalg (np_solve n m A B)) ->
  snd (update o) = Raise LinAlgError \/
  (snd (update o) = Ok tt /\ exists sigma2 LC K kl a b, let nl := length (k_xl_scaled d) in let n := length (k_xh d) in
     np_cholesky (nl + n)%nat (jittered (bigC nl d rho s2 sigma2 Kl K kl)) = Ok LC /\
     solve2 (nl + n) 1 LC (column (k_yl_scaled d ++ k_yh_scaled d)) = Ok a /\
     c_attr (fst (update o)) cmu = Some (Arr 1 (fun _ _ => mu64 np_dot (nl + n) a b))).
Proof.
  intros Hd Hz Hr Hp Hs HK HC HS.
  assert (HS2 : forall n m A B, only_linalg (solve2 n m A B)).
  { intros n m A B. unfold TrainFl.solve2. pose proof (HS n m A B) as C. destruct (np_solve n m A B) as [Z|e]; cbn [bind]; [apply HS|exact C]. }
  assert (GR : forall n v, get_rows (Some (Arr n v)) n = Ok v) by (intros n v; unfold get_rows; cbn [get64 bind arr_rows arr_at]; now rewrite Nat.eqb_refl).
  destruct (update o) as [o' r] eqn:U. cbn [fst snd]. revert U. unfold ck_update64. rewrite Hd, Hr, Hz. cbn [get64 cstep]. cbv zeta.
  match goal with |- context [np_cholesky ?n ?A] => pose proof (HC n A) as C1; destruct (np_cholesky n A) as [L|e]; cbn in C1; cbn [cstep]; [|intros U; injection U as <- <-; left; now rewrite C1] end. clear C1.
  cbn [put_cattr c_attr c_lf ckname_eqb]. rewrite Hp, GR. cbn [cstep].
  do 3 match goal with |- context [TrainFl.solve2 np_solve ?n ?m ?A ?B] => let C := fresh in pose proof (HS2 n m A B) as C; destruct (TrainFl.solve2 np_solve n m A B) as [?|e]; cbn in C; cbn [cstep]; [|intros U; injection U as <- <-; left; now rewrite C]; clear C end.
  rewrite Hs, GR. cbn [cstep]. rewrite HK, GR. cbn [cstep].
  match goal with |- context [np_cholesky ?n ?A] => pose proof (HC n A) as C1; destruct (np_cholesky n A) as [LC|e] eqn:EC; cbn in C1; cbn [cstep]; [|intros U; injection U as <- <-; left; now rewrite C1] end. clear C1.
  do 2 match goal with |- context [TrainFl.solve2 np_solve ?n ?m ?A ?B] => let C := fresh in let E := fresh "E" in pose proof (HS2 n m A B) as C; destruct (TrainFl.solve2 np_solve n m A B) as [?|e] eqn:E; cbn in C; cbn [cstep]; [|intros U; injection U as <- <-; left; now rewrite C]; clear C end.
  intros U. injection U as <- <-. right. split; [reflexivity|]. do 6 eexists. split; [exact EC|]. split; [eassumption|]. cbn [put_cattr c_attr ckname_eqb]. reflexivity.
Qed.
(** training raises nothing but LinAlgError and UnboundLocalError, and its last step is an update that has what it needs *)
Lemma train_inv o Xh Yh Xl Yl sl s : (forall n A, only_linalg (np_cholesky n A)) -> (forall n m A B, only_linalg (np_solve n m A B)) ->
  (exists e, snd (train o Xh Yh Xl Yl sl s) = Raise e /\ (e = LinAlgError \/ e = UnboundLocalError)) \/
  (snd (train o Xh Yh Xl Yl sl s) = Ok tt /\ exists rho sigma2 LC Kl K kl a b beta gamma, let d := dataset Xh Yh Xl Yl in let nl := length (k_xl_scaled d) in let n := length (k_xh d) in
     np_cholesky (nl + n)%nat (jittered (bigC nl d rho (sigma2_64 np_dot 1 nl (column (k_yl_scaled d)) (regr64 ordinary64 (k_xl_scaled d)) beta gamma) sigma2 Kl K kl)) = Ok LC /\
     solve2 (nl + n) 1 LC (column (k_yl_scaled d ++ k_yh_scaled d)) = Ok a /\
     c_attr (fst (train o Xh Yh Xl Yl sl s)) cmu = Some (Arr 1 (fun _ _ => mu64 np_dot (nl + n) a b))).
Proof.
  intros HC HS. destruct (train_cases o Xh Yh Xl Yl sl s) as [(e & E & ->)|(E & pred & [(e & S & ->)|(h & z & Z & o6 & E1 & E2 & E3 & E4 & E5 & E6 & ->)])].
  - left. exists e. split; [reflexivity|]. exact (lf_exn _ _ _ _ _ HC HS E).
  - left. exists e. split; [reflexivity|]. exact (ck_search_exn _ _ _ _ (fun h e => objective_exn _ _ _ h e HC HS) S).
  - destruct (lf_ok _ _ _ _ E) as (_ & _ & _ & (Kl & HK) & beta & gamma & Hs). rewrite <- E3 in HK, Hs.
    assert (Hp : c_attr o6 cpred = Some (Arr (length Xh) pred)) by (rewrite E6; reflexivity).
    destruct (update_cases o6 (dataset Xh Yh Xl Yl) z (k_rho h) pred _ Kl E2 E1 E4 Hp Hs HK HC HS) as [U|(U & sigma2 & LC & K & kl & a & b & U1 & U2 & U3)].
    + left. exists LinAlgError. split; [exact U|now left].
    + right. split; [exact U|]. exists (k_rho h), sigma2, LC, Kl, K, kl, a, b, beta, gamma. split; [exact U1|]. split; [exact U2|exact U3].
Qed.
Theorem train_exn o Xh Yh Xl Yl sl s e : (forall n A, only_linalg (np_cholesky n A)) -> (forall n m A B, only_linalg (np_solve n m A B)) ->
  snd (train o Xh Yh Xl Yl sl s) = Raise e -> e = LinAlgError \/ e = UnboundLocalError.
Proof.
  intros HC HS E. destruct (train_inv o Xh Yh Xl Yl sl s HC HS) as [(e' & E' & H)|(E' & _)]; rewrite E in E'; [injection E' as <-; exact H|discriminate E'].
Qed.
(** one high-fidelity sample *)
Theorem single_noise : (forall l, sum_of l (np_sum l)) -> forall restart x y Xl Yl sl s, isfin y = true ->
  c_noise (fst (train (ck_new64 np_pow10 bounds (Some f0) restart) [x] [y] Xl Yl sl s)) = Some fnan.
Proof.
  intros HS restart x y Xl Yl sl s F. destruct (train_noise (ck_new64 np_pow10 bounds (Some f0) restart) f0 [x] [y] Xl Yl sl s eq_refl) as [-> _].
  destruct (zero_cases _ (single_std np_sum HS y F)) as [b ->]. destruct b; reflexivity.
Qed.

(** ** predictions of an object whose high-fidelity responses have a useless standard deviation *)
Lemma restored_useless v t m : useless t -> fadd (fmul v t) m = fnan \/ feq (fadd (fmul v t) m) m = true.
Proof.
  intros H. destruct (isfin v) eqn:F.
  - destruct H as [H|H].
    + destruct (zero_cases _ H) as [b ->].
      assert (E : exists c, fmul v (B754_zero b) = B754_zero c) by (destruct v as [w|w| |w ? ? ?]; try discriminate F; eexists; reflexivity). destruct E as [c ->].
      destruct m as [w|w| |w mm e B]; [right; now destruct c, w|right; now destruct w|now left|right]. apply feq_refl. reflexivity.
    + left. rewrite (nan_is _ H), fmul_nan_r. reflexivity.
  - left. rewrite (useless_mul v _ H F). reflexivity.
Qed.
Lemma means_form o d X ys w : c_data o = Some d -> means o X = Ok (ys, w) -> Forall (fun y => exists v, y = fadd (fmul v (k_std d)) (k_mean d)) ys.
Proof.
  intros Hd. unfold ck_means64. rewrite Hd. cbn [get64 bind]. cbv zeta. destruct (get64 (c_rho o)); [|discriminate]. cbn [bind].
  repeat match goal with |- context [bind (get_rows ?a ?n)] => destruct (get_rows a n); [|discriminate]; cbn [bind] end. destruct (solve2 _ _ _ _); [|discriminate]. cbn [bind].
  intros E. injection E as <- <-. apply Forall_forall. intros y I. apply in_map_iff in I. destruct I as (j & <- & _). eexists. reflexivity.
Qed.
Lemma useless_any x t : useless t -> fmul x t = fnan \/ exists b, fmul x t = B754_zero b.
Proof.
  intros H. destruct (isfin x) eqn:F; [|left; now apply useless_mul]. destruct H as [H|H]; [|left; rewrite (nan_is _ H); apply fmul_nan_r].
  destruct (zero_cases _ H) as [b ->]. right. destruct x; try discriminate F; eexists; reflexivity.
Qed.
Lemma std_form o d X ys ss o' : c_data o = Some d -> predict_std o X = (o', Ok (ys, ss)) ->
  predict o X = Ok ys /\ exists z, c_noise o = Some z /\ o' = put_cnoise o (fmul z (k_std d)) /\
  Forall (fun v => exists x, v = fsqrt (fadd (fmul (fmul x (k_std d)) (fmul x (k_std d))) (fmul (fmul z (k_std d)) (fmul z (k_std d))))) ss.
Proof.
  intros Hd. unfold ck_predict_std64, ck_predict64. destruct (means o X) as [[ym [[c LC] v]]|e]; [|discriminate]. cbn [bind fst]. rewrite Hd. cbn [get64].
  destruct (solve2 _ _ _ _) as [W|]; [|discriminate]. destruct (c_noise o) as [z|]; [|discriminate]. cbv zeta. intros E. injection E as <- <- <-.
  split; [reflexivity|]. exists z. split; [reflexivity|]. split; [reflexivity|]. apply Forall_forall. intros y I. apply in_map_iff in I. destruct I as (j & <- & _). eexists. reflexivity.
Qed.
Theorem after_training o Xh Yh Xl Yl sl s : useless (std64 np_sum Yh) -> let o' := fst (train o Xh Yh Xl Yl sl s) in
  (forall Xq ys, predict o' Xq = Ok ys -> Forall (fun y => y = fnan \/ feq y (mean64 np_sum Yh) = true) ys) /\
  (forall Xq ys ss o'', predict_std o' Xq = (o'', Ok (ys, ss)) -> Forall (fun v => v = fnan \/ feq v f0 = true) ss).
Proof.
  intros H o'. pose proof (train_data o Xh Yh Xl Yl sl s : c_data o' = _) as D. split.
  - intros Xq ys. unfold ck_predict64. destruct (means o' Xq) as [[ym w]|] eqn:E; [|discriminate]. cbn [bind fst]. intros F. injection F as <-.
    pose proof (means_form o' _ Xq ym w D E) as A. apply Forall_forall. intros y I. rewrite Forall_forall in A. destruct (A y I) as [v ->]. exact (restored_useless v _ _ H).
  - intros Xq ys ss o'' E. destruct (std_form o' _ Xq ys ss o'' D E) as (_ & z & _ & _ & A). apply Forall_forall. intros v I. rewrite Forall_forall in A. destruct (A v I) as [x ->].
    change (k_std (dataset Xh Yh Xl Yl)) with (std64 np_sum Yh).
    destruct (useless_any x _ H) as [-> |[b ->]]; [now left|]. destruct (useless_any z _ H) as [-> |[c ->]]; [left; now destruct b|right; now destruct b, c].
Qed.
(** with a noise there is nothing but NaN *)
Theorem after_std o v Xh Yh Xl Yl sl s : useless (std64 np_sum Yh) -> c_noise o = Some v -> let o' := fst (train o Xh Yh Xl Yl sl s) in
  forall Xq ys ss o'', predict_std o' Xq = (o'', Ok (ys, ss)) -> Forall (eq fnan) ss /\ c_noise o'' = Some fnan.
Proof.
  intros H Hv o' Xq ys ss o'' E. pose proof (train_data o Xh Yh Xl Yl sl s : c_data o' = _) as D.
  destruct (std_form o' _ Xq ys ss o'' D E) as (_ & z & Hz & -> & A). change (k_std (dataset Xh Yh Xl Yl)) with (std64 np_sum Yh) in *.
  destruct (train_noise o v Xh Yh Xl Yl sl s Hv) as [N _]. change (c_noise o' = Some (fdiv v (std64 np_sum Yh))) in N. assert (z = fdiv v (std64 np_sum Yh)) as -> by (rewrite Hz in N; congruence).
  assert (Z : fmul (fdiv v (std64 np_sum Yh)) (std64 np_sum Yh) = fnan) by (apply useless_mul; [exact H|now apply useless_div]). rewrite Z in *. split; [|reflexivity].
  apply Forall_forall. intros y I. rewrite Forall_forall in A. destruct (A y I) as [x ->]. now rewrite fmul_nan_l, fadd_nan_r.
Qed.

(** ** failures *)
Hypothesis dot_ok : forall l, dot_of l (np_dot l).
Lemma ones_constant x : nth 0 (ordinary64 x) f0 = f1. Proof. reflexivity. Qed.
Lemma sigma2_nonfin n Y f beta gamma i : (i < n)%nat -> nonfin (column Y i 0%nat) -> nonfin (sigma2_64 np_dot 1 n (column Y) f beta gamma).
Proof. intros Hi H. unfold sigma2_64. apply fdiv_nonfin. apply dot_all; [exact dot_ok|]. exists i. split; [exact Hi|]. left. unfold transpose, minus. now apply fsub_nonfin_l. Qed.
(** what predictions look like if no scaled response is finite and training returned *)
Theorem trained_useless o Xh Yh Xl Yl sl s : (forall n A, only_linalg (np_cholesky n A)) -> (forall n m A B, only_linalg (np_solve n m A B)) -> solve_keeps np_solve ->
  useless (std64 np_sum Yh) -> Xh <> [] -> length Yh = length Xh -> length Yl = length Xl -> snd (train o Xh Yh Xl Yl sl s) = Ok tt ->
  forall Xq ys, predict (fst (train o Xh Yh Xl Yl sl s)) Xq = Ok ys -> Forall (eq fnan) ys.
Proof.
  intros HC HS HK HU HX Hh Hl T Xq ys E. pose proof (train_data o Xh Yh Xl Yl sl s) as D.
  destruct (train_inv o Xh Yh Xl Yl sl s HC HS) as [(e & F & _)|(_ & rho & sigma2 & LC & Kl & K & kl & a & b & beta & gamma & U1 & U2 & U3)]; [rewrite T in F; discriminate F|].
  set (d := dataset Xh Yh Xl Yl) in *. cbv zeta in *. set (N := (length (k_xl_scaled d) + length (k_xh d))%nat) in *.
  assert (NE : N = (length Xl + length Xh)%nat) by (unfold N, d; cbn; now rewrite map_length).
  assert (Y : forall i, (i < N)%nat -> nonfin (column (k_yl_scaled d ++ k_yh_scaled d) i 0%nat)).
  { apply column_nonfin.
    - rewrite app_length, NE. unfold d. cbn [ck_dataset64 k_yl_scaled k_yh_scaled]. rewrite map_length, scaled_length. lia.
    - apply Forall_app. split; [|exact (scaled_useless np_sum Yh HU)]. apply Forall_forall. intros y I. unfold d in I. cbn [ck_dataset64 k_yl_scaled] in I. apply in_map_iff in I.
      destruct I as (x & <- & _). now apply useless_div. }
  pose proof (solve2_nonfin np_solve N LC _ a HK U2 Y) as A.
  assert (M : nonfin (mu64 np_dot N a b)).
  { unfold mu64. apply fdiv_nonfin. apply dot_all; [exact dot_ok|]. exists 0%nat. assert (P : (0 < N)%nat) by (rewrite NE; destruct Xh; [easy|cbn; lia]). split; [exact P|]. right. exact (A 0%nat P). }
  clearbody N. revert E. unfold ck_predict64. destruct (means _ Xq) as [[ym w]|] eqn:E; [|discriminate]. cbn [bind fst]. intros F. injection F as <-.
  revert E. set (o' := fst (train o Xh Yh Xl Yl sl s)) in *. unfold ck_means64. rewrite D. cbn [get64 bind]. cbv zeta. destruct (get64 (c_rho o')); [|discriminate]. cbn [bind].
  rewrite U3. repeat match goal with |- context [bind (get_rows ?x ?n)] => lazymatch x with Some _ => fail | _ => destruct (get_rows x n); [|discriminate]; cbn [bind] end end.
  cbn [get_rows get64 bind arr_rows arr_at Nat.eqb]. destruct (solve2 _ _ a3 _) as [w0|]; [|discriminate]. cbn [bind].
  intros E. apply (f_equal (fun r => match r with Ok p => fst p | Raise _ => ym end)) in E. cbn [fst] in E. rewrite <- E. clear E. apply Forall_forall. intros y I. apply in_map_iff in I. destruct I as (j & <- & _). symmetry.
  change (k_std d) with (std64 np_sum Yh). rewrite useless_mul; [reflexivity|exact HU|]. now apply fadd_nonfin_l.
Qed.

Hypothesis chol_ok : forall n A, cholesky64 n A (np_cholesky n A).
Hypothesis solve_only : forall n m A B, only_linalg (np_solve n m A B).
(** a low-fidelity response that is not finite after scaling *)
Theorem always_raises o Xh Yh Xl Yl sl s : Xh <> [] -> Xl <> [] -> length Yl = length Xl -> useless (std64 np_sum Yh) \/ (exists y, In y Yl /\ isfin y = false) ->
  exists e, snd (train o Xh Yh Xl Yl sl s) = Raise e /\ (e = LinAlgError \/ e = UnboundLocalError).
Proof.
  intros HXh HXl Hl H. assert (HC := chol_only np_cholesky chol_ok).
  destruct (train_inv o Xh Yh Xl Yl sl s HC solve_only) as [F|(_ & rho & sigma2 & LC & Kl & K & kl & a & b & beta & gamma & U1 & _)]; [exact F|]. exfalso.
  cbv zeta in U1. set (d := dataset Xh Yh Xl Yl) in *.
  assert (LX : length (k_xl_scaled d) = length Xl) by (unfold d; cbn; now rewrite map_length).
  assert (LY : length (k_yl_scaled d) = length Xl) by (unfold d; cbn; now rewrite map_length).
  assert (PL : (0 < length Xl)%nat) by (destruct Xl; [easy|cbn; lia]). assert (PH : (0 < length (k_xh d))%nat) by (unfold d; destruct Xh; [easy|cbn; lia]).
  assert (Y : exists i, (i < length Xl)%nat /\ nonfin (column (k_yl_scaled d) i 0%nat)).
  { assert (Y : exists y, In y (k_yl_scaled d) /\ nonfin y).
    { unfold d. cbn [ck_dataset64 k_yl_scaled]. destruct H as [HU|(y & I & F)].
      - destruct Yl as [|y Yl]; [exfalso; cbn in Hl; lia|]. eexists. split; [left; reflexivity|]. now apply useless_div.
      - eexists. split; [apply in_map; exact I|]. apply fdiv_nonfin. now apply fsub_nonfin_l. }
    destruct Y as (y & I & N). destruct (In_nth _ _ fnan I) as (i & Hi & E). exists i. split; [lia|]. unfold column. now rewrite E. }
  destruct Y as (i & Hi & NY). set (s2 := sigma2_64 _ _ _ _ _ _ _) in U1.
  assert (N2 : nonfin s2) by (apply (sigma2_nonfin _ _ _ _ _ i); [lia|exact NY]). clearbody s2.
  rewrite LX in U1.
  assert (J : forall C i j, nonfin (C i j) -> nonfin (jittered C i j)) by (intros C i0 j0 HN; now apply fadd_nonfin_l).
  pose proof (chol_ok (length Xl + length (k_xh d))%nat (jittered (bigC (length Xl) d rho s2 sigma2 Kl K kl))) as C. rewrite U1 in C.
  apply chol_nonfin in C; [discriminate C|lia| |].
  - apply J. unfold bigC. destruct (Nat.ltb_spec 0 (length Xl)); [|lia]. now apply fmul_nonfin_l.
  - apply J. unfold bigC. destruct (Nat.ltb_spec 0 (length Xl)); [|lia]. destruct (Nat.ltb_spec 1 (length Xl)); [now apply fmul_nonfin_l|]. apply fmul_nonfin_l. now apply fmul_nonfin_r.
Qed.

(** a noise that is not finite *)
Hypothesis solve_ok : solve_one np_solve.
Lemma lf_update_bad o v d h : g_noise o = Some v -> nonfin v -> g_data o = Some d -> g_opt o = Some h -> (0 < length (d_x d))%nat -> snd (lf_update o) = Raise LinAlgError.
Proof.
  intros Hv NV Hd Hh Hn. destruct (snd (lf_update o)) as [[]|e] eqn:E; [|f_equal; exact (lf_update_exn o d h e (chol_only np_cholesky chol_ok) solve_only Hd Hh E)].
  exfalso. revert E. unfold lf_update64. rewrite Hd, Hh, Hv. cbn [get64 step]. cbv zeta. cbn [put_noise64 put_param64 g_param].
  destruct (chol_bad np_sum np_dot np_exp np_cholesky 1 chol_ok Nat.lt_0_1 (length (d_x d)) (params64 np_pow10 (theta64 h)) v (d_scaled_x d) Hn NV) as [-> |(N1 & L & -> & HL)]; cbn [step snd]; [discriminate|].
  rewrite N1. destruct (solve2 1 1 L (column _)) as [alpha|]; cbn [step snd]; [|discriminate]. destruct (solve2 1 1 L _) as [KF|] eqn:EK; cbn [step snd]; [|discriminate].
  rewrite (ld_bad np_dot np_cholesky np_solve ordinary64 1 dot_ok chol_ok solve_ok ones_constant Nat.lt_0_1 L (d_scaled_x d) KF HL EK). discriminate.
Qed.
Lemma lf_objective_bad v d h : nonfin v -> (0 < length (d_x d))%nat -> lf_objective (Some v) d h = Raise LinAlgError.
Proof.
  intros NV Hn. destruct (lf_objective (Some v) d h) as [r|e] eqn:E; [|f_equal; exact (lf_objective_exn (Some v) d h e (chol_only np_cholesky chol_ok) solve_only E)].
  exfalso. revert E. unfold lf_loglik64. cbv zeta.
  destruct (chol_bad np_sum np_dot np_exp np_cholesky 1 chol_ok Nat.lt_0_1 (length (d_x d)) (params64 np_pow10 (theta64 h)) v (d_scaled_x d) Hn NV) as [-> |(N1 & L & -> & HL)]; cbn [bind]; [discriminate|].
  rewrite N1. destruct (solve2 1 1 L (column _)) as [alpha|]; cbn [bind]; [|discriminate]. destruct (solve2 1 1 L _) as [KF|] eqn:EK; cbn [bind]; [|discriminate].
  rewrite (ld_bad np_dot np_cholesky np_solve ordinary64 1 dot_ok chol_ok solve_ok ones_constant Nat.lt_0_1 L (d_scaled_x d) KF HL EK). discriminate.
Qed.
Lemma lf_bad o v X Y s : g_noise o = Some v -> nonfin v -> X <> [] -> exists e, snd (lf_train o X Y s) = Raise e.
Proof.
  intros Hv NV HX. destruct (lf_cases o X Y s) as [(e & S & ->)|(h & S & ->)]; [exists e; reflexivity|]. exists LinAlgError.
  apply (lf_update_bad (put_opt64 (put_data64 o (Data64 X X Y Y)) h) v (Data64 X X Y Y) h Hv NV eq_refl eq_refl). cbn [d_x]. destruct X; [easy|cbn; lia].
Qed.
Lemma bad_noise o v Xh Yh Xl Yl sl s : c_noise o = Some v -> nonfin (fdiv v (std64 np_sum Yh)) -> Xl <> [] ->
  exists e, snd (train o Xh Yh Xl Yl sl s) = Raise e /\ (e = LinAlgError \/ e = UnboundLocalError).
Proof.
  intros Hv NV HX. set (d := dataset Xh Yh Xl Yl). destruct (start_noise o d v Hv) as [N1 N2].
  destruct (lf_bad _ _ (k_xl_scaled d) (k_yl_scaled d) sl N2 NV) as [e E]; [unfold d; cbn; destruct Xl; [easy|discriminate]|].
  destruct (train_cases o Xh Yh Xl Yl sl s) as [(e' & E' & ->)|(E' & _)].
  - exists e'. split; [reflexivity|]. exact (lf_exn _ _ _ _ _ (chol_only np_cholesky chol_ok) solve_only E').
  - fold d in E'. rewrite E in E'. discriminate E'.
Qed.
(** what a call of train that stops at once leaves *)
Theorem bad_noise_object o v Xh Yh Xl Yl sl s : c_noise o = Some v -> nonfin (fdiv v (std64 np_sum Yh)) -> Xl <> [] -> evaluates (g_restart (c_lf o)) sl ->
  let d := dataset Xh Yh Xl Yl in let z := fdiv v (std64 np_sum Yh) in
  train o Xh Yh Xl Yl sl s = (put_clf (put_cnoise (put_cdata o d) z) (put_data64 (put_noise64 (c_lf o) z) (Data64 (k_xl_scaled d) (k_xl_scaled d) (k_yl_scaled d) (k_yl_scaled d))), Raise LinAlgError).
Proof.
  intros Hv NV HX HE. cbv zeta. set (d := dataset Xh Yh Xl Yl). unfold ck_train64. cbv zeta. fold d. rewrite Hv. change (k_std d) with (std64 np_sum Yh).
  cbn [put_clf c_lf]. unfold lf_train64. cbv zeta. cbn [put_noise64 g_restart g_noise]. rewrite (search_bad _ _ sl HE); [reflexivity|].
  intros h. apply lf_objective_bad; [exact NV|]. unfold d. cbn. rewrite map_length. destruct Xl; [easy|cbn; lia].
Qed.
Theorem stops o v Xh Yh Xl Yl sl s : c_noise o = Some v -> useless (std64 np_sum Yh) -> Xl <> [] -> evaluates (g_restart (c_lf o)) sl ->
  let d := dataset Xh Yh Xl Yl in
  exists z, isfin z = false /\ train o Xh Yh Xl Yl sl s = (put_clf (put_cnoise (put_cdata o d) z) (put_data64 (put_noise64 (c_lf o) z) (Data64 (k_xl_scaled d) (k_xl_scaled d) (k_yl_scaled d) (k_yl_scaled d))), Raise LinAlgError).
Proof. intros Hv HU HX HE d. exists (fdiv v (std64 np_sum Yh)). split; [now apply useless_div|]. apply bad_noise_object; [exact Hv|now apply useless_div|exact HX|exact HE]. Qed.
Definition ruined (o : ck64) : Prop := exists v, c_noise o = Some v /\ nonfin v.
Lemma ruined_do o c : ruined o -> ruined (ck_do64 np_sum np_dot np_exp np_log np_pow10 np_cholesky np_solve bounds o c).
Proof.
  intros (v & Hv & NV). destruct c as [Xh Yh Xl Yl sl s|X]; cbn [ck_do64].
  - exists (fdiv v (std64 np_sum Yh)). split; [exact (proj1 (train_noise o v Xh Yh Xl Yl sl s Hv))|now apply fdiv_nonfin].
  - unfold ck_predict_std64. destruct (means o X) as [[ym [[c LC] w]]|e]; [|exists v; now split]. destruct (get64 (c_data o)) as [d|]; [|exists v; now split].
    destruct (solve2 _ _ _ _); [|exists v; now split]. rewrite Hv. eexists. split; [reflexivity|]. now apply fmul_nonfin_l.
Qed.
Theorem ruined_forever o calls Xh Yh Xl Yl sl s : ruined o -> Xl <> [] ->
  exists e, snd (train (fold_left (ck_do64 np_sum np_dot np_exp np_log np_pow10 np_cholesky np_solve bounds) calls o) Xh Yh Xl Yl sl s) = Raise e /\ (e = LinAlgError \/ e = UnboundLocalError).
Proof.
  intros R HX. assert (R' : ruined (fold_left (ck_do64 np_sum np_dot np_exp np_log np_pow10 np_cholesky np_solve bounds) calls o)).
  { revert o R. induction calls as [|c cs IH]; intros o R; [exact R|]. cbn [fold_left]. apply IH. now apply ruined_do. }
  destruct R' as (v & Hv & NV). apply (bad_noise _ v); [exact Hv|now apply fdiv_nonfin|exact HX].
Qed.
Theorem useless_ruins o v Xh Yh Xl Yl sl s : c_noise o = Some v -> useless (std64 np_sum Yh) -> ruined (fst (train o Xh Yh Xl Yl sl s)).
Proof. intros Hv HU. exists (fdiv v (std64 np_sum Yh)). split; [exact (proj1 (train_noise o v Xh Yh Xl Yl sl s Hv))|now apply useless_div]. Qed.
End Main.
