(** Hierarchical Kriging on constant, non-finite and overflowing responses, in binary64. *)
From Coq Require Import ZArith Bool List Reals Lra Lia Permutation.
From Flocq Require Import Core IEEE754.BinarySingleNaN.
From Verif Require Import Fl NpList FlFacts KernelFl CholFl OutputFl OutputFlThms TrainFl TrainFlSpec TrainFlFacts CKTrainFl HKTrainFl TrainFlMain TrainFlWit.
From Verif Require WideFlMain.
Import ListNotations.

(** ** zeros and NaN *)
Lemma useless_fmul_l x y : useless x -> useless (fmul x y).
Proof. intros [H|H]; [destruct (zero_cases x H) as [b ->]|rewrite (nan_is x H); right; reflexivity]. destruct y as [s|s| |s m e B]; [left; now destruct b, s|now right|now right|left; now destruct b, s]. Qed.
Lemma useless_fmul_r x y : useless y -> useless (fmul x y).
Proof. intros [H|H]; [destruct (zero_cases y H) as [b ->]|rewrite (nan_is y H); right; now rewrite fmul_nan_r]. destruct x as [s|s| |s m e B]; [left; now destruct b, s|now right|now right|left; now destruct b, s]. Qed.
Lemma useless_fadd x y : useless x -> useless y -> useless (fadd x y).
Proof.
  intros [H|H] [G|G]; try (right; first [rewrite (nan_is x H)|rewrite (nan_is y G), fadd_nan_r]; reflexivity).
  destruct (zero_cases x H) as [b ->], (zero_cases y G) as [c ->]. left. now destruct b, c.
Qed.
Lemma useless_ffma x y s : useless x \/ useless y -> useless s -> useless (ffma x y s).
Proof.
  intros H [G|G]; [|right; rewrite (nan_is s G), ffma_nan; [reflexivity|tauto]]. destruct (zero_cases s G) as [c ->].
  destruct H as [[H|H]|[H|H]]; try (right; rewrite ffma_nan; [reflexivity|rewrite (nan_is _ H); tauto]).
  - destruct (zero_cases x H) as [b ->]. destruct y as [t|t| |t m e B]; try (now right); left; unfold ffma, Bfma; cbn; now destruct b, c, t.
  - destruct (zero_cases y H) as [b ->]. destruct x as [t|t| |t m e B]; try (now right); left; unfold ffma, Bfma; cbn; now destruct b, c, t.
Qed.
Lemma dot_useless l s : dot_of l s -> (forall a b, In (a, b) l -> useless a \/ useless b) -> useless s.
Proof.
  intros D. induction D as [|a b|l l1 l2 s1 s2 N1 N2 P D1 IH1 D2 IH2|l l1 a b s P D IH]; intros H.
  - now left.
  - destruct (H a b) as [U|U]; [now left|now apply useless_fmul_l|now apply useless_fmul_r].
  - apply useless_fadd; [apply IH1|apply IH2]; intros a b I; apply H; apply (Permutation_in _ (Permutation_sym P)); apply in_or_app; tauto.
  - apply useless_ffma; [apply H; apply (Permutation_in _ (Permutation_sym P)); now left|]. apply IH. intros x y I. apply H. apply (Permutation_in _ (Permutation_sym P)). now right.
Qed.
Lemma chol_useless00 n A r : (0 < n)%nat -> useless (A 0%nat 0%nat) -> cholesky64 n A r -> r = Raise LinAlgError.
Proof.
  intros P H C. destruct C as [L C|]; [|reflexivity]. destruct (C 0%nat P) as [(s & R & Q & _) _].
  assert (U : useless s) by (apply (dot_useless _ _ R); intros a b [E|[]]; injection E as <- <-; now left).
  exfalso. destruct U as [U|U]; [destruct (zero_cases s U) as [b ->]; destruct b; discriminate Q|rewrite (nan_is s U) in Q; discriminate Q].
Qed.
Lemma div_inf x s : nonfin s -> useless (fdiv x s) .
Proof.
  intros H. destruct (nonfin_cases s H) as [-> |[b ->]]; [right; now rewrite fdiv_nan_r|]. destruct x as [t|t| |t m e B]; try (now right); left; now destruct b, t.
Qed.
Lemma recip_inf x s : nonfin s -> useless (fmul x (fdiv f1 s)).
Proof. intros H. apply useless_fmul_r. destruct (nonfin_cases s H) as [-> |[b ->]]; [now right|]. left. now destruct b. Qed.
Lemma sqrt_useless q z : useless q -> let w := fsqrt (fadd q (fmul z z)) in w = fnan \/ feq w (fsqrt (fmul z z)) = true.
Proof.
  intros [Q|Q]; cbv zeta; [|left; rewrite (nan_is _ Q); reflexivity]. destruct (zero_cases _ Q) as [b ->].
  destruct (isnan z) eqn:N; [left; rewrite (nan_is z N); now destruct b|]. right. destruct (square_pos z N) as [P P'].
  destruct (fmul z z) as [c|c| |c m e B]; try discriminate P'.
  - now destruct b, c.
  - destruct c; [discriminate P|reflexivity].
  - destruct c; [discriminate P|]. change (fadd (B754_zero b) (B754_finite false m e B)) with (B754_finite false m e B).
    apply feq_refl. unfold fsqrt. destruct (Bsqrt_correct 53 1024 _ _ mode_NE (B754_finite false m e B)) as (_ & F & _). destruct (Bsqrt _ _); try discriminate F; reflexivity.
Qed.

Section Main.
Variables (np_sum : list b64 -> b64) (np_dot : list (b64 * b64) -> b64) (np_exp np_log np_pow10 : b64 -> b64).
Variable np_cholesky : nat -> array -> result array.
Variable np_solve : nat -> nat -> array -> array -> result array.
Variable bounds : box.
Local Notation lf_train := (lf64_train np_sum np_dot np_exp np_log np_pow10 np_cholesky np_solve bounds).
Local Notation lf_predict := (lf64_predict np_sum np_dot np_exp bounds).
Local Notation train := (hk_train64 np_sum np_dot np_exp np_log np_pow10 np_cholesky np_solve bounds).
Local Notation train_hf := (hk_train_hf64 np_sum np_dot np_exp np_log np_pow10 np_cholesky np_solve bounds).
Local Notation update := (hk_update64 np_sum np_dot np_exp np_log np_pow10 np_cholesky np_solve).
Local Notation objective := (hk_loglik64 np_sum np_dot np_exp np_log np_pow10 np_cholesky np_solve).
Local Notation predict := (hk_predict64 np_sum np_dot np_exp bounds).
Local Notation predict_std := (hk_predict_std64 np_sum np_dot np_exp np_solve bounds).
Local Notation solve2 := (solve2 np_solve).
Local Notation dot := (dot64 np_dot).
Local Notation dataset := (dataset64 np_sum bounds).
Local Notation trend := (trend64 np_sum).

(** a trained low-fidelity model predicts *)
Lemma lf_returns o X Y s : snd (lf_train o X Y s) = Ok tt -> forall Xq, exists v, lf_predict (fst (lf_train o X Y s)) Xq = Ok v /\ length v = length Xq.
Proof.
  intros E Xq. unfold lf64_train, lf64_predict in *.
  destruct (train_cases np_sum np_dot np_exp np_log np_pow10 np_cholesky np_solve ordinary64 1 bounds o X Y s) as [(e & _ & T)|(h & _ & T)]; [rewrite T in E; discriminate E|].
  rewrite T in *. set (o1 := put_opt64 _ h) in *. destruct (update64 _ _ _ _ _ _ _ _ _ o1) as [o' r] eqn:U. cbn [fst snd] in *. subst r.
  destruct (WideFlMain.update_attrs np_sum np_dot np_exp np_log np_pow10 np_cholesky np_solve ordinary64 1 o1 (dataset X Y) h o' eq_refl eq_refl U) as [[b Hb] [g Hg]].
  destruct (update_frame np_sum np_dot np_exp np_log np_pow10 np_cholesky np_solve ordinary64 1 o1 (dataset X Y) h eq_refl eq_refl) as (D & _). rewrite U in D. cbn [fst] in D.
  unfold predict64. rewrite D, Hb, Hg. unfold get_rows. cbn [get64 bind arr_rows arr_at]. rewrite !Nat.eqb_refl. cbn [bind].
  eexists. split; [reflexivity|]. now rewrite map_length, seq_length.
Qed.
(** ** what training does to the object *)
Lemma hk_update_frame o d h : h_data o = Some d -> h_opt o = Some h ->
  let o' := fst (update o) in
  h_data o' = Some d /\ h_lf o' = h_lf o /\ h_restart o' = h_restart o /\
  h_noise o' = Some (match h_noise o with None => fmul (sigma64 h) (std64 np_sum (d_y d)) | Some s => s end).
Proof.
  intros Hd Hh. unfold hk_update64. rewrite Hd, Hh. cbn [get64 hstep]. cbv zeta.
  repeat match goal with |- context [hstep _ ?r _] => destruct r as [?|?]; cbn [hstep] end; cbn; repeat split; assumption.
Qed.
Lemma hk_train_cases o Xh Yh Xl Yl sl s : let d := dataset Xh Yh in let lf := fst (lf_train (h_lf o) Xl Yl sl) in
  (exists e, snd (lf_train (h_lf o) Xl Yl sl) = Raise e /\ train o Xh Yh Xl Yl sl s = (put_hlf o lf, Raise e)) \/
  (snd (lf_train (h_lf o) Xl Yl sl) = Ok tt /\ exists v, lf_predict lf Xh = Ok v /\ length v = length Xh /\
   let o2 := put_hattr (put_hdata (put_hlf o lf) d) af (length Xh) (trend Yh v) in
   ((exists e, hyper_search64 (h_restart o) (objective (h_noise o) d (trend Yh v)) s = Raise e /\ train o Xh Yh Xl Yl sl s = (o2, Raise e)) \/
    (exists h, hyper_search64 (h_restart o) (objective (h_noise o) d (trend Yh v)) s = Ok h /\ train o Xh Yh Xl Yl sl s = update (put_hopt o2 h)))).
Proof.
  intros d lf. unfold hk_train64. pose proof (lf_returns (h_lf o) Xl Yl sl) as Q. unfold lf in *. destruct (lf_train (h_lf o) Xl Yl sl) as [lf' [[]|e]]; cbn [fst snd hstep] in *; [right|left; eauto].
  split; [reflexivity|]. destruct (Q eq_refl Xh) as (v & Ev & Lv). exists v. split; [exact Ev|]. split; [exact Lv|].
  unfold hk_train_hf64. cbv zeta. cbn [put_hdata put_hlf h_lf]. rewrite Ev. cbn [hstep put_hattr h_restart h_noise].
  fold d. destruct (hyper_search64 _ _ s) as [h|e]; cbn [hstep]; [right|left]; eauto.
Qed.
(** the data, unless the low-fidelity model could not be trained *)
Lemma hk_train_data o Xh Yh Xl Yl sl s : let o' := fst (train o Xh Yh Xl Yl sl s) in
  h_lf o' = fst (lf_train (h_lf o) Xl Yl sl) /\
  (h_data o' = Some (dataset Xh Yh) \/ (exists e, snd (lf_train (h_lf o) Xl Yl sl) = Raise e /\ o' = put_hlf o (fst (lf_train (h_lf o) Xl Yl sl)))).
Proof.
  intros o'. unfold o'. destruct (hk_train_cases o Xh Yh Xl Yl sl s) as [(e & E & ->)|(E & v & _ & _ & [(e & _ & ->)|(h & _ & ->)])].
  - split; [reflexivity|right; eauto].
  - split; [reflexivity|now left].
  - match goal with |- context [update ?x] => destruct (hk_update_frame x (dataset Xh Yh) h eq_refl eq_refl) as (D & F & _) end. split; [exact F|left; exact D].
Qed.
Lemma hk_keeps_noise o v Xh Yh Xl Yl sl s : h_noise o = Some v -> h_noise (fst (train o Xh Yh Xl Yl sl s)) = Some v.
Proof.
  intros H. destruct (hk_train_cases o Xh Yh Xl Yl sl s) as [(e & E & ->)|(E & w & _ & _ & [(e & _ & ->)|(h & _ & ->)])]; [exact H|exact H|].
  match goal with |- context [update ?x] => destruct (hk_update_frame x (dataset Xh Yh) h eq_refl eq_refl) as (_ & _ & _ & N) end. rewrite N. cbn [put_hopt put_hattr put_hdata put_hlf h_noise]. now rewrite H.
Qed.
(** a noise to be learned is set as soon as the search has ended *)
Lemma hk_learned_noise o Xh Yh Xl Yl sl s : h_noise o = None ->
  (h_noise (fst (train o Xh Yh Xl Yl sl s)) = None /\ exists e, snd (train o Xh Yh Xl Yl sl s) = Raise e) \/
  (exists h, h_noise (fst (train o Xh Yh Xl Yl sl s)) = Some (fmul (sigma64 h) (std64 np_sum Yh)) /\
     match s with Lbfgs64 t => exists i, h = tr_x (t i) | Evolution64 _ x => h = x end).
Proof.
  intros H. destruct (hk_train_cases o Xh Yh Xl Yl sl s) as [(e & E & ->)|(E & w & _ & _ & [(e & _ & ->)|(h & S & ->)])].
  - left. split; [exact H|]. exists e. reflexivity.
  - left. split; [exact H|]. exists e. reflexivity.
  - right. exists h. match goal with |- context [update ?x] => destruct (hk_update_frame x (dataset Xh Yh) h eq_refl eq_refl) as (_ & _ & _ & N) end.
    rewrite N. cbn [put_hopt put_hattr put_hdata put_hlf h_noise]. rewrite H. split; [reflexivity|].
    destruct s as [t|qs x]; cbn [hyper_search64] in S; cbv zeta in S; destruct (run_queries64 _ _) as [u|]; cbn [bind] in S; try discriminate S; [|now injection S].
    assert (G : forall ts b z, multistart64 b z (map t ts) = Ok h -> (exists i, h = tr_x (t i)) \/ b = Some h).
    { induction ts as [|i ts IH]; intros b z; cbn [map multistart64]; [destruct b; [intros Q; injection Q as ->; now right|discriminate]|].
      destruct (flt _ z); intros Q; destruct (IH _ _ Q) as [W|W]; try (left; exact W); [injection W as <-; left; eauto|now right]. }
    destruct (G _ _ _ S) as [W|W]; [exact W|discriminate W].
Qed.

(** ** exceptions *)
Lemma hk_objective_exn noise d F h e : (forall n A, only_linalg (np_cholesky n A)) -> (forall n m A B, only_linalg (np_solve n m A B)) ->
  objective noise d F h = Raise e -> e = LinAlgError.
Proof.
  intros HC HS. unfold hk_loglik64. cbv zeta. unfold TrainFl.solve2, bind.
  repeat match goal with
  | |- context [np_cholesky ?n ?A] => let E := fresh in destruct (np_cholesky n A) as [?|?] eqn:E; [|intros Q; injection Q as <-; specialize (HC n A); rewrite E in HC; exact HC]
  | |- context [np_solve ?n ?m ?A ?B] => let E := fresh in destruct (np_solve n m A B) as [?|?] eqn:E; [|intros Q; injection Q as <-; specialize (HS n m A B); rewrite E in HS; exact HS]
  end. discriminate.
Qed.
Lemma hk_update_exn o d h F e : (forall n A, only_linalg (np_cholesky n A)) -> (forall n m A B, only_linalg (np_solve n m A B)) ->
  h_data o = Some d -> h_opt o = Some h -> h_attr o af = Some (Arr (length (d_x d)) F) -> snd (update o) = Raise e -> e = LinAlgError.
Proof.
  intros HC HS Hd Hh HF. unfold hk_update64. rewrite Hd, Hh. cbn [get64 hstep]. cbv zeta. unfold TrainFl.solve2, bind. cbn [put_hattr put_hparam put_hnoise h_attr name_eqb h_param]. rewrite HF.
  unfold get_rows. cbn [get64 bind arr_rows arr_at]. rewrite Nat.eqb_refl. cbn [hstep].
  repeat match goal with
  | |- context [np_cholesky ?n ?A] => let E := fresh in destruct (np_cholesky n A) as [?|?] eqn:E; cbn [hstep snd]; [|intros Q; injection Q as <-; specialize (HC n A); rewrite E in HC; exact HC]
  | |- context [np_solve ?n ?m ?A ?B] => let E := fresh in destruct (np_solve n m A B) as [?|?] eqn:E; cbn [hstep snd]; [|intros Q; injection Q as <-; specialize (HS n m A B); rewrite E in HS; exact HS]
  end. discriminate.
Qed.
Lemma gp_exn o X Y s e : (forall n A, only_linalg (np_cholesky n A)) -> (forall n m A B, only_linalg (np_solve n m A B)) ->
  snd (lf_train o X Y s) = Raise e -> e = LinAlgError \/ e = UnboundLocalError.
Proof.
  intros HC HS. unfold lf64_train. destruct (train_cases np_sum np_dot np_exp np_log np_pow10 np_cholesky np_solve ordinary64 1 bounds o X Y s) as [(e' & S & ->)|(h & S & ->)].
  - cbn [snd]. intros E. injection E as <-. exact (search_exn _ _ _ _ (fun h e => objective_exn np_sum np_dot np_exp np_log np_pow10 np_cholesky np_solve ordinary64 1 _ _ h e HC HS) S).
  - intros E. left. exact (update_exn np_sum np_dot np_exp np_log np_pow10 np_cholesky np_solve ordinary64 1 (put_opt64 (put_data64 o (dataset X Y)) h) (dataset X Y) h e HC HS eq_refl eq_refl E).
Qed.
Theorem hk_exn o Xh Yh Xl Yl sl s e : (forall n A, only_linalg (np_cholesky n A)) -> (forall n m A B, only_linalg (np_solve n m A B)) ->
  snd (train o Xh Yh Xl Yl sl s) = Raise e -> e = LinAlgError \/ e = UnboundLocalError.
Proof.
  intros HC HS. destruct (hk_train_cases o Xh Yh Xl Yl sl s) as [(e' & E & ->)|(_ & v & _ & _ & [(e' & E & ->)|(h & _ & ->)])]; cbn [snd].
  - intros Q. injection Q as <-. exact (gp_exn _ _ _ _ _ HC HS E).
  - intros Q. injection Q as <-. exact (search_exn _ _ _ _ (fun h e => hk_objective_exn _ _ _ h e HC HS) E).
  - intros Q. left. match type of Q with snd (update ?x) = _ => exact (hk_update_exn x (dataset Xh Yh) h (trend Yh v) e HC HS eq_refl eq_refl eq_refl Q) end.
Qed.

(** ** predictions *)
Lemma trend_useless Y v : useless (std64 np_sum Y) -> forall i j, nonfin (trend Y v i j).
Proof. intros H i j. unfold trend64. now apply useless_div. Qed.
Lemma trend_low Y v i j : nonfin (nth i v fnan) -> nonfin (trend Y v i j).
Proof. intros H. unfold trend64. now apply fdiv_nonfin, fsub_nonfin_l. Qed.
Lemma predict_form o d X ys : h_data o = Some d -> predict o X = Ok ys ->
  exists v beta, lf_predict (h_lf o) X = Ok v /\ length ys = length X /\
  forall j, (j < length X)%nat -> exists t, nth j ys fnan = restored64 np_sum (d_y d) (fadd (dot 1 (trend (d_y d) v) beta j 0%nat) t).
Proof.
  intros Hd. unfold hk_predict64. rewrite Hd. cbn [get64 bind]. cbv zeta. destruct (lf_predict (h_lf o) X) as [v|]; [|discriminate]. cbn [bind].
  destruct (get_rows (h_attr o abeta) 1) as [beta|]; [|discriminate]. cbn [bind]. destruct (get_rows (h_attr o agamma) _) as [gamma|]; [|discriminate]. cbn [bind].
  intros E. injection E as <-. exists v, beta. split; [reflexivity|]. split; [now rewrite map_length, seq_length|]. intros j Hj. eexists.
  match goal with |- nth j (map ?f _) _ = _ => rewrite (nth_indep _ fnan (f 0%nat)) by (rewrite map_length, seq_length; exact Hj); rewrite (map_nth f (seq 0 (length X)) 0%nat j) end.
  rewrite seq_nth by exact Hj. reflexivity.
Qed.
Lemma Forall_nth_all (P : b64 -> Prop) (l : list b64) n : length l = n -> (forall j, (j < n)%nat -> P (nth j l fnan)) -> Forall P l.
Proof. intros <- H. apply Forall_forall. intros x I. destruct (In_nth l x fnan I) as (j & Hj & <-). now apply H. Qed.
Lemma predict_nonfin_std o d X ys : h_data o = Some d -> nonfin (std64 np_sum (d_y d)) -> predict o X = Ok ys -> Forall nonfin ys.
Proof.
  intros Hd H E. destruct (predict_form o d X ys Hd E) as (v & beta & _ & L & F). apply (Forall_nth_all _ _ _ L). intros j Hj. destruct (F j Hj) as [t ->].
  unfold restored64. now apply fadd_nonfin_l, fmul_nonfin_r.
Qed.
Hypothesis dot_ok : forall l, dot_of l (np_dot l).
Lemma hk_dot_nonfin k A B i j l : (l < k)%nat -> nonfin (A i l) \/ nonfin (B l j) -> nonfin (dot k A B i j).
Proof. intros Hl H. apply (dot_nonfin _ _ (dot_ok _)). exists (A i l), (B l j). split; [|exact H]. apply in_map_iff. exists l. split; [reflexivity|]. apply in_seq. lia. Qed.
Lemma hk_predict_useless o d X ys : h_data o = Some d -> useless (std64 np_sum (d_y d)) -> predict o X = Ok ys -> Forall (eq fnan) ys.
Proof.
  intros Hd H E. destruct (predict_form o d X ys Hd E) as (v & beta & _ & L & F). apply (Forall_nth_all _ _ _ L). intros j Hj. destruct (F j Hj) as [t ->].
  unfold restored64. rewrite useless_mul; [reflexivity|exact H|]. apply fadd_nonfin_l. apply (hk_dot_nonfin 1 _ _ j 0 0); [lia|]. left. now apply trend_useless.
Qed.
Lemma hk_predict_low o X ys : (forall v, lf_predict (h_lf o) X = Ok v -> Forall nonfin v) -> predict o X = Ok ys -> Forall nonfin ys.
Proof.
  intros H E. assert (D : exists d, h_data o = Some d) by (unfold hk_predict64 in E; destruct (h_data o) as [d|]; [eauto|discriminate E]).
  destruct D as [d Hd]. destruct (predict_form o d X ys Hd E) as (v & beta & Ev & L & F). apply (Forall_nth_all _ _ _ L). intros j Hj. destruct (F j Hj) as [t ->].
  specialize (H v Ev). unfold restored64. apply fadd_nonfin_l, fmul_nonfin_l, fadd_nonfin_l. apply (hk_dot_nonfin 1 _ _ j 0 0); [lia|]. left. apply trend_low.
  destruct (nth_in_or_default j v fnan) as [I|Q]; [|rewrite Q; reflexivity]. rewrite Forall_forall in H. now apply H.
Qed.
Lemma std_form o d X ys ss : h_data o = Some d -> predict_std o X = Ok (ys, ss) ->
  predict o X = Ok ys /\ exists noise, h_noise o = Some noise /\
  Forall (fun w => exists t, let x := fmul (fsqrt (fmaximum t f0)) (std64 np_sum (d_y d)) in w = fsqrt (fadd (fmul x x) (fmul noise noise))) ss.
Proof.
  intros Hd. unfold hk_predict_std64. destruct (predict o X) as [fm|]; [|discriminate]. cbn [bind]. rewrite Hd. cbn [get64 bind]. cbv zeta.
  destruct (lf_predict (h_lf o) X) as [v|]; [|discriminate]. cbn [bind].
  destruct (get_rows (h_attr o aL) _) as [L|]; [|discriminate]. cbn [bind]. destruct (solve2 _ _ L _) as [delta|]; [|discriminate]. cbn [bind].
  destruct (get_rows (h_attr o af) _) as [F|]; [|discriminate]. cbn [bind]. destruct (get_rows (h_attr o asigma2) _) as [s2|]; [|discriminate]. cbn [bind].
  destruct (get_rows (h_attr o ald) _) as [ld|]; [|discriminate]. cbn [bind]. destruct (solve2 _ _ ld _) as [Z|]; [|discriminate]. cbn [bind].
  destruct (h_noise o) as [noise|]; [|discriminate]. intros E. injection E as <- <-. split; [reflexivity|]. exists noise. split; [reflexivity|].
  apply Forall_forall. intros w I. apply in_map_iff in I. destruct I as (j & <- & _). eexists. reflexivity.
Qed.
Lemma hk_std_useless o d X ys ss : h_data o = Some d -> useless (std64 np_sum (d_y d)) -> predict_std o X = Ok (ys, ss) ->
  exists noise, h_noise o = Some noise /\ Forall (fun w => w = fnan \/ feq w (fsqrt (fmul noise noise)) = true) ss.
Proof.
  intros Hd H E. destruct (std_form o d X ys ss Hd E) as (_ & z & Hz & A). exists z. split; [exact Hz|]. apply Forall_forall. intros w I. rewrite Forall_forall in A.
  destruct (A w I) as (t & ->). cbv zeta. apply sqrt_useless, useless_square. now apply useless_fmul_r.
Qed.
Theorem hk_after o Xh Yh Xl Yl sl s : snd (lf_train (h_lf o) Xl Yl sl) = Ok tt -> let o' := fst (train o Xh Yh Xl Yl sl s) in
  (useless (std64 np_sum Yh) -> forall Xq ys, predict o' Xq = Ok ys -> Forall (eq fnan) ys) /\
  (useless (std64 np_sum Yh) -> forall Xq ys ss, predict_std o' Xq = Ok (ys, ss) ->
     exists noise, h_noise o' = Some noise /\ Forall (fun w => w = fnan \/ feq w (fsqrt (fmul noise noise)) = true) ss) /\
  (isfin (std64 np_sum Yh) = false -> forall Xq ys, predict o' Xq = Ok ys -> Forall (fun y => isfin y = false) ys).
Proof.
  intros HL o'. pose proof (hk_train_data o Xh Yh Xl Yl sl s) as [_ [D|(e & E & _)]]; [|congruence]. split; [|split]; intros H.
  - intros Xq ys E. exact (hk_predict_useless _ _ Xq ys D H E).
  - intros Xq ys ss E. exact (hk_std_useless _ _ Xq ys ss D H E).
  - intros Xq ys E. exact (predict_nonfin_std _ _ Xq ys D H E).
Qed.
Theorem hk_low_after o Xh Yh Xl Yl sl s : isfin (std64 np_sum Yl) = false ->
  forall Xq ys, predict (fst (train o Xh Yh Xl Yl sl s)) Xq = Ok ys -> Forall (fun y => isfin y = false) ys.
Proof.
  intros H Xq ys E. apply (hk_predict_low _ Xq ys) in E; [exact E|]. intros v Ev. destruct (hk_train_data o Xh Yh Xl Yl sl s) as [F _]. rewrite F in Ev.
  exact (proj1 (WideFlMain.after_wide np_sum np_dot np_exp np_log np_pow10 np_cholesky np_solve ordinary64 1 bounds (h_lf o) Xl Yl sl H) Xq v Ev).
Qed.

Theorem hk_low_learned o Xh Yh Xl Yl qs x s : g_noise (h_lf o) = None -> isfin (sigma64 x) = true ->
  (exists e, train o Xh Yh Xl Yl (Evolution64 qs x) s = (put_hlf o (put_data64 (h_lf o) (dataset Xl Yl)), Raise e)) \/
  (exists v, g_noise (h_lf (fst (train o Xh Yh Xl Yl (Evolution64 qs x) s))) = Some v /\
     (feq (std64 np_sum Yl) f0 = true -> feq v f0 = true) /\ (std64 np_sum Yl = fnan -> v = fnan)).
Proof.
  intros N F. destruct (hk_train_data o Xh Yh Xl Yl (Evolution64 qs x) s) as [-> _].
  destruct (learned_noise np_sum np_dot np_exp np_log np_pow10 np_cholesky np_solve ordinary64 1 bounds (h_lf o) Xl Yl qs x N F) as [(e & T)|H]; [left|right; exact H].
  exists e. destruct (hk_train_cases o Xh Yh Xl Yl (Evolution64 qs x) s) as [(e' & E & ->)|(E & _)]; unfold lf64_train in *; rewrite T in *; cbn [fst snd] in *; [congruence|discriminate E].
Qed.
Theorem hk_learned_zero o Xh Yh Xl Yl sl qs x : h_noise o = None -> isfin (sigma64 x) = true -> feq (std64 np_sum Yh) f0 = true -> let r := train o Xh Yh Xl Yl sl (Evolution64 qs x) in
  (h_noise (fst r) = None /\ exists e, snd r = Raise e) \/ (exists v, h_noise (fst r) = Some v /\ feq v f0 = true).
Proof.
  intros N F Z r. destruct (hk_learned_noise o Xh Yh Xl Yl sl (Evolution64 qs x) N) as [H|(h & E & ->)]; [left; exact H|right]. eexists. split; [exact E|]. now apply sigma_zero.
Qed.
(** ** training that raises *)
Hypothesis chol_ok : forall n A, cholesky64 n A (np_cholesky n A).
Hypothesis solve_only : forall n m A B, only_linalg (np_solve n m A B).
Hypothesis solve_ok : solve_one np_solve.
Lemma ld_useless n F KF : (forall i, (i < n)%nat -> useless (F i 0%nat) \/ useless (KF i 0%nat)) -> np_cholesky 1 (dot n (transpose F) KF) = Raise LinAlgError.
Proof.
  intros H. apply (chol_useless00 1 (dot n (transpose F) KF) _ Nat.lt_0_1); [|apply chol_ok]. apply (dot_useless _ _ (dot_ok _)).
  intros a b I. apply in_map_iff in I. destruct I as (l & E & Hl). injection E as <- <-. apply in_seq in Hl. apply H. lia.
Qed.
Lemma solve_inf L F KF : L 0%nat 0%nat = finf -> solve2 1 1 L F = Ok KF -> useless (KF 0%nat 0%nat).
Proof.
  intros HL. unfold TrainFl.solve2. destruct (np_solve 1 1 L F) as [W|] eqn:E1; [|discriminate]. cbn [bind]. intros E2.
  destruct (solve_ok 1 _ _ _ E2 0%nat Nat.lt_0_1) as [-> | ->]; unfold transpose; rewrite HL; [now apply div_inf|now apply recip_inf].
Qed.
Lemma hk_objective_bad noise d F h : (0 < length (d_x d))%nat ->
  nonfin (match noise with Some v => fdiv v (std64 np_sum (d_y d)) | None => sigma64 h end) \/ (forall i, useless (F i 0%nat)) -> objective noise d F h = Raise LinAlgError.
Proof.
  intros Hn H. destruct (objective noise d F h) as [r|e] eqn:E; [|f_equal; exact (hk_objective_exn noise d F h e (chol_only np_cholesky chol_ok) solve_only E)].
  exfalso. revert E. unfold hk_loglik64. cbv zeta. set (z := match noise with Some v => _ | None => _ end) in *.
  destruct (np_cholesky (length (d_x d)) _) as [L|] eqn:EL; cbn [bind]; [|discriminate]. destruct (solve2 _ 1 L (column _)) as [alpha|]; cbn [bind]; [|discriminate].
  destruct (solve2 _ 1 L F) as [KF|] eqn:EK; cbn [bind]; [|discriminate].
  assert (B : np_cholesky 1 (dot (length (d_x d)) (transpose F) KF) = Raise LinAlgError).
  { apply ld_useless. destruct H as [H|H]; [|intros i _; left; apply H].
    destruct (chol_bad np_sum np_dot np_exp np_cholesky 1 chol_ok Nat.lt_0_1 (length (d_x d)) (params64 np_pow10 (theta64 h)) z (d_scaled_x d) Hn H) as [Q|(N1 & L' & Q & HL)]; rewrite Q in EL; [discriminate EL|]. injection EL as ->.
    rewrite N1 in *. intros i Hi. right. replace i with 0%nat by lia. exact (solve_inf L F KF HL EK). }
  rewrite B. discriminate.
Qed.
Lemma hk_update_bad o d h F : h_data o = Some d -> h_opt o = Some h -> h_attr o af = Some (Arr (length (d_x d)) F) -> (0 < length (d_x d))%nat ->
  nonfin (fdiv (match h_noise o with Some v => v | None => fmul (sigma64 h) (std64 np_sum (d_y d)) end) (std64 np_sum (d_y d))) \/ (forall i, useless (F i 0%nat)) ->
  snd (update o) = Raise LinAlgError.
Proof.
  intros Hd Hh HF Hn H. destruct (snd (update o)) as [[]|e] eqn:E; [|f_equal; exact (hk_update_exn o d h F e (chol_only np_cholesky chol_ok) solve_only Hd Hh HF E)].
  exfalso. revert E H. unfold hk_update64. rewrite Hd, Hh. cbn [get64 hstep]. cbv zeta. cbn [put_hattr put_hparam put_hnoise h_attr name_eqb h_param]. rewrite HF.
  unfold get_rows. cbn [get64 bind arr_rows arr_at]. rewrite Nat.eqb_refl.
  set (z := match h_noise o with Some v => _ | None => _ end). intros E H. revert E.
  destruct (np_cholesky (length (d_x d)) _) as [L|] eqn:EL; cbn [hstep snd]; [|discriminate]. destruct (solve2 _ 1 L (column _)) as [alpha|]; cbn [hstep snd]; [|discriminate].
  destruct (solve2 _ 1 L F) as [KF|] eqn:EK; cbn [hstep snd]; [|discriminate].
  assert (B : np_cholesky 1 (dot (length (d_x d)) (transpose F) KF) = Raise LinAlgError).
  { apply ld_useless. destruct H as [H|H]; [|intros i _; left; apply H].
    destruct (chol_bad np_sum np_dot np_exp np_cholesky 1 chol_ok Nat.lt_0_1 (length (d_x d)) (params64 np_pow10 (theta64 h)) _ (d_scaled_x d) Hn H) as [Q|(N1 & L' & Q & HL)]; rewrite Q in EL; [discriminate EL|]. injection EL as ->.
    rewrite N1 in *. intros i Hi. right. replace i with 0%nat by lia. exact (solve_inf L F KF HL EK). }
  rewrite B. discriminate.
Qed.
Lemma trend_inf Y v : nonfin (std64 np_sum Y) -> forall i, useless (trend Y v i 0%nat).
Proof. intros H i. unfold trend64. now apply div_inf. Qed.
(** responses that cannot be scaled *)
Theorem hk_always o Xh Yh Xl Yl sl s : Xh <> [] -> useless (std64 np_sum Yh) \/ isfin (std64 np_sum Yh) = false ->
  exists e, snd (train o Xh Yh Xl Yl sl s) = Raise e /\ (e = LinAlgError \/ e = UnboundLocalError).
Proof.
  intros HX HU. destruct (snd (train o Xh Yh Xl Yl sl s)) as [[]|e] eqn:E; [|exists e; split; [reflexivity|exact (hk_exn o Xh Yh Xl Yl sl s e (chol_only np_cholesky chol_ok) solve_only E)]].
  exfalso. destruct (hk_train_cases o Xh Yh Xl Yl sl s) as [(e & _ & T)|(_ & v & _ & _ & [(e & _ & T)|(h & _ & T)])]; rewrite T in E; try discriminate E.
  match type of E with snd (update ?x) = _ => rewrite (hk_update_bad x (dataset Xh Yh) h (trend Yh v) eq_refl eq_refl eq_refl (data_pos np_sum bounds Xh Yh HX)) in E; [discriminate E|] end.
  cbn [dataset64 d_y]. destruct HU as [HU|HU]; [left; now apply useless_div|right; now apply trend_inf].
Qed.
(** a search that evaluates a point stops there, unless a noise is learned and the standard deviation is zero *)
Theorem hk_stops o Xh Yh Xl Yl sl s : snd (lf_train (h_lf o) Xl Yl sl) = Ok tt -> Xh <> [] -> evaluates (h_restart o) s ->
  isfin (std64 np_sum Yh) = false \/ (exists v, h_noise o = Some v /\ (feq (std64 np_sum Yh) f0 = true \/ isfin v = false)) ->
  snd (train o Xh Yh Xl Yl sl s) = Raise LinAlgError /\
  exists F, fst (train o Xh Yh Xl Yl sl s) = put_hattr (put_hdata (put_hlf o (fst (lf_train (h_lf o) Xl Yl sl))) (dataset Xh Yh)) af (length Xh) F.
Proof.
  intros HL HX HE H. destruct (hk_train_cases o Xh Yh Xl Yl sl s) as [(e & Q & _)|(_ & v & _ & _ & C)]; [congruence|].
  assert (B : hyper_search64 (h_restart o) (objective (h_noise o) (dataset Xh Yh) (trend Yh v)) s = Raise LinAlgError).
  { apply (search_bad _ _ _ HE). intros h. apply hk_objective_bad; [exact (data_pos np_sum bounds Xh Yh HX)|]. cbn [dataset64 d_y].
    destruct H as [H|(z & -> & [H|H])]; [right; now apply trend_inf|left; apply useless_div; now left|left; now apply fdiv_nonfin]. }
  destruct C as [(e & S & ->)|(h & S & _)]; [|congruence]. rewrite S in B. injection B as ->. cbn [fst snd]. split; [reflexivity|]. eexists. reflexivity.
Qed.
(** ** the low-fidelity model *)
Theorem hk_low o Xh Yh Xl Yl sl s : Xl <> [] -> useless (std64 np_sum Yl) ->
  exists e, train o Xh Yh Xl Yl sl s = (put_hlf o (fst (lf_train (h_lf o) Xl Yl sl)), Raise e) /\ (e = LinAlgError \/ e = UnboundLocalError).
Proof.
  intros HX HU. destruct (always_raises np_sum np_dot np_exp np_log np_pow10 np_cholesky np_solve ordinary64 1 bounds dot_ok chol_ok solve_only solve_ok (fun _ => eq_refl) Nat.lt_0_1 (h_lf o) Xl Yl sl HX HU) as (e & E & A).
  fold (lf_train (h_lf o) Xl Yl sl) in E.
  destruct (hk_train_cases o Xh Yh Xl Yl sl s) as [(e' & E' & ->)|(E' & _)]; unfold lf64_train in *; [|congruence]. exists e. split; [congruence|exact A].
Qed.
Definition hk_retrain (o : hk64) (c : mat * list b64 * mat * list b64 * search64 * search64) : hk64 :=
  match c with (Xh, Yh, Xl, Yl, sl, s) => fst (train o Xh Yh Xl Yl sl s) end.
Lemma lf_noise_kept o v calls : g_noise (h_lf o) = Some v -> g_noise (h_lf (fold_left hk_retrain calls o)) = Some v.
Proof.
  revert o. induction calls as [|[[[[[Xh Yh] Xl] Yl] sl] s] calls IH]; intros o H; [exact H|]. cbn [fold_left hk_retrain]. apply IH.
  destruct (hk_train_data o Xh Yh Xl Yl sl s) as [-> _]. unfold lf64_train. now apply keeps_noise.
Qed.
Theorem hk_low_ruined o v calls Xh Yh Xl Yl sl s : g_noise (h_lf o) = Some v -> isfin v = false -> Xl <> [] ->
  exists e, snd (train (fold_left hk_retrain calls o) Xh Yh Xl Yl sl s) = Raise e /\ (e = LinAlgError \/ e = UnboundLocalError).
Proof.
  intros N F HX. apply lf_noise_kept with (calls := calls) in N. set (o' := fold_left _ _ _) in *.
  destruct (WideFlMain.nonfin_raises np_sum np_dot np_exp np_log np_pow10 np_cholesky np_solve ordinary64 1 bounds dot_ok chol_ok solve_only solve_ok (fun _ => eq_refl) Nat.lt_0_1 (h_lf o') Xl Yl sl) as (e & E & A); [now rewrite N|exact HX|].
  destruct (hk_train_cases o' Xh Yh Xl Yl sl s) as [(e' & E' & ->)|(E' & _)]; unfold lf64_train in *; [|congruence]. exists e. split; [cbn [snd]; congruence|exact A].
Qed.
End Main.
