(** Training on constant and non-finite responses. *)
From Coq Require Import ZArith Bool List Reals Lra Lia Permutation.
From Flocq Require Import Core IEEE754.BinarySingleNaN.
From Verif Require Import Fl NpList FlFacts KernelFl CholFl OutputFl OutputFlThms TrainFl TrainFlSpec TrainFlFacts.
Import ListNotations.

Section Main.
Variables (np_sum : list b64 -> b64) (np_dot : list (b64 * b64) -> b64) (np_exp np_log np_pow10 : b64 -> b64).
Variable np_cholesky : nat -> array -> result array.
Variable np_solve : nat -> nat -> array -> array -> result array.
Variables (basis : row -> row) (p : nat).
Variable bounds : box.
Local Notation train := (train64 np_sum np_dot np_exp np_log np_pow10 np_cholesky np_solve basis p bounds).
Local Notation update := (update64 np_sum np_dot np_exp np_log np_pow10 np_cholesky np_solve basis p).
Local Notation objective := (loglik64 np_sum np_dot np_exp np_log np_pow10 np_cholesky np_solve basis p).
Local Notation predict := (predict64 np_sum np_dot np_exp basis p bounds).
Local Notation predict_std := (predict_std64 np_sum np_dot np_exp np_solve basis p bounds).
Local Notation solve2 := (solve2 np_solve).
Local Notation dot := (dot64 np_dot).
Local Notation dataset := (dataset64 np_sum bounds).

(** ** what training does to the object *)
Lemma search_evolution restart f qs x : hyper_search64 restart f (Evolution64 qs x) = match run_queries64 f qs with Ok _ => Ok x | Raise e => Raise e end.
Proof. reflexivity. Qed.
Ltac steps := repeat match goal with |- context [step _ ?r _] => first [destruct r as [?|?] eqn:?|destruct r as [?|?]]; cbn [step] end.
(** [update] never changes data or opt_param, and sets kernel parameters and noise first *)
Lemma update_frame o d h : g_data o = Some d -> g_opt o = Some h ->
  let o' := fst (update o) in
  g_data o' = Some d /\ g_opt o' = Some h /\ g_restart o' = g_restart o /\ g_param o' = params64 np_pow10 (theta64 h) /\
  g_noise o' = Some (match g_noise o with None => fmul (sigma64 h) (std64 np_sum (d_y d)) | Some s => s end).
Proof.
  intros Hd Hh. unfold update64. rewrite Hd, Hh. cbn [get64 step]. cbv zeta.
  repeat match goal with |- context [step _ ?r _] => destruct r; cbn [step fst] end; cbn; rewrite ?Hd, ?Hh; repeat split.
Qed.
Lemma update_exn o d h e : (forall n A, only_linalg (np_cholesky n A)) -> (forall n m A B, only_linalg (np_solve n m A B)) ->
  g_data o = Some d -> g_opt o = Some h -> snd (update o) = Raise e -> e = LinAlgError.
Proof.
  intros HC HS Hd Hh. unfold update64. rewrite Hd, Hh. cbn [get64 step]. cbv zeta. unfold TrainFl.solve2, bind.
  repeat match goal with
  | |- context [np_cholesky ?n ?A] => let C := fresh "C" in pose proof (HC n A) as C; destruct (np_cholesky n A); cbn [step snd]; cbn in C; try (intros E; injection E as <-; exact C)
  | |- context [np_solve ?n ?m ?A ?B] => let C := fresh "C" in pose proof (HS n m A B) as C; destruct (np_solve n m A B); cbn [step snd]; cbn in C; try (intros E; injection E as <-; exact C)
  end. discriminate.
Qed.
Lemma objective_exn noise d h e : (forall n A, only_linalg (np_cholesky n A)) -> (forall n m A B, only_linalg (np_solve n m A B)) ->
  objective noise d h = Raise e -> e = LinAlgError.
Proof.
  intros HC HS. unfold loglik64. cbv zeta. unfold TrainFl.solve2, bind.
  repeat match goal with
  | |- context [np_cholesky ?n ?A] => let C := fresh "C" in pose proof (HC n A) as C; destruct (np_cholesky n A); cbn in C; try (intros E; injection E as <-; exact C)
  | |- context [np_solve ?n ?m ?A ?B] => let C := fresh "C" in pose proof (HS n m A B) as C; destruct (np_solve n m A B); cbn in C; try (intros E; injection E as <-; exact C)
  end. discriminate.
Qed.
Lemma queries_exn f qs e : (forall h e, f h = Raise e -> e = LinAlgError) -> run_queries64 f qs = Raise e -> e = LinAlgError.
Proof.
  intros H. induction qs as [|q qs IH]; cbn; [discriminate|]. destruct (f q) as [v|e'] eqn:E; cbn; [exact IH|]. intros F. injection F as <-. exact (H q e' E).
Qed.
Lemma multistart_exn ts : forall b v e, multistart64 b v ts = Raise e -> e = UnboundLocalError.
Proof. induction ts as [|t ts IH]; cbn; intros b v e; [destruct b; congruence|]. destruct (flt (tr_fun t) v); apply IH. Qed.
Lemma search_exn restart f s e : (forall h e, f h = Raise e -> e = LinAlgError) -> hyper_search64 restart f s = Raise e -> e = LinAlgError \/ e = UnboundLocalError.
Proof.
  intros H. destruct s as [t|qs x]; cbn [hyper_search64]; cbv zeta; [set (qs := flat_map _ _)|]; destruct (run_queries64 f qs) as [u|e'] eqn:E; cbn [bind].
  - intros F. right. exact (multistart_exn _ _ _ _ F).
  - intros F. injection F as <-. left. exact (queries_exn f qs e' H E).
  - discriminate.
  - intros F. injection F as <-. left. exact (queries_exn f qs e' H E).
Qed.

(** the outcome of training is that of the search or of the update *)
Lemma train_cases o X Y s : let d := dataset X Y in
  (exists e, hyper_search64 (g_restart o) (objective (g_noise o) d) s = Raise e /\ train o X Y s = (put_data64 o d, Raise e)) \/
  (exists h, hyper_search64 (g_restart o) (objective (g_noise o) d) s = Ok h /\ train o X Y s = update (put_opt64 (put_data64 o d) h)).
Proof. cbv zeta. unfold train64. cbv zeta. destruct (hyper_search64 _ _ _) as [h|e]; [right|left]; eauto. Qed.
Lemma train_data o X Y s : g_data (fst (train o X Y s)) = Some (dataset X Y).
Proof.
  destruct (train_cases o X Y s) as [(e & _ & ->)|(h & _ & ->)]; [reflexivity|].
  destruct (update_frame (put_opt64 (put_data64 o (dataset X Y)) h) (dataset X Y) h eq_refl eq_refl) as (H & _). exact H.
Qed.

(** ** predictions of an object whose responses have a useless standard deviation *)
Lemma restored_useless Y v : useless (std64 np_sum Y) ->
  restored64 np_sum Y v = fnan \/ feq (restored64 np_sum Y v) (mean64 np_sum Y) = true.
Proof.
  intros H. unfold restored64. set (m := mean64 np_sum Y). destruct (isfin v) eqn:F.
  - destruct H as [H|H].
    + destruct (zero_cases _ H) as [b ->].
      assert (E : exists c, fmul v (B754_zero b) = B754_zero c) by (destruct v as [s|s| |s ? ? ?]; try discriminate F; eexists; reflexivity). destruct E as [c ->].
      destruct m as [s|s| |s mm e B]; [right; now destruct c, s|right; now destruct s|now left|right]. apply feq_refl. reflexivity.
    + left. rewrite (nan_is _ H), fmul_nan_r. reflexivity.
  - left. rewrite (useless_mul v _ H F). reflexivity.
Qed.
Lemma predict_useless o d X ys : g_data o = Some d -> useless (std64 np_sum (d_y d)) -> predict o X = Ok ys ->
  Forall (fun y => y = fnan \/ feq y (mean64 np_sum (d_y d)) = true) ys.
Proof.
  intros Hd H. unfold predict64. rewrite Hd. cbn [get64 bind]. cbv zeta.
  destruct (get_rows (g_attr o abeta) p) as [beta|]; [|discriminate]. cbn [bind].
  destruct (get_rows (g_attr o agamma) _) as [gamma|]; [|discriminate]. cbn [bind]. intros E. injection E as <-.
  apply Forall_forall. intros y I. apply in_map_iff in I. destruct I as (j & <- & _). now apply restored_useless.
Qed.
Lemma square_pos x : isnan x = false -> flt (fmul x x) f0 = false /\ isnan (fmul x x) = false.
Proof.
  intros N. destruct x as [s|s| |s m e B]; try discriminate N; try (now destruct s).
  pose proof (Bmult_correct 53 1024 _ _ mode_NE (B754_finite s m e B) (B754_finite s m e B)) as C. cbv zeta in C. unfold fmul.
  destruct (Rlt_bool _ _).
  - destruct C as (_ & F & C). cbn [is_finite andb] in F. assert (N' : is_nan (Bmult mode_NE (B754_finite s m e B) (B754_finite s m e B)) = false) by (destruct (Bmult _ _ _); try discriminate F; reflexivity).
    specialize (C N'). cbn [Bsign] in C. rewrite xorb_nilpotent in C. split; [|exact N'].
    destruct (Bmult _ _ _) as [t|t| |t m' e' B']; try discriminate N'; cbn in C; subst; reflexivity.
  - cbn [Bsign] in C. rewrite xorb_nilpotent in C. destruct (Bmult _ _ _) as [t|t| |t m' e' B']; cbn in C; try discriminate C. injection C as ->. now split.
Qed.
(** adding a zero, then [np.sqrt(np.maximum(., 0))] *)
Lemma std_zero b z : fsqrt (fmaximum (fadd (B754_zero b) (fmul z z)) f0) = fnan \/
  feq (fsqrt (fmaximum (fadd (B754_zero b) (fmul z z)) f0)) (fsqrt (fmul z z)) = true.
Proof.
  destruct (isnan z) eqn:N; [left; rewrite (nan_is z N); reflexivity|]. right. destruct (square_pos z N) as [P Q].
  destruct (fmul z z) as [t|t| |t m e B]; try discriminate Q.
  - now destruct b, t.
  - destruct t; [discriminate P|reflexivity].
  - destruct t; [discriminate P|]. change (fadd (B754_zero b) (B754_finite false m e B)) with (B754_finite false m e B). unfold fmaximum. cbn [isnan is_nan]. change (isnan f0) with false. cbv iota. rewrite P.
    apply feq_refl. unfold fsqrt. destruct (Bsqrt_correct 53 1024 _ _ mode_NE (B754_finite false m e B)) as (_ & F & _). destruct (Bsqrt _ _); try discriminate F; reflexivity.
Qed.
Lemma mse_useless mse s z : useless s ->
  let v := fsqrt (fmaximum (fadd (fmul mse s) (fmul z z)) f0) in v = fnan \/ feq v (fsqrt (fmul z z)) = true.
Proof.
  intros H. cbv zeta. destruct (isfin mse) eqn:F; [|left; now rewrite (useless_mul mse s H F)].
  destruct H as [H|H]; [|left; rewrite (nan_is s H), fmul_nan_r; reflexivity].
  destruct (zero_cases s H) as [b ->].
  assert (E : exists c, fmul mse (B754_zero b) = B754_zero c) by (destruct mse as [t|t| |t ? ? ?]; try discriminate F; eexists; reflexivity). destruct E as [c ->]. apply std_zero.
Qed.
Lemma predict_std_inv o d X ys ss : g_data o = Some d -> predict_std o X = Ok (ys, ss) ->
  predict o X = Ok ys /\ exists noise sigma2, g_noise o = Some noise /\ get_rows (g_attr o asigma2) 1 = Ok sigma2 /\
  Forall (fun s => exists t, s = fsqrt (fmaximum (fadd (fmul (fmul (sigma2 0%nat 0%nat) t) (fmul (std64 np_sum (d_y d)) (std64 np_sum (d_y d)))) (fmul noise noise)) f0)) ss.
Proof.
  intros Hd. unfold predict_std64. destruct (predict o X) as [fm|] eqn:EP; [|discriminate]. cbn [bind]. rewrite Hd. cbn [get64 bind]. cbv zeta.
  destruct (get_rows (g_attr o aL) _) as [L|]; [|discriminate]. cbn [bind]. destruct (solve2 _ _ L _) as [delta|]; [|discriminate]. cbn [bind].
  destruct (get_rows (g_attr o af) _) as [ft|]; [|discriminate]. cbn [bind]. destruct (get_rows (g_attr o ald) _) as [ld|]; [|discriminate]. cbn [bind].
  destruct (get_rows (g_attr o asigma2) _) as [s2|]; [|discriminate]. cbn [bind]. destruct (solve2 _ _ ld _) as [S|]; [|discriminate]. cbn [bind].
  destruct (g_noise o) as [z|]; [|discriminate]. intros E. injection E as -> <-. split; [reflexivity|]. exists z, s2. split; [reflexivity|]. split; [reflexivity|].
  apply Forall_forall. intros s I. apply in_map_iff in I. destruct I as (j & <- & _). eexists. reflexivity.
Qed.
Lemma std_useless o d X ys ss : g_data o = Some d -> useless (std64 np_sum (d_y d)) -> predict_std o X = Ok (ys, ss) ->
  exists noise, g_noise o = Some noise /\ Forall (fun s => s = fnan \/ feq s (fsqrt (fmul noise noise)) = true) ss.
Proof.
  intros Hd H E. destruct (predict_std_inv o d X ys ss Hd E) as (_ & z & s2 & Hz & _ & A). exists z. split; [exact Hz|].
  apply Forall_forall. intros s I. rewrite Forall_forall in A. destruct (A s I) as [t ->]. apply mse_useless. now apply useless_square.
Qed.
(** whatever training does, later predictions do not depend on the point *)
Theorem after_training o X Y s : useless (std64 np_sum Y) -> let o' := fst (train o X Y s) in
  (forall Xq ys, predict o' Xq = Ok ys -> Forall (fun y => y = fnan \/ feq y (mean64 np_sum Y) = true) ys) /\
  (forall Xq ys ss, predict_std o' Xq = Ok (ys, ss) -> exists noise, g_noise o' = Some noise /\ Forall (fun v => v = fnan \/ feq v (fsqrt (fmul noise noise)) = true) ss).
Proof.
  intros H o'. pose proof (train_data o X Y s : g_data o' = _) as D. split.
  - intros Xq ys. exact (predict_useless o' _ Xq ys D H).
  - intros Xq ys ss. exact (std_useless o' _ Xq ys ss D H).
Qed.

(** ** scaled responses without finite value *)
Hypothesis dot_ok : forall l, dot_of l (np_dot l).
Lemma dot_all k A B i j : (exists l, (l < k)%nat /\ (nonfin (A i l) \/ nonfin (B l j))) -> nonfin (dot k A B i j).
Proof. intros (l & Hl & H). apply (dot_nonfin _ _ (dot_ok _)). exists (A i l), (B l j). split; [|exact H]. apply in_map_iff. exists l. split; [reflexivity|]. apply in_seq. lia. Qed.
Lemma dot_all_nan k A B i j : (exists l, (l < k)%nat /\ (A i l = fnan \/ B l j = fnan)) -> dot k A B i j = fnan.
Proof. intros (l & Hl & H). apply (dot_nan _ _ (dot_ok _)). exists (A i l), (B l j). split; [|exact H]. apply in_map_iff. exists l. split; [reflexivity|]. apply in_seq. lia. Qed.
Lemma solve2_nonfin n L B Z : solve_keeps np_solve -> solve2 n 1 L B = Ok Z -> (forall i, (i < n)%nat -> nonfin (B i 0%nat)) -> forall i, (i < n)%nat -> nonfin (Z i 0%nat).
Proof.
  intros K. unfold TrainFl.solve2. destruct (np_solve n 1 L B) as [W|] eqn:E1; [|discriminate]. cbn [bind]. intros E2 H.
  apply (K _ _ _ _ _ E2 0%nat); [lia|]. apply (K _ _ _ _ _ E1 0%nat); [lia|exact H].
Qed.
Lemma column_nonfin (Y : list b64) n : length Y = n -> Forall nonfin Y -> forall i, (i < n)%nat -> nonfin (column Y i 0%nat).
Proof. intros L H i Hi. rewrite Forall_forall in H. apply H. apply nth_In. lia. Qed.
Lemma column_nan (Y : list b64) : Forall (eq fnan) Y -> forall i, column Y i 0%nat = fnan.
Proof. intros H i. unfold column. destruct (nth_in_or_default i Y fnan) as [I|E]; [|exact E]. rewrite Forall_forall in H. symmetry. now apply H. Qed.

(** a successful update on such responses stores non-finite coefficients *)
Lemma update_nonfin o d h o' : solve_keeps np_solve -> (0 < p)%nat -> (0 < length (d_x d))%nat -> length (d_scaled_y d) = length (d_x d) ->
  Forall nonfin (d_scaled_y d) -> g_data o = Some d -> g_opt o = Some h -> update o = (o', Ok tt) ->
  (exists beta, get_rows (g_attr o' abeta) p = Ok beta /\ forall i, (i < p)%nat -> nonfin (beta i 0%nat)) /\
  (exists sigma2, get_rows (g_attr o' asigma2) 1 = Ok sigma2 /\ nonfin (sigma2 0%nat 0%nat)).
Proof.
  intros K Hp Hn HL HY Hd Hh. unfold update64. rewrite Hd, Hh. cbn [get64 step]. cbv zeta.
  set (n := length (d_x d)) in *. set (KM := covariance64 _ _ _ _ _ _). set (Y := column (d_scaled_y d)). set (f := regr64 basis (d_scaled_x d)).
  destruct (np_cholesky n KM) as [L|]; cbn [step]; [|discriminate].
  destruct (solve2 n 1 L Y) as [alpha|] eqn:E1; cbn [step]; [|discriminate].
  destruct (solve2 n p L f) as [KF|]; cbn [step]; [|discriminate].
  destruct (np_cholesky p (dot n (transpose f) KF)) as [ld|]; cbn [step]; [|discriminate].
  destruct (solve2 p 1 ld (dot n (transpose f) alpha)) as [beta|] eqn:E2; cbn [step]; [|discriminate].
  destruct (solve2 n 1 L (minus Y (dot p f beta))) as [gamma|]; cbn [step]; [|discriminate].
  intros E. injection E as <-.
  assert (NY : forall i, (i < n)%nat -> nonfin (Y i 0%nat)) by (apply column_nonfin; assumption).
  pose proof (solve2_nonfin n L Y alpha K E1 NY) as NA.
  assert (NB : forall i, (i < p)%nat -> nonfin (beta i 0%nat)).
  { apply (solve2_nonfin p ld _ beta K E2). intros i _. apply dot_all. exists 0%nat. split; [lia|]. right. apply NA. lia. }
  split.
  - exists beta. cbn. rewrite Nat.eqb_refl. split; [reflexivity|exact NB].
  - eexists. cbn. split; [reflexivity|]. cbn beta. unfold sigma2_64. apply fdiv_nonfin, dot_all. exists 0%nat. split; [lia|]. left. unfold transpose, minus. apply fsub_nonfin_l, NY. lia.
Qed.
Lemma scaled_useless Y : useless (std64 np_sum Y) -> Forall nonfin (normalize_output64 np_sum Y).
Proof. intros H. unfold normalize_output64. cbv zeta. apply Forall_forall. intros y I. apply in_map_iff in I. destruct I as (z & <- & _). now apply useless_div. Qed.
Lemma scaled_length Y : length (normalize_output64 np_sum Y) = length Y.
Proof. apply map_length. Qed.

Lemma trained_nonfin o X Y s o' : solve_keeps np_solve -> (0 < p)%nat -> X <> [] -> length Y = length X ->
  Forall nonfin (normalize_output64 np_sum Y) -> train o X Y s = (o', Ok tt) ->
  g_data o' = Some (dataset X Y) /\
  (exists beta, get_rows (g_attr o' abeta) p = Ok beta /\ forall i, (i < p)%nat -> nonfin (beta i 0%nat)) /\
  (exists sigma2, get_rows (g_attr o' asigma2) 1 = Ok sigma2 /\ nonfin (sigma2 0%nat 0%nat)).
Proof.
  intros K Hp HX HL HY E. split; [pose proof (train_data o X Y s) as D; now rewrite E in D|].
  destruct (train_cases o X Y s) as [(e & _ & F)|(h & _ & F)]; rewrite E in F; [discriminate F|]. symmetry in F.
  apply (update_nonfin (put_opt64 (put_data64 o (dataset X Y)) h) (dataset X Y) h o' K Hp); try exact F; try reflexivity; cbn.
  - destruct X; [easy|cbn; lia].
  - now rewrite scaled_length.
  - exact HY.
Qed.
Lemma predict_nonfin o d beta X ys : (0 < p)%nat -> g_data o = Some d -> get_rows (g_attr o abeta) p = Ok beta -> (forall i, (i < p)%nat -> nonfin (beta i 0%nat)) ->
  predict o X = Ok ys -> Forall (fun y => exists v, nonfin v /\ y = restored64 np_sum (d_y d) v) ys.
Proof.
  intros Hp Hd Hb NB. unfold predict64. rewrite Hd, Hb. cbn [get64 bind]. cbv zeta. destruct (get_rows (g_attr o agamma) _) as [gamma|]; [|discriminate]. cbn [bind].
  intros E. injection E as <-. apply Forall_forall. intros y I. apply in_map_iff in I. destruct I as (j & <- & _). eexists. split; [|reflexivity].
  apply fadd_nonfin_l, dot_all. exists 0%nat. split; [exact Hp|]. right. now apply NB.
Qed.
(** a successful training gives means that are not finite *)
Theorem trained_means o X Y s o' : solve_keeps np_solve -> (0 < p)%nat -> X <> [] -> length Y = length X ->
  Forall (fun y => isfin y = false) (normalize_output64 np_sum Y) -> train o X Y s = (o', Ok tt) ->
  forall Xq ys, predict o' Xq = Ok ys -> Forall (fun y => isfin y = false) ys.
Proof.
  intros K Hp HX HL HY E Xq ys P. destruct (trained_nonfin o X Y s o' K Hp HX HL HY E) as (D & (beta & Hb & NB) & _).
  pose proof (predict_nonfin o' _ beta Xq ys Hp D Hb NB P) as A. eapply Forall_impl; [|exact A]. intros y (v & N & ->). unfold restored64. now apply fadd_nonfin_l, fmul_nonfin_l.
Qed.
(** with a useless standard deviation everything predicted is NaN *)
Theorem trained_useless o X Y s o' : solve_keeps np_solve -> (0 < p)%nat -> X <> [] -> length Y = length X ->
  useless (std64 np_sum Y) -> train o X Y s = (o', Ok tt) ->
  (forall Xq ys, predict o' Xq = Ok ys -> Forall (eq fnan) ys) /\
  (forall Xq ys ss, predict_std o' Xq = Ok (ys, ss) -> Forall (eq fnan) ys /\ Forall (eq fnan) ss).
Proof.
  intros K Hp HX HL HU E. destruct (trained_nonfin o X Y s o' K Hp HX HL (scaled_useless Y HU) E) as (D & (beta & Hb & NB) & (s2 & Hs & Ns)).
  assert (M : forall Xq ys, predict o' Xq = Ok ys -> Forall (eq fnan) ys).
  { intros Xq ys P. pose proof (predict_nonfin o' _ beta Xq ys Hp D Hb NB P) as A. eapply Forall_impl; [|exact A]. intros y (v & N & ->). unfold restored64. change (d_y (dataset X Y)) with Y. now rewrite (useless_mul v _ HU N). }
  split; [exact M|]. intros Xq ys ss P. destruct (predict_std_inv o' _ Xq ys ss D P) as (P1 & z & s2' & _ & Hs' & A). split; [exact (M Xq ys P1)|].
  rewrite Hs in Hs'. injection Hs' as <-. eapply Forall_impl; [|exact A]. intros v (t & ->). symmetry. change (d_y (dataset X Y)) with Y.
  rewrite (useless_mul _ _ (useless_square _ HU)); [reflexivity|]. now apply fmul_nonfin_l.
Qed.

(** ** the default optimiser on responses that are scaled to NaN *)
Lemma objective_nan noise d h v : log_keeps np_log -> (0 < length (d_x d))%nat -> Forall (eq fnan) (d_scaled_y d) -> objective noise d h = Ok v -> v = fnan.
Proof.
  intros HL Hn HY. unfold loglik64. cbv zeta. set (n := length (d_x d)) in *. set (KM := covariance64 _ _ _ _ _ _). set (Y := column (d_scaled_y d)). set (f := regr64 basis (d_scaled_x d)).
  destruct (np_cholesky n KM) as [L|]; cbn [bind]; [|discriminate]. destruct (solve2 n 1 L Y) as [alpha|]; cbn [bind]; [|discriminate].
  destruct (solve2 n p L f) as [KF|]; cbn [bind]; [|discriminate]. destruct (np_cholesky p (dot n (transpose f) KF)) as [ld|]; cbn [bind]; [|discriminate].
  destruct (solve2 p 1 ld (dot n (transpose f) alpha)) as [beta|]; cbn [bind]; [|discriminate]. destruct (solve2 n 1 L (minus Y (dot p f beta))) as [gamma|]; cbn [bind]; [|discriminate].
  intros E. injection E as <-.
  assert (S : sigma2_64 np_dot p n Y f beta gamma = fnan).
  { unfold sigma2_64. rewrite dot_all_nan; [reflexivity|]. exists 0%nat. split; [exact Hn|]. left. unfold transpose, minus. unfold Y. rewrite (column_nan _ HY). reflexivity. }
  rewrite S. assert (T : (if match noise with Some s => feq s f0 | None => false end then np_log fnan else fnan) = fnan) by (destruct (match noise with Some s => feq s f0 | None => false end); [exact HL|reflexivity]).
  rewrite T. unfold logp64. rewrite fmul_nan_r. reflexivity.
Qed.
Lemma multistart_nan ts : (forall t, In t ts -> tr_fun t = fnan) -> forall b v, multistart64 b v ts = match b with Some x => Ok x | None => Raise UnboundLocalError end.
Proof. induction ts as [|t ts IH]; intros H b v; [reflexivity|]. cbn. rewrite (H t (or_introl eq_refl)). change (flt fnan v) with false. cbv iota. apply IH. intros u I. apply H. now right. Qed.
Lemma queries_ok f qs h : run_queries64 f qs = Ok tt -> In h qs -> exists v, f h = Ok v.
Proof. induction qs as [|q qs IH]; intros E I; [destruct I|]. cbn in E. destruct (f q) as [v|] eqn:F; [|discriminate E]. cbn in E. destruct I as [->|I]; [eauto|now apply IH]. Qed.
Theorem default_raises o X Y t : log_keeps np_log -> (forall n A, only_linalg (np_cholesky n A)) -> (forall n m A B, only_linalg (np_solve n m A B)) ->
  X <> [] -> Forall (eq fnan) (normalize_output64 np_sum Y) ->
  (forall i, In (tr_x (t i)) (tr_queries (t i)) /\ forall v, objective (g_noise o) (dataset X Y) (tr_x (t i)) = Ok v -> tr_fun (t i) = v) ->
  exists e, train o X Y (Lbfgs64 t) = (put_data64 o (dataset X Y), Raise e) /\ (e = LinAlgError \/ e = UnboundLocalError).
Proof.
  intros HL HC HS HX HY HT. unfold train64. cbv zeta.
  assert (S : exists e, hyper_search64 (g_restart o) (objective (g_noise o) (dataset X Y)) (Lbfgs64 t) = Raise e /\ (e = LinAlgError \/ e = UnboundLocalError)).
  { cbn [hyper_search64]. cbv zeta. set (ts := map t _). destruct (run_queries64 _ _) as [[]|e] eqn:E; cbn [bind].
    - exists UnboundLocalError. split; [|now right]. rewrite multistart_nan; [reflexivity|]. intros u I. unfold ts in I. apply in_map_iff in I. destruct I as (i & <- & I). destruct (HT i) as [Q V].
      destruct (queries_ok _ _ (tr_x (t i)) E) as [v Ev]; [apply in_flat_map; exists (t i); split; [unfold ts; now apply in_map|exact Q]|].
      rewrite (V v Ev). apply (objective_nan (g_noise o) (dataset X Y) (tr_x (t i)) v HL); [cbn; destruct X; [easy|cbn; lia]|exact HY|exact Ev].
    - exists e. split; [reflexivity|]. left. apply (queries_exn _ _ e) in E; [exact E|]. intros h e'. apply objective_exn; assumption. }
  destruct S as (e & -> & He). exists e. split; [reflexivity|exact He].
Qed.

(** ** a noise to be learned *)
Lemma damage o X Y qs x : g_noise o = None ->
  (exists e, train o X Y (Evolution64 qs x) = (put_data64 o (dataset X Y), Raise e)) \/
  (let o' := fst (train o X Y (Evolution64 qs x)) in
   g_noise o' = Some (fmul (sigma64 x) (std64 np_sum Y)) /\ g_param o' = params64 np_pow10 (theta64 x)).
Proof.
  intros Hn. destruct (train_cases o X Y (Evolution64 qs x)) as [(e & _ & ->)|(h & S & ->)]; [left; eauto|right]. cbv zeta.
  rewrite search_evolution in S. destruct (run_queries64 _ _) as [u|]; [|discriminate S]. injection S as <-.
  destruct (update_frame (put_opt64 (put_data64 o (dataset X Y)) x) (dataset X Y) x eq_refl eq_refl) as (_ & _ & _ & P & N).
  split; [rewrite N; cbn [put_opt64 put_data64 g_noise]; now rewrite Hn|exact P].
Qed.
Lemma sigma_zero x s : isfin x = true -> feq s f0 = true -> feq (fmul x s) f0 = true.
Proof. intros F H. destruct (zero_cases s H) as [b ->]. destruct x as [c|c| |c m e B]; try discriminate F; now destruct b, c. Qed.
Lemma learned_noise o X Y qs x : g_noise o = None -> isfin (sigma64 x) = true ->
  (exists e, train o X Y (Evolution64 qs x) = (put_data64 o (dataset X Y), Raise e)) \/
  (exists v, g_noise (fst (train o X Y (Evolution64 qs x))) = Some v /\
     (feq (std64 np_sum Y) f0 = true -> feq v f0 = true) /\ (std64 np_sum Y = fnan -> v = fnan)).
Proof.
  intros Hn Hs. destruct (damage o X Y qs x Hn) as [H|[H _]]; [now left|right]. eexists. split; [exact H|]. split; [exact (sigma_zero _ _ Hs)|]. intros ->. apply fmul_nan_r.
Qed.
(** standard deviations with a noise that is NaN *)
Lemma nan_noise o X ys ss : g_noise o = Some fnan -> predict_std o X = Ok (ys, ss) -> Forall (eq fnan) ss.
Proof.
  intros N E. assert (D : exists d, g_data o = Some d).
  { unfold predict_std64, predict64 in E. destruct (g_data o) as [d|]; [eauto|discriminate E]. }
  destruct D as [d D]. destruct (predict_std_inv o d X ys ss D E) as (_ & z & s2 & Hz & _ & A). rewrite N in Hz. injection Hz as <-.
  eapply Forall_impl; [|exact A]. intros v (t & ->). rewrite fmul_nan_l, fadd_nan_r. reflexivity.
Qed.
(** training keeps a noise that is there *)
Lemma keeps_noise o X Y s v : g_noise o = Some v -> g_noise (fst (train o X Y s)) = Some v.
Proof.
  intros H. destruct (train_cases o X Y s) as [(e & _ & ->)|(h & _ & ->)]; [exact H|].
  destruct (update_frame (put_opt64 (put_data64 o (dataset X Y)) h) (dataset X Y) h eq_refl eq_refl) as (_ & _ & _ & _ & N). rewrite N. cbn [put_opt64 put_data64 g_noise]. now rewrite H.
Qed.
Lemma keeps_restart o X Y s : g_restart (fst (train o X Y s)) = g_restart o.
Proof.
  destruct (train_cases o X Y s) as [(e & _ & ->)|(h & _ & ->)]; [reflexivity|].
  destruct (update_frame (put_opt64 (put_data64 o (dataset X Y)) h) (dataset X Y) h eq_refl eq_refl) as (_ & _ & R & _). exact R.
Qed.

(** ** two objects with the same noise and the same optimiser settings are trained alike *)
Lemma update_same o o' : g_data o = g_data o' -> g_opt o = g_opt o' -> g_noise o = g_noise o' -> g_restart o = g_restart o' ->
  snd (update o) = snd (update o') /\
  (snd (update o) = Ok tt -> g_noise (fst (update o)) = g_noise (fst (update o')) /\ g_param (fst (update o)) = g_param (fst (update o')) /\
     g_data (fst (update o)) = g_data (fst (update o')) /\ g_opt (fst (update o)) = g_opt (fst (update o')) /\ forall a, g_attr (fst (update o)) a = g_attr (fst (update o')) a).
Proof.
  intros Hd Hh Hn Hr. unfold update64. rewrite <- Hd, <- Hh, <- Hn.
  destruct (g_data o) as [d|] eqn:D; cbn [get64 step]; [|split; [reflexivity|discriminate]].
  destruct (g_opt o) as [h|] eqn:H; cbn [get64 step]; [|split; [reflexivity|discriminate]]. cbv zeta. cbn [put_noise64 put_param64 g_param].
  repeat match goal with |- context [step _ ?r _] => destruct r; cbn [step fst snd]; [|split; [reflexivity|discriminate]] end.
  split; [reflexivity|]. intros _. cbn. repeat split; try congruence. now intros [].
Qed.
Theorem trained_alike o o' X Y s : g_noise o = g_noise o' -> g_restart o = g_restart o' ->
  snd (train o X Y s) = snd (train o' X Y s) /\
  (snd (train o X Y s) = Ok tt ->
   let a := fst (train o X Y s) in let b := fst (train o' X Y s) in
   g_noise a = g_noise b /\ g_param a = g_param b /\ g_data a = g_data b /\ g_opt a = g_opt b /\ forall q, g_attr a q = g_attr b q).
Proof.
  intros Hn Hr. unfold train64. cbv zeta. rewrite <- Hn, <- Hr. destruct (hyper_search64 _ _ _) as [h|e]; cbn [step]; [|split; [reflexivity|discriminate]].
  apply update_same; cbn; congruence.
Qed.

(** ** a factorisation that stops at NaN *)
Hypothesis chol_ok : forall n A, cholesky64 n A (np_cholesky n A).
Hypothesis solve_only : forall n m A B, only_linalg (np_solve n m A B).
Lemma chol_only n A : only_linalg (np_cholesky n A).
Proof. destruct (chol_ok n A); [exact I|reflexivity]. Qed.
Section Failing.
Hypothesis solve_ok : solve_one np_solve.
Hypothesis constant : forall x, nth 0 (basis x) f0 = f1.
Hypothesis p_pos : (0 < p)%nat.
Lemma chol_bad n param sigma X : (0 < n)%nat -> nonfin sigma -> let K := covariance64 np_sum np_dot np_exp param sigma X in
  np_cholesky n K = Raise LinAlgError \/ (n = 1%nat /\ exists L, np_cholesky n K = Ok L /\ L 0%nat 0%nat = finf).
Proof.
  intros Hn Hs K. pose proof (chol_ok n K) as C. destruct (cov_diag np_sum np_dot np_exp param sigma X Hs) as [E|E].
  - left. exact (chol_nan00 n K _ Hn E C).
  - destruct (Nat.eq_dec n 1) as [->|N1].
    + destruct (np_cholesky 1 K) as [L|e] eqn:F; [right|left].
      * split; [reflexivity|]. exists L. split; [reflexivity|]. apply (chol_inf00 1 K L Hn E). exact C.
      * inversion C. reflexivity.
    + left. apply (chol_nan10 n K _); [lia|apply cov_off, Hs|exact C].
Qed.
Lemma ld_bad L X KF : L 0%nat 0%nat = finf -> solve2 1 p L (regr64 basis X) = Ok KF -> np_cholesky p (dot 1 (transpose (regr64 basis X)) KF) = Raise LinAlgError.
Proof.
  intros HL. unfold TrainFl.solve2. destruct (np_solve 1 p L (regr64 basis X)) as [W|] eqn:E1; [|discriminate]. cbn [bind]. intros E2.
  assert (F : regr64 basis X 0%nat 0%nat = f1) by (unfold regr64; apply constant).
  assert (V1 : W 0%nat 0%nat = f0) by (destruct (solve_ok p _ _ _ E1 0%nat p_pos) as [-> | ->]; rewrite F, HL; reflexivity).
  assert (V2 : KF 0%nat 0%nat = f0) by (destruct (solve_ok p _ _ _ E2 0%nat p_pos) as [-> | ->]; unfold transpose; rewrite V1, HL; reflexivity).
  apply (chol_zero00 p (dot 1 (transpose (regr64 basis X)) KF) _ p_pos); [|apply chol_ok]. unfold dot64. cbn [seq map]. unfold transpose. rewrite F, V2.
  destruct (dot_of_one _ _ _ (dot_ok [(f1, f0)])) as [-> | ->]; reflexivity.
Qed.
Lemma update_bad o d h : g_data o = Some d -> g_opt o = Some h -> (0 < length (d_x d))%nat -> useless (std64 np_sum (d_y d)) -> snd (update o) = Raise LinAlgError.
Proof.
  intros Hd Hh Hn HU. destruct (snd (update o)) as [[]|e] eqn:E; [|f_equal; exact (update_exn o d h e chol_only solve_only Hd Hh E)].
  exfalso. revert E. unfold update64. rewrite Hd, Hh. cbn [get64 step]. cbv zeta. cbn [put_noise64 put_param64 g_param].
  set (z := match g_noise o with Some s => s | None => _ end).
  destruct (chol_bad (length (d_x d)) (params64 np_pow10 (theta64 h)) (fdiv z (std64 np_sum (d_y d))) (d_scaled_x d) Hn (useless_div _ _ HU)) as [-> |(N1 & L & -> & HL)]; cbn [step snd]; [discriminate|].
  rewrite N1. destruct (solve2 1 1 L _) as [alpha|]; cbn [step snd]; [|discriminate]. destruct (solve2 1 p L _) as [KF|] eqn:EK; cbn [step snd]; [|discriminate].
  rewrite (ld_bad L (d_scaled_x d) KF HL EK). discriminate.
Qed.
Lemma objective_bad v d h : (0 < length (d_x d))%nat -> useless (std64 np_sum (d_y d)) \/ v = fnan -> objective (Some v) d h = Raise LinAlgError.
Proof.
  intros Hn HU. destruct (objective (Some v) d h) as [r|e] eqn:E; [|f_equal; exact (objective_exn (Some v) d h e chol_only solve_only E)].
  exfalso. revert E. unfold loglik64. cbv zeta.
  assert (NS : nonfin (fdiv v (std64 np_sum (d_y d)))) by (destruct HU as [HU| ->]; [exact (useless_div v _ HU)|reflexivity]).
  destruct (chol_bad (length (d_x d)) (params64 np_pow10 (theta64 h)) (fdiv v (std64 np_sum (d_y d))) (d_scaled_x d) Hn NS) as [-> |(N1 & L & -> & HL)]; cbn [bind]; [discriminate|].
  rewrite N1. destruct (solve2 1 1 L _) as [alpha|]; cbn [bind]; [|discriminate]. destruct (solve2 1 p L _) as [KF|] eqn:EK; cbn [bind]; [|discriminate].
  rewrite (ld_bad L (d_scaled_x d) KF HL EK). discriminate.
Qed.
Lemma data_pos X Y : X <> [] -> (0 < length (d_x (dataset X Y)))%nat. Proof. intros H. cbn. destruct X; [easy|apply Nat.lt_0_succ]. Qed.
(** training always raises *)
Theorem always_raises o X Y s : X <> [] -> useless (std64 np_sum Y) ->
  exists e, snd (train o X Y s) = Raise e /\ (e = LinAlgError \/ e = UnboundLocalError).
Proof.
  intros HX HU. destruct (train_cases o X Y s) as [(e & S & ->)|(h & S & ->)].
  - exists e. split; [reflexivity|]. apply (search_exn _ _ _ _ (fun h e => objective_exn _ _ h e chol_only solve_only) S).
  - exists LinAlgError. split; [|now left]. apply (update_bad (put_opt64 (put_data64 o (dataset X Y)) h) (dataset X Y) h); try reflexivity; [now apply data_pos|exact HU].
Qed.
(** with a given noise it changes only the data *)
Lemma queries_bad f qs : qs <> [] -> (forall h, f h = Raise LinAlgError) -> run_queries64 f qs = Raise LinAlgError.
Proof. intros N H. destruct qs as [|q qs]; [easy|]. cbn. now rewrite H. Qed.
Definition evaluates (restart : nat) (s : search64) : Prop := match s with Lbfgs64 t => tr_queries (t 0%nat) <> [] | Evolution64 qs _ => qs <> [] end.
Lemma search_bad restart f s : evaluates restart s -> (forall h, f h = Raise LinAlgError) -> hyper_search64 restart f s = Raise LinAlgError.
Proof.
  intros E H. destruct s as [t|qs x]; cbn in E.
  - cbn [hyper_search64]. cbv zeta. rewrite queries_bad; [reflexivity| |exact H]. cbn. destruct (tr_queries (t 0%nat)); [easy|discriminate].
  - cbn [hyper_search64]. now rewrite queries_bad.
Qed.
Theorem given_noise o v X Y s : g_noise o = Some v -> X <> [] -> useless (std64 np_sum Y) -> evaluates (g_restart o) s ->
  train o X Y s = (put_data64 o (dataset X Y), Raise LinAlgError).
Proof.
  intros Hv HX HU HE. unfold train64. cbv zeta. rewrite (search_bad _ _ s HE); [reflexivity|].
  intros h. rewrite Hv. apply objective_bad; [now apply data_pos|now left].
Qed.
(** once the noise is NaN no training succeeds any more *)
Lemma update_poisoned o d h : g_noise o = Some fnan -> g_data o = Some d -> g_opt o = Some h -> (0 < length (d_x d))%nat -> snd (update o) = Raise LinAlgError.
Proof.
  intros N Hd Hh Hn. unfold update64. rewrite N, Hd, Hh. cbn [get64 step]. cbv zeta. rewrite fdiv_nan_l.
  match goal with |- context [np_cholesky ?n ?A] => rewrite (chol_nan00 n A _ Hn (cov_nan _ _ _ _ _ 0 0) (chol_ok n A)) end. reflexivity.
Qed.
Lemma poisoned_step o X Y s : g_noise o = Some fnan -> X <> [] -> exists e, snd (train o X Y s) = Raise e /\ (e = LinAlgError \/ e = UnboundLocalError).
Proof.
  intros N HX. destruct (train_cases o X Y s) as [(e & S & ->)|(h & S & ->)].
  - exists e. split; [reflexivity|]. apply (search_exn _ _ _ _ (fun h e => objective_exn _ _ h e chol_only solve_only) S).
  - exists LinAlgError. split; [|now left]. apply (update_poisoned (put_opt64 (put_data64 o (dataset X Y)) h) (dataset X Y) h); try reflexivity; [exact N|now apply data_pos].
Qed.
Theorem poisoned o calls : g_noise o = Some fnan -> forall X Y s, X <> [] ->
  exists e, snd (train (fold_left (fun a c => fst (train a (fst (fst c)) (snd (fst c)) (snd c))) calls o) X Y s) = Raise e /\ (e = LinAlgError \/ e = UnboundLocalError).
Proof.
  intros N X Y s HX. apply poisoned_step; [|exact HX]. revert o N. induction calls as [|c calls IH]; intros o N; [exact N|]. cbn [fold_left]. apply IH. now apply keeps_noise.
Qed.
End Failing.
End Main.
