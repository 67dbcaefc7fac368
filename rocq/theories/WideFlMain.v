(** Training on responses whose standard deviation overflows. *)
From Coq Require Import ZArith Bool List Reals Lra Lia Permutation.
From Flocq Require Import Core IEEE754.BinarySingleNaN.
From Verif Require Import Fl NpList FlFacts KernelFl CholFl OutputFl OutputFlThms TrainFl TrainFlSpec WideFlSpec CKTrainFl CKTrainFlMain TrainFlFacts TrainFlMain.
Import ListNotations.

Definition same_outcome {A B} (r : result A) (r' : result B) : Prop := match r, r' with Ok _, Ok _ => True | Raise e, Raise e' => e = e' | _, _ => False end.
Lemma std_wide mse s z : nonfin s -> let v := fsqrt (fmaximum (fadd (fmul mse (fmul s s)) (fmul z z)) f0) in nonfin v \/ feq v f0 = true.
Proof.
  intros H v. unfold v. set (x := fadd _ _). assert (N : nonfin x) by (apply fadd_nonfin_l, fmul_nonfin_r, fmul_nonfin_l, H).
  destruct (nonfin_cases x N) as [-> |[[|] ->]]; [now left|now right|now left].
Qed.
Lemma zero_div_fin s : isfin s = true -> feq s f0 = false -> forall b, exists c, fdiv (B754_zero b) s = B754_zero c.
Proof. intros F Z b. destruct s as [t|t| |t m e B]; try discriminate F; [now destruct t|]. eexists. reflexivity. Qed.
Lemma fin_div_inf v : isfin v = true -> exists c, fdiv v finf = B754_zero c.
Proof. intros F. destruct v as [t|t| |t m e B]; try discriminate F; eexists; reflexivity. Qed.

Section GP.
Variables (np_sum : list b64 -> b64) (np_dot : list (b64 * b64) -> b64) (np_exp np_log np_pow10 : b64 -> b64).
Variable np_cholesky : nat -> array -> result array.
Variable np_solve : nat -> nat -> array -> array -> result array.
Variables (basis : row -> row) (p : nat).
Variable bounds : box.
Local Notation train := (train64 np_sum np_dot np_exp np_log np_pow10 np_cholesky np_solve basis p bounds).
Local Notation update := (update64 np_sum np_dot np_exp np_log np_pow10 np_cholesky np_solve basis p).
Local Notation objective := (loglik64 np_sum np_dot np_exp np_log np_pow10 np_cholesky np_solve basis p).
Local Notation predict := (predict64 np_sum np_dot np_exp basis p bounds).
Local Notation predict_std := (predict_std64 np_sum np_dot np_exp np_solve basis p bounds).
Local Notation solve2 := (solve2 np_solve).
Local Notation dot := (dot64 np_dot).
Local Notation dataset := (dataset64 np_sum bounds).

Lemma restored_wide Y v : nonfin (std64 np_sum Y) -> nonfin (restored64 np_sum Y v).
Proof. intros H. unfold restored64. apply fadd_nonfin_l, fmul_nonfin_r, H. Qed.
Theorem after_wide o X Y s : isfin (std64 np_sum Y) = false -> let o' := fst (train o X Y s) in
  (forall Xq ys, predict o' Xq = Ok ys -> Forall (fun y => isfin y = false) ys) /\
  (forall Xq ys ss, predict_std o' Xq = Ok (ys, ss) -> Forall (fun v => isfin v = false \/ feq v f0 = true) ss).
Proof.
  intros H o'. pose proof (train_data np_sum np_dot np_exp np_log np_pow10 np_cholesky np_solve basis p bounds o X Y s : g_data o' = _) as D. split.
  - intros Xq ys. unfold predict64. rewrite D. cbn [get64 bind]. cbv zeta. destruct (get_rows (g_attr o' abeta) p) as [beta|]; [|discriminate]. cbn [bind].
    destruct (get_rows (g_attr o' agamma) _) as [gamma|]; [|discriminate]. cbn [bind]. intros E. injection E as <-.
    apply Forall_forall. intros y I. apply in_map_iff in I. destruct I as (j & <- & _). now apply restored_wide.
  - intros Xq ys ss E. destruct (predict_std_inv np_sum np_dot np_exp np_solve basis p bounds o' _ Xq ys ss D E) as (_ & z & s2 & _ & _ & A).
    apply Forall_forall. intros v I. rewrite Forall_forall in A. destruct (A v I) as [t ->]. now apply std_wide.
Qed.
(** a training that returned: nothing is noticed *)
Lemma update_attrs o d h o' : g_data o = Some d -> g_opt o = Some h -> update o = (o', Ok tt) ->
  (exists b, g_attr o' abeta = Some (Arr p b)) /\ (exists g, g_attr o' agamma = Some (Arr (length (d_x d)) g)).
Proof.
  intros Hd Hh. unfold update64. rewrite Hd, Hh. cbn [get64 step]. cbv zeta.
  repeat match goal with |- context [step _ ?r _] => destruct r as [?|?]; cbn [step]; [|discriminate] end.
  intros E. injection E as <-. cbn. split; eexists; reflexivity.
Qed.
Theorem silent_wide o X Y s : isfin (std64 np_sum Y) = false -> snd (train o X Y s) = Ok tt ->
  forall Xq, exists ys, predict (fst (train o X Y s)) Xq = Ok ys /\ length ys = length Xq /\ Forall (fun y => isfin y = false) ys.
Proof.
  intros H E Xq. pose proof (proj1 (after_wide o X Y s H) Xq) as W. revert W.
  destruct (train_cases np_sum np_dot np_exp np_log np_pow10 np_cholesky np_solve basis p bounds o X Y s) as [(e & _ & T)|(h & _ & T)]; [rewrite T in E; discriminate E|].
  rewrite T in *. set (o1 := put_opt64 _ h) in *. destruct (update o1) as [o' r] eqn:U. cbn [fst snd] in *. subst r.
  destruct (update_attrs o1 (dataset X Y) h o' eq_refl eq_refl U) as [[b Hb] [g Hg]].
  destruct (update_frame np_sum np_dot np_exp np_log np_pow10 np_cholesky np_solve basis p o1 (dataset X Y) h eq_refl eq_refl) as (D & _). rewrite U in D. cbn [fst] in D.
  unfold predict64. rewrite D, Hb, Hg. unfold get_rows. cbn [get64 bind arr_rows arr_at]. rewrite !Nat.eqb_refl. cbn [bind]. intros W.
  eexists. split; [reflexivity|]. split; [now rewrite map_length, seq_length|]. apply W. reflexivity.
Qed.

(** ** a given noise *)
Hypothesis by_matrix : solve_by_matrix np_solve.
Lemma solve_outcome n m L B B' : same_outcome (solve2 n m L B) (solve2 n m L B').
Proof.
  unfold TrainFl.solve2. destruct (np_solve n m L B) as [W|e] eqn:E; [|rewrite (by_matrix _ _ _ _ B' _ E); reflexivity].
  destruct (np_solve n m L B') as [W'|e] eqn:E'; [|rewrite (by_matrix _ _ _ _ B _ E') in E; discriminate E]. cbn [bind].
  destruct (np_solve n m (transpose L) W) as [V|e] eqn:E2; [|rewrite (by_matrix _ _ _ _ W' _ E2); reflexivity].
  destruct (np_solve n m (transpose L) W') as [V'|e] eqn:E2'; [|rewrite (by_matrix _ _ _ _ W _ E2') in E2; discriminate E2]. exact I.
Qed.
Lemma cov_zero param b c X : covariance64 np_sum np_dot np_exp param (B754_zero b) X = covariance64 np_sum np_dot np_exp param (B754_zero c) X.
Proof. now destruct b, c. Qed.
Lemma objective_wide v v0 b c d d0 h : fdiv v (std64 np_sum (d_y d)) = B754_zero b -> fdiv v0 (std64 np_sum (d_y d0)) = B754_zero c ->
  d_x d = d_x d0 -> d_scaled_x d = d_scaled_x d0 -> same_outcome (objective (Some v) d h) (objective (Some v0) d0 h).
Proof.
  intros E E0 Ex Es. unfold loglik64. cbv zeta. rewrite E, E0, Ex, Es, (cov_zero _ b c). set (n := length _). set (K := covariance64 _ _ _ _ _ _). set (f := regr64 _ _).
  destruct (np_cholesky n K) as [L|e]; cbn [bind]; [|reflexivity].
  pose proof (solve_outcome n 1 L (column (d_scaled_y d)) (column (d_scaled_y d0))) as S1. destruct (solve2 n 1 L (column (d_scaled_y d))) as [a|], (solve2 n 1 L (column (d_scaled_y d0))) as [a'|]; try destruct S1; cbn [bind]; try reflexivity.
  destruct (solve2 n p L f) as [KF|]; cbn [bind]; [|reflexivity]. destruct (np_cholesky p _) as [ld|]; cbn [bind]; [|reflexivity].
  match goal with |- context [solve2 p 1 ld (dot n (transpose f) a)] => pose proof (solve_outcome p 1 ld (dot n (transpose f) a) (dot n (transpose f) a')) as S2 end.
  destruct (solve2 p 1 ld (dot n (transpose f) a)) as [be|], (solve2 p 1 ld (dot n (transpose f) a')) as [be'|]; try destruct S2; cbn [bind]; try reflexivity.
  pose proof (solve_outcome n 1 L (minus (column (d_scaled_y d)) (dot p f be)) (minus (column (d_scaled_y d0)) (dot p f be'))) as S3.
  destruct (solve2 n 1 L (minus (column (d_scaled_y d)) _)) as [g|], (solve2 n 1 L (minus (column (d_scaled_y d0)) _)) as [g'|]; try destruct S3; cbn [bind]; reflexivity.
Qed.
Lemma update_wide v v0 b c o o0 d d0 h : fdiv v (std64 np_sum (d_y d)) = B754_zero b -> fdiv v0 (std64 np_sum (d_y d0)) = B754_zero c ->
  d_x d = d_x d0 -> d_scaled_x d = d_scaled_x d0 -> g_data o = Some d -> g_data o0 = Some d0 -> g_opt o = Some h -> g_opt o0 = Some h ->
  g_noise o = Some v -> g_noise o0 = Some v0 -> snd (update o) = snd (update o0).
Proof.
  intros E E0 Ex Es D D0 H H0 N N0. unfold update64. rewrite D, D0, H, H0, N, N0. cbn [get64 step]. cbv zeta. cbn [put_noise64 put_param64 g_param].
  rewrite E, E0, Ex, Es, (cov_zero _ b c). set (n := length _). set (K := covariance64 _ _ _ _ _ _). set (f := regr64 _ _).
  destruct (np_cholesky n K) as [L|e]; cbn [step snd]; [|reflexivity].
  pose proof (solve_outcome n 1 L (column (d_scaled_y d)) (column (d_scaled_y d0))) as S1. destruct (solve2 n 1 L (column (d_scaled_y d))) as [a|], (solve2 n 1 L (column (d_scaled_y d0))) as [a'|]; try destruct S1; cbn [step snd]; try reflexivity.
  destruct (solve2 n p L f) as [KF|]; cbn [step snd]; [|reflexivity]. destruct (np_cholesky p _) as [ld|]; cbn [step snd]; [|reflexivity].
  pose proof (solve_outcome p 1 ld (dot n (transpose f) a) (dot n (transpose f) a')) as S2.
  destruct (solve2 p 1 ld (dot n (transpose f) a)) as [be|], (solve2 p 1 ld (dot n (transpose f) a')) as [be'|]; try destruct S2; cbn [step snd]; try reflexivity.
  pose proof (solve_outcome n 1 L (minus (column (d_scaled_y d)) (dot p f be)) (minus (column (d_scaled_y d0)) (dot p f be'))) as S3.
  destruct (solve2 n 1 L (minus (column (d_scaled_y d)) _)) as [g|], (solve2 n 1 L (minus (column (d_scaled_y d0)) _)) as [g'|]; try destruct S3; cbn [step snd]; reflexivity.
Qed.
Lemma queries_same f f' qs : (forall h, same_outcome (f h) (f' h)) -> run_queries64 f qs = run_queries64 f' qs.
Proof.
  intros H. induction qs as [|q qs IH]; [reflexivity|]. cbn. specialize (H q). destruct (f q) as [v|e], (f' q) as [v'|e']; try destruct H; cbn [bind]; [exact IH|reflexivity].
Qed.
Lemma search_same restart f f' s : (forall h, same_outcome (f h) (f' h)) -> hyper_search64 restart f s = hyper_search64 restart f' s.
Proof. intros H. destruct s as [t|qs x]; cbn [hyper_search64]; cbv zeta; now rewrite (queries_same f f' _ H). Qed.
Theorem unnoticed o v X Y Y0 s : g_noise o = Some v -> isfin v = true -> std64 np_sum Y = finf ->
  isfin (std64 np_sum Y0) = true -> feq (std64 np_sum Y0) f0 = false ->
  snd (train o X Y s) = snd (train (new64 np_pow10 bounds (Some f0) (g_restart o)) X Y0 s).
Proof.
  intros N F E F0 Z0. destruct (fin_div_inf v F) as [b Eb]. destruct (zero_div_fin _ F0 Z0 false) as [c Ec].
  unfold train64. cbv zeta. cbn [new64 g_restart g_noise]. rewrite N.
  assert (E1 : fdiv v (std64 np_sum (d_y (dataset X Y))) = B754_zero b) by (cbn [dataset64 d_y]; rewrite E; exact Eb).
  assert (E2 : fdiv f0 (std64 np_sum (d_y (dataset X Y0))) = B754_zero c) by exact Ec.
  rewrite (search_same _ _ (objective (Some f0) (dataset X Y0)) s (fun h => objective_wide v f0 b c (dataset X Y) (dataset X Y0) h E1 E2 eq_refl eq_refl)).
  destruct (hyper_search64 _ _ _) as [h|e]; cbn [step snd]; [|reflexivity].
  apply (update_wide v f0 b c _ _ (dataset X Y) (dataset X Y0) h E1 E2); try reflexivity. exact N.
Qed.

(** ** a noise to be learned *)
Theorem learned_wide o X Y s : g_noise o = None -> isfin (std64 np_sum Y) = false ->
  (exists e, train o X Y s = (put_data64 o (dataset X Y), Raise e)) \/ (exists v, g_noise (fst (train o X Y s)) = Some v /\ isfin v = false).
Proof.
  intros N H. destruct (train_cases np_sum np_dot np_exp np_log np_pow10 np_cholesky np_solve basis p bounds o X Y s) as [(e & _ & T)|(h & _ & T)]; [left; eauto|right].
  destruct (update_frame np_sum np_dot np_exp np_log np_pow10 np_cholesky np_solve basis p (put_opt64 (put_data64 o (dataset X Y)) h) (dataset X Y) h eq_refl eq_refl) as (_ & _ & _ & _ & V).
  rewrite T, V. cbn [put_opt64 put_data64 g_noise]. rewrite N. eexists. split; [reflexivity|]. now apply fmul_nonfin_r.
Qed.
Hypothesis dot_ok : forall l, dot_of l (np_dot l).
Hypothesis chol_ok : forall n A, cholesky64 n A (np_cholesky n A).
Hypothesis solve_only : forall n m A B, only_linalg (np_solve n m A B).
Hypothesis solve_ok : solve_one np_solve.
Hypothesis constant : forall x, nth 0 (basis x) f0 = f1.
Hypothesis p_pos : (0 < p)%nat.
Lemma update_nonfin_noise o d h : g_data o = Some d -> g_opt o = Some h -> (0 < length (d_x d))%nat ->
  nonfin (match g_noise o with None => fmul (sigma64 h) (std64 np_sum (d_y d)) | Some z => z end) -> snd (update o) = Raise LinAlgError.
Proof.
  intros Hd Hh Hn HU. destruct (snd (update o)) as [[]|e] eqn:E;
    [|f_equal; exact (update_exn np_sum np_dot np_exp np_log np_pow10 np_cholesky np_solve basis p o d h e (chol_only np_cholesky chol_ok) solve_only Hd Hh E)].
  exfalso. revert E HU. unfold update64. rewrite Hd, Hh. cbn [get64 step]. cbv zeta. cbn [put_noise64 put_param64 g_param].
  set (z := match g_noise o with Some s => s | None => _ end). intros E HU. revert E.
  destruct (chol_bad np_sum np_dot np_exp np_cholesky p chol_ok p_pos (length (d_x d)) (params64 np_pow10 (theta64 h)) (fdiv z (std64 np_sum (d_y d))) (d_scaled_x d) Hn (fdiv_nonfin _ _ HU)) as [-> |(N1 & L & -> & HL)]; cbn [step snd]; [discriminate|].
  rewrite N1. destruct (solve2 1 1 L _) as [alpha|]; cbn [step snd]; [|discriminate]. destruct (solve2 1 p L _) as [KF|] eqn:EK; cbn [step snd]; [|discriminate].
  rewrite (ld_bad np_dot np_cholesky np_solve basis p dot_ok chol_ok solve_ok constant p_pos L (d_scaled_x d) KF HL EK). discriminate.
Qed.
Theorem nonfin_raises o X Y s : match g_noise o with None => isfin (std64 np_sum Y) = false | Some v => isfin v = false end -> X <> [] ->
  exists e, snd (train o X Y s) = Raise e /\ (e = LinAlgError \/ e = UnboundLocalError).
Proof.
  intros N HX. destruct (train_cases np_sum np_dot np_exp np_log np_pow10 np_cholesky np_solve basis p bounds o X Y s) as [(e & S & ->)|(h & S & ->)].
  - exists e. split; [reflexivity|]. apply (search_exn _ _ _ _ (fun h e => objective_exn np_sum np_dot np_exp np_log np_pow10 np_cholesky np_solve basis p _ _ h e (chol_only np_cholesky chol_ok) solve_only) S).
  - exists LinAlgError. split; [|now left]. apply (update_nonfin_noise (put_opt64 (put_data64 o (dataset X Y)) h) (dataset X Y) h); try reflexivity; [now apply data_pos|].
    cbn [put_opt64 put_data64 g_noise dataset64 d_y]. destruct (g_noise o); [exact N|now apply fmul_nonfin_r].
Qed.
Theorem learned_raises o X Y s : g_noise o = None -> isfin (std64 np_sum Y) = false -> X <> [] ->
  exists e, snd (train o X Y s) = Raise e /\ (e = LinAlgError \/ e = UnboundLocalError).
Proof. intros N H. apply nonfin_raises. now rewrite N. Qed.
Theorem nonfin_forever o v calls X Y s : g_noise o = Some v -> isfin v = false -> X <> [] ->
  exists e, snd (train (fold_left (fun a c => fst (train a (fst (fst c)) (snd (fst c)) (snd c))) calls o) X Y s) = Raise e /\ (e = LinAlgError \/ e = UnboundLocalError).
Proof.
  intros N F HX. apply nonfin_raises; [|exact HX].
  assert (K : g_noise (fold_left (fun a c => fst (train a (fst (fst c)) (snd (fst c)) (snd c))) calls o) = Some v).
  { revert o N. induction calls as [|c calls IH]; intros o N; [exact N|]. cbn [fold_left]. apply IH. now apply keeps_noise. }
  now rewrite K.
Qed.
End GP.

Section CK.
Variables (np_sum : list b64 -> b64) (np_dot : list (b64 * b64) -> b64) (np_exp np_log np_pow10 : b64 -> b64).
Variable np_cholesky : nat -> array -> result array.
Variable np_solve : nat -> nat -> array -> array -> result array.
Variable bounds : box.
Local Notation train := (ck_train64 np_sum np_dot np_exp np_log np_pow10 np_cholesky np_solve bounds).
Local Notation predict := (ck_predict64 np_sum np_dot np_exp np_solve bounds).
Local Notation predict_std := (ck_predict_std64 np_sum np_dot np_exp np_solve bounds).
Local Notation dataset := (ck_dataset64 np_sum bounds).
Local Notation ckdata o Xh Yh Xl Yl sl s := (CKTrainFlMain.train_data np_sum np_dot np_exp np_log np_pow10 np_cholesky np_solve bounds o Xh Yh Xl Yl sl s).

Theorem ck_after_wide o Xh Yh Xl Yl sl s : isfin (std64 np_sum Yh) = false ->
  forall Xq ys, predict (fst (train o Xh Yh Xl Yl sl s)) Xq = Ok ys -> Forall (fun y => isfin y = false) ys.
Proof.
  intros H Xq ys. pose proof (ckdata o Xh Yh Xl Yl sl s) as D. set (o' := fst _) in *. unfold ck_predict64.
  destruct (ck_means64 np_sum np_dot np_exp np_solve bounds o' Xq) as [[m w]|] eqn:E; cbn [bind fst]; [|discriminate]. intros E'. injection E' as <-.
  pose proof (means_form np_sum np_dot np_exp np_solve bounds o' _ Xq m w D E) as A. apply Forall_forall. intros y I. rewrite Forall_forall in A. destruct (A y I) as [v ->].
  apply fadd_nonfin_l, fmul_nonfin_r. exact H.
Qed.
(** a given noise is gone *)
Theorem ck_noise_gone o v Xh Yh Xl Yl sl s : c_noise o = Some v -> isfin v = true -> std64 np_sum Yh = finf ->
  exists z, c_noise (fst (train o Xh Yh Xl Yl sl s)) = Some z /\ feq z f0 = true /\ g_noise (c_lf (fst (train o Xh Yh Xl Yl sl s))) = Some z.
Proof.
  intros N F E. destruct (train_noise np_sum np_dot np_exp np_log np_pow10 np_cholesky np_solve bounds o v Xh Yh Xl Yl sl s N) as [A B]. rewrite E in A, B.
  destruct (fin_div_inf v F) as [b Eb]. rewrite Eb in A, B. exists (B754_zero b). split; [exact A|]. split; [now destruct b|exact B].
Qed.
Theorem ck_stays_gone o calls z : c_noise o = Some z -> feq z f0 = true ->
  Forall (fun c => match c with CkTrain64 _ Yh _ _ _ _ => isfin (std64 np_sum Yh) = true /\ feq (std64 np_sum Yh) f0 = false | CkPredictStd64 _ => False end) calls ->
  exists z', c_noise (fold_left (ck_do64 np_sum np_dot np_exp np_log np_pow10 np_cholesky np_solve bounds) calls o) = Some z' /\ feq z' f0 = true.
Proof.
  revert o z. induction calls as [|c cs IH]; intros o z N Z H; [exists z; split; [exact N|exact Z]|]. cbn [fold_left].
  inversion H as [|? ? F0 H']; subst. destruct c as [Xh Yh Xl Yl sl s|X]; [|destruct F0].
  destruct (train_noise np_sum np_dot np_exp np_log np_pow10 np_cholesky np_solve bounds o z Xh Yh Xl Yl sl s N) as [A _].
  destruct (zero_cases z Z) as [b ->]. destruct (zero_div_fin _ (proj1 F0) (proj2 F0) b) as [b' E]. rewrite E in A.
  apply (IH _ (B754_zero b') A); [now destruct b'|exact H'].
Qed.
(** asking for standard deviations ruins the object *)
Theorem ck_std_ruins o Xh Yh Xl Yl sl s Xq ys ss o' : isfin (std64 np_sum Yh) = false ->
  predict_std (fst (train o Xh Yh Xl Yl sl s)) Xq = (o', Ok (ys, ss)) -> ruined o'.
Proof.
  intros H E. destruct (std_form np_sum np_dot np_exp np_solve bounds _ _ Xq ys ss o' (ckdata o Xh Yh Xl Yl sl s) E) as (_ & z & _ & -> & _).
  eexists. split; [reflexivity|]. now apply fmul_nonfin_r.
Qed.
Theorem ck_std_nan o v Xh Yh Xl Yl sl s Xq ys ss o' : c_noise o = Some v -> isfin v = true -> std64 np_sum Yh = finf ->
  predict_std (fst (train o Xh Yh Xl Yl sl s)) Xq = (o', Ok (ys, ss)) -> Forall (eq fnan) ss /\ c_noise o' = Some fnan.
Proof.
  intros N F E P. destruct (ck_noise_gone o v Xh Yh Xl Yl sl s N F E) as (z & A & Z & _).
  destruct (std_form np_sum np_dot np_exp np_solve bounds _ _ Xq ys ss o' (ckdata o Xh Yh Xl Yl sl s) P) as (_ & z' & A' & -> & W). rewrite A in A'. injection A' as <-.
  destruct (zero_cases z Z) as [b ->]. cbn [ck_dataset64 k_std] in *. rewrite E in *. assert (M : fmul (B754_zero b) finf = fnan) by now destruct b. rewrite M in W |- *. split; [|reflexivity].
  apply Forall_forall. intros y I. rewrite Forall_forall in W. destruct (W y I) as [x ->]. change (fmul fnan fnan) with fnan. now rewrite fadd_nan_r.
Qed.
End CK.
