(** When acquisition values are NaN or infinite in binary64. *)
From Coq Require Import ZArith Reals Bool List Lia Lra Permutation.
From Flocq Require Import Core IEEE754.BinarySingleNaN.
From Verif Require Import Fl NpList KernelFl Spec FlFacts FlErr FlMag NpFacts OutputFlMain AcqFl AcqFlSpec AcqFlFacts.
Import ListNotations.
Local Open Scope R_scope.

Lemma map2_nth {A B C} (f : A -> B -> C) l m j : nth_error (map2 f l m) j = match nth_error l j, nth_error m j with Some a, Some b => Some (f a b) | _, _ => None end.
Proof. revert m j. induction l as [|a l IH]; intros [|b m] [|j]; cbn; try reflexivity. - now destruct (nth_error l j). - apply IH. Qed.
Lemma Forall_nth {A} (P : A -> Prop) l j a : Forall P l -> nth_error l j = Some a -> P a.
Proof. intros H E. rewrite Forall_forall in H. apply H. now apply nth_error_In in E. Qed.
Lemma min_mag y : y <> [] -> Forall moderate_finite y -> exists v, np_min y = Ok v /\ mag_le 300 v.
Proof.
  intros N H. destruct (np_min_ok y N) as [v E]. exists v. split; [exact E|]. apply mod_mag. rewrite Forall_forall in H. apply H. now apply np_min_spec in E.
Qed.
Lemma fin_moderate x : moderate_finite x -> moderate x. Proof. now intros [_ H] _. Qed.
Lemma pos_deviation s : moderate_finite s -> 0 <= val s -> deviation s.
Proof. intros [F _] P. right. apply fle_finite; [reflexivity|exact F|exact P]. Qed.
Lemma predicted_of mu sd : predicted_finite mu sd -> predicted mu sd.
Proof.
  intros [A B]. split; [apply (Forall_impl _ (fun a => fin_moderate a) A)|]. apply (Forall_impl (P := fun s => moderate_finite s /\ 0 <= val s)); [|exact B].
  intros s [M P]. split; [now apply fin_moderate|now apply pos_deviation].
Qed.

Section Main.
Variables (cdf pdf : b64 -> b64) (np_prod : list b64 -> b64).
Hypothesis K : normal_kind cdf pdf.

Theorem ei_table predict y x mu sd : y <> [] -> Forall moderate_finite y -> predict x = Ok (mu, sd) -> predicted mu sd ->
  exists V, ei_eval64 cdf pdf predict y x = Ok V /\ forall j m s, nth_error mu j = Some m -> nth_error sd j = Some s ->
  exists v, nth_error V j = Some v /\ (isfin v = true <-> isfin m = true /\ isfin s = true) /\
    (isnan v = true <-> isnan m = true \/ isnan s = true \/ m = finf \/ (m = fninf /\ s = finf)).
Proof.
  intros N Hy Hp [Hm Hs]. destruct (min_mag y N Hy) as (fm & E & M). unfold ei_eval64. rewrite E. cbn [bind]. rewrite Hp. cbn [bind fst snd]. eexists. split; [reflexivity|].
  intros j m s Em Es. rewrite map2_nth, Em, Es. eexists. split; [reflexivity|]. rewrite fopp_fin, fopp_nan.
  destruct (Forall_nth _ _ _ _ Hs Es) as [Ms Ds]. destruct nano_val as (F & _ & P).
  apply (imp_table cdf pdf K); [exact M|exact (Forall_nth _ _ _ _ Hm Em)|exact Ms|exact Ds|]. now apply den_add.
Qed.

Lemma z_table fmin m s den : mag_le 300 fmin -> moderate m -> deviation s -> den_of s den ->
  (isnan (fdiv (fsub fmin m) den) = true <-> isnan m = true \/ isnan s = true \/ (isfin m = false /\ isfin s = false)).
Proof.
  intros Hf Hm Ds (D1 & D2 & D3). assert (Ff : isfin fmin = true) by apply Hf.
  destruct (isnan m) eqn:Nm. { apply nan_eq in Nm. subst m. rewrite fsub_nan_r. cbn. tauto. }
  destruct (dev_cases s Ds) as [Ns|[Is|[Fs Ps]]].
  - pose proof (D1 Ns) as N. apply nan_eq in N. rewrite N, fdiv_nan_r. cbn. tauto.
  - rewrite (D2 Is). subst s. destruct (fin_or m Nm) as [Fm|[-> | ->]].
    + assert (U : mag_le 301 (fsub fmin m)) by (apply (mag_sub 300); [lia|exact Hf|now apply mod_cases]).
      destruct (fdiv_inf_r false _ (proj1 U)) as [F _]. change (B754_infinity false) with finf in F. rewrite (isfin_not_nan _ F), Fm. cbn. intuition congruence.
    + rewrite fsub_pinf by exact Ff. cbn. tauto.
    + rewrite fsub_ninf by exact Ff. cbn. tauto.
  - destruct (D3 Fs) as [Fd Pd]. rewrite Fs, (isfin_not_nan _ Fs). destruct (fin_or m Nm) as [Fm|[-> | ->]].
    + assert (U : mag_le 301 (fsub fmin m)) by (apply (mag_sub 300); [lia|exact Hf|now apply mod_cases]).
      rewrite fdiv_nnan; [|apply U|exact Fd|lra]. intuition congruence.
    + rewrite fsub_pinf by exact Ff. unfold fninf. rewrite fdiv_inf_l by assumption. cbn. intuition congruence.
    + rewrite fsub_ninf by exact Ff. unfold finf. rewrite fdiv_inf_l by assumption. cbn. intuition congruence.
Qed.
Lemma cdf_table z : (isnan (cdf z) = true <-> isnan z = true) /\ (isnan (cdf z) = false -> isfin (cdf z) = true /\ 0 <= B2R (cdf z) <= 1).
Proof.
  destruct (isnan z) eqn:N.
  - apply nan_eq in N. subst z. rewrite (cdf_nan cdf pdf K). cbn. split; [tauto|discriminate].
  - destruct (cdf_unit cdf pdf K z N) as [F U]. rewrite (isfin_not_nan _ F). split; [intuition congruence|]. now intros _.
Qed.
Theorem pi_table predict y x mu sd : y <> [] -> Forall moderate_finite y -> predict x = Ok (mu, sd) -> predicted mu sd ->
  exists V, pi_eval64 cdf predict y x = Ok V /\ forall j m s, nth_error mu j = Some m -> nth_error sd j = Some s ->
  exists v, nth_error V j = Some v /\ (isnan v = true <-> isnan m = true \/ isnan s = true \/ (isfin m = false /\ isfin s = false)) /\
    (isnan v = false -> isfin v = true /\ -1 <= val v <= 0).
Proof.
  intros N Hy Hp [Hm Hs]. destruct (min_mag y N Hy) as (fm & E & M). unfold pi_eval64. rewrite E. cbn [bind]. rewrite Hp. cbn [bind fst snd]. eexists. split; [reflexivity|].
  intros j m s Em Es. rewrite map2_nth, Em, Es. eexists. split; [reflexivity|]. unfold val. rewrite fopp_fin, fopp_nan, fopp_val.
  destruct (Forall_nth _ _ _ _ Hs Es) as [Ms Ds]. destruct nano_val as (F & _ & P).
  pose proof (z_table fm m s (fadd s nano64) M (Forall_nth _ _ _ _ Hm Em) Ds (den_add s nano64 Ds Ms F P)) as Z.
  destruct (cdf_table (fdiv (fsub fm m) (fadd s nano64))) as [A B]. split; [rewrite A; exact Z|]. intros Q. destruct (B Q) as [B1 B2]. split; [exact B1|lra].
Qed.

Lemma kappa_mul k x : mag_le 300 k -> 0 < B2R k -> moderate x ->
  (isfin x = true /\ mag_le 600 (fmul k x)) \/ (isnan x = true /\ fmul k x = fnan) \/ (exists b, x = B754_infinity b /\ fmul k x = B754_infinity b).
Proof.
  intros Hk Pk Hx. destruct (isnan x) eqn:N. { right; left. apply nan_eq in N. subst x. split; [reflexivity|apply fmul_nan_r]. }
  destruct (fin_or x N) as [F|I].
  - left. split; [exact F|]. apply (mag_mul 300 300); [lia|exact Hk|now apply mod_cases].
  - right; right. assert (G : exists b, x = B754_infinity b) by (destruct I as [-> | ->]; [now exists false|now exists true]). destruct G as [b ->].
    exists b. split; [reflexivity|]. apply fmul_pos_inf; [apply Hk|exact Pk].
Qed.
Lemma lcb_point k0 k1 m s : moderate_finite k0 -> moderate_finite k1 -> 0 < val k0 -> 0 < val k1 -> moderate m -> moderate s -> deviation s ->
  let v := fsub (fmul k0 m) (fmul k1 s) in
  (isfin v = true <-> isfin m = true /\ isfin s = true) /\ (isnan v = true <-> isnan m = true \/ isnan s = true \/ (m = finf /\ s = finf)).
Proof.
  intros H0 H1 P0 P1 Hm Hs Ds. cbv zeta. apply mod_mag in H0, H1.
  destruct (dev_cases s Ds) as [Ns|[-> |[Fs _]]].
  - apply nan_eq in Ns. subst s. rewrite fmul_nan_r, fsub_nan_r. cbn. intuition congruence.
  - destruct (kappa_mul k1 finf H1 P1 Hs) as [[F _]|[[F _]|(b & E & ->)]]; [discriminate F|discriminate F|]. injection E as <-.
    destruct (kappa_mul k0 m H0 P0 Hm) as [[F G]|[[N ->]|(b & -> & ->)]].
    + change (B754_infinity false) with finf. rewrite fsub_pinf by apply G. destruct m; try discriminate F; cbn; intuition discriminate.
    + apply nan_eq in N. subst m. cbn. intuition congruence.
    + destruct b; cbn; intuition (try discriminate).
  - assert (Is : s <> finf) by (intros ->; discriminate Fs). assert (Ns : isnan s = false) by now apply isfin_not_nan. destruct (kappa_mul k1 s H1 P1 Hs) as [[_ G1]|[[F _]|(b & -> & _)]]; [|congruence|discriminate Fs].
    destruct (kappa_mul k0 m H0 P0 Hm) as [[F G]|[[N ->]|(b & -> & ->)]].
    + pose proof (mag_sub 600 _ _ ltac:(lia) G G1) as M. destruct M as [M _]. rewrite M, (isfin_not_nan _ M), (isfin_not_nan _ F), Ns. intuition congruence.
    + rewrite fsub_nan_l, N, Fs. apply nan_eq in N. subst m. cbn. intuition congruence.
    + assert (E : fsub (B754_infinity b) (fmul k1 s) = B754_infinity b) by (destruct G1 as [G1 _]; destruct (fmul k1 s); try discriminate G1; reflexivity).
      rewrite E, Ns. cbn. intuition congruence.
Qed.
Theorem lcb_table predict k0 k1 x mu sd : moderate_finite k0 -> moderate_finite k1 -> 0 < val k0 -> 0 < val k1 -> predict x = Ok (mu, sd) -> predicted mu sd ->
  exists V, lcb_eval64 predict k0 k1 x = Ok V /\ forall j m s, nth_error mu j = Some m -> nth_error sd j = Some s ->
  exists v, nth_error V j = Some v /\ (isfin v = true <-> isfin m = true /\ isfin s = true) /\
    (isnan v = true <-> isnan m = true \/ isnan s = true \/ (m = finf /\ s = finf)).
Proof.
  intros H0 H1 P0 P1 Hp [Hm Hs]. unfold lcb_eval64. rewrite Hp. cbn [bind fst snd]. eexists. split; [reflexivity|].
  intros j m s Em Es. rewrite map2_nth, Em, Es. eexists. split; [reflexivity|]. destruct (Forall_nth _ _ _ _ Hs Es) as [Ms Ds].
  apply lcb_point; try assumption. exact (Forall_nth _ _ _ _ Hm Em).
Qed.

(** products *)
Lemma prod_unit l v : prod_of l v -> Forall unit_closed l -> unit_closed v.
Proof.
  induction 1 as [|x|l l1 l2 s1 s2 N1 N2 P H1 IH1 H2 IH2]; intros F.
  - split; [reflexivity|]. unfold val. rewrite B2R_f1. lra.
  - now inversion F.
  - apply (Permutation_Forall P) in F. apply Forall_app in F. destruct F as [Fa Fb]. specialize (IH1 Fa). specialize (IH2 Fb). destruct IH1 as [A1 B1], IH2 as [A2 B2].
    destruct (unit_mul s1 s2 A1 A2 B1 (proj1 B2)) as (F & C & D). split; [exact F|]. unfold val in *. lra.
Qed.
Lemma prod_nan l v : prod_of l v -> (exists x, In x l /\ isnan x = true) -> isnan v = true.
Proof.
  induction 1 as [|x|l l1 l2 s1 s2 N1 N2 P H1 IH1 H2 IH2]; intros (w & I & N); [easy|destruct I as [<-|[]]; exact N|].
  apply (Permutation_in _ P) in I. apply in_app_or in I. destruct I as [I|I].
  - rewrite (nan_eq s1 (IH1 (ex_intro _ w (conj I N)))). reflexivity.
  - rewrite (nan_eq s2 (IH2 (ex_intro _ w (conj I N)))). now rewrite fmul_nan_r.
Qed.
(** constrained expected improvement at one point *)
Lemma terms_eq cons x ps : Forall2 (answer x) cons ps ->
  pof_terms64 cdf cons x = Ok (map (fun p => cdf (fsub f0 (fdiv (fst p) (fadd (snd p) nano64)))) ps).
Proof. induction 1 as [|c p cons ps H F IH]; [reflexivity|]. cbn [pof_terms64]. rewrite H. cbn [bind fst snd]. rewrite IH. reflexivity. Qed.
Lemma cons_arg u s : moderate u -> moderate s -> deviation s ->
  (isnan (fsub f0 (fdiv u (fadd s nano64))) = true <-> isnan u = true \/ isnan s = true \/ (isfin u = false /\ isfin s = false)).
Proof.
  intros Mu Ms Ds. destruct nano_val as (F & _ & P). destruct (den_add s nano64 Ds Ms F P) as (D1 & D2 & D3). set (den := fadd s nano64) in *.
  assert (E : isnan (fsub f0 (fdiv u den)) = isnan (fdiv u den)) by (destruct (fdiv u den) as [[]|[]| |[] ? ? ?]; reflexivity). rewrite E. clear E.
  destruct (isnan u) eqn:Nu. { apply nan_eq in Nu. subst u. cbn. tauto. }
  destruct (dev_cases s Ds) as [Ns|[Is|[Fs Ps]]].
  - pose proof (D1 Ns) as N. apply nan_eq in N. rewrite N, fdiv_nan_r. cbn. tauto.
  - rewrite (D2 Is). subst s. destruct (fin_or u Nu) as [Fu|[-> | ->]]; [|cbn; tauto|cbn; tauto].
    destruct (fdiv_inf_r false u Fu) as [G _]. change (B754_infinity false) with finf in G. rewrite (isfin_not_nan _ G), Fu. cbn. intuition congruence.
  - destruct (D3 Fs) as [Fd Pd]. rewrite Fs, (isfin_not_nan _ Fs). destruct (fin_or u Nu) as [Fu|[-> | ->]].
    + rewrite fdiv_nnan; [|exact Fu|exact Fd|lra]. intuition congruence.
    + unfold finf. rewrite fdiv_inf_l by assumption. cbn. intuition congruence.
    + unfold fninf. rewrite fdiv_inf_l by assumption. cbn. intuition congruence.
Qed.
Theorem cei_finite obj y cons x p ps : (forall l, prod_of l (np_prod l)) -> y <> [] -> Forall moderate_finite y -> answer x obj p -> Forall2 (answer x) cons ps ->
  Forall (fun q => moderate_finite (fst q) /\ moderate_finite (snd q) /\ 0 <= val (snd q)) (p :: ps) ->
  exists v, cei_eval64 cdf pdf np_prod obj y cons x = Ok v /\ isfin v = true.
Proof.
  intros HP N Hy Ho Hc H. destruct (min_mag y N Hy) as (fm & E & M). apply Forall_inv_tail in H as Ht. apply Forall_inv in H. destruct H as (H1 & H2 & H3).
  unfold cei_eval64, cei_ei64. rewrite E. cbn [bind]. rewrite Ho. cbn [bind fst snd map2]. rewrite (terms_eq cons x ps Hc). cbn [bind]. eexists. split; [reflexivity|].
  apply mod_mag in H1 as M1. apply mod_mag in H2 as M2. pose proof (pos_deviation _ H2 H3) as D. destruct nano_val as (F & _ & P).
  destruct (den_add _ nano64 D (fin_moderate _ H2) F P) as (_ & _ & D3). destruct (D3 (proj1 H2)) as [Fd Pd].
  assert (I : mag_le 302 (improvement64 cdf pdf fm (fst p) (snd p) (fadd (snd p) nano64))).
  { apply (imp_fin cdf pdf K); [exact M|exact M1|exact M2|]. apply fdiv_nnan; [apply (mag_sub 300); [lia|exact M|exact M1]|exact Fd|lra]. }
  assert (U : unit_closed (np_prod (map (fun p => cdf (fsub f0 (fdiv (fst p) (fadd (snd p) nano64)))) ps))).
  { apply (prod_unit _ _ (HP _)). apply Forall_map. apply (Forall_impl (P := fun q => moderate_finite (fst q) /\ moderate_finite (snd q) /\ 0 <= val (snd q))); [|exact Ht].
    intros [u s] (A & B & C). cbn [fst snd] in *. apply (cdf_unit cdf pdf K). pose proof (cons_arg u s (fin_moderate _ A) (fin_moderate _ B) (pos_deviation _ B C)) as Q.
    destruct (isnan (fsub f0 (fdiv u (fadd s nano64)))); [|reflexivity]. destruct (proj1 Q eq_refl) as [Z|[Z|[Z _]]].
    - rewrite (isfin_not_nan _ (proj1 A)) in Z. discriminate. - rewrite (isfin_not_nan _ (proj1 B)) in Z. discriminate. - rewrite (proj1 A) in Z. discriminate. }
  apply (mag_mul 302 0); [lia| |now apply unit_mag]. destruct I as [I1 I2]. split; [rewrite fopp_fin; exact I1|]. rewrite fopp_val, Rabs_Ropp. exact I2.
Qed.
(** a constraint model that answers NaN, or an infinite mean with an infinite deviation, makes the value NaN *)
Theorem cei_poisoned obj y cons x p ps q : (forall l, prod_of l (np_prod l)) -> y <> [] -> answer x obj p -> Forall2 (answer x) cons ps -> In q ps ->
  moderate (fst q) -> moderate (snd q) -> deviation (snd q) ->
  isnan (fst q) = true \/ isnan (snd q) = true \/ (isfin (fst q) = false /\ isfin (snd q) = false) ->
  exists v, cei_eval64 cdf pdf np_prod obj y cons x = Ok v /\ isnan v = true.
Proof.
  intros HP N Ho Hc I M1 M2 D H. destruct (np_min_ok y N) as [fm E]. unfold cei_eval64, cei_ei64. rewrite E. cbn [bind]. rewrite Ho. cbn [bind fst snd map2]. rewrite (terms_eq cons x ps Hc). cbn [bind].
  eexists. split; [reflexivity|]. set (t := np_prod _). assert (T : isnan t = true).
  { apply (prod_nan _ _ (HP _)). exists (cdf (fsub f0 (fdiv (fst q) (fadd (snd q) nano64)))). split; [apply in_map_iff; exists q; now split|].
    apply (proj1 (cdf_table _)). now apply cons_arg. }
  rewrite (nan_eq t T). now rewrite fmul_nan_r.
Qed.

(** NaN among the samples or the predictions *)
Lemma imp_nan_f m s den : improvement64 cdf pdf fnan m s den = fnan.
Proof. apply (imp_nan_z cdf pdf K). reflexivity. Qed.
Theorem ei_sample predict y x V : (exists w, In w y /\ isnan w = true) -> ei_eval64 cdf pdf predict y x = Ok V -> Forall (eq fnan) V.
Proof.
  intros H. unfold ei_eval64. destruct (np_min y) as [fm|] eqn:E; [|discriminate]. cbn [bind]. destruct (predict x) as [[mu sd]|]; [|discriminate]. cbn [bind fst snd]. intros [= <-].
  rewrite (nan_eq fm (np_min_nan _ _ E H)). clear - K. revert sd. induction mu as [|m mu IH]; intros [|s sd]; cbn [map2]; constructor; [|apply IH]. now rewrite imp_nan_f.
Qed.
Theorem pi_sample predict y x V : (exists w, In w y /\ isnan w = true) -> pi_eval64 cdf predict y x = Ok V -> Forall (eq fnan) V.
Proof.
  intros H. unfold pi_eval64. destruct (np_min y) as [fm|] eqn:E; [|discriminate]. cbn [bind]. destruct (predict x) as [[mu sd]|]; [|discriminate]. cbn [bind fst snd]. intros [= <-].
  rewrite (nan_eq fm (np_min_nan _ _ E H)). clear fm E H. revert sd. induction mu as [|m mu IH]; intros [|s sd]; cbn [map2]; constructor; [|apply IH]. rewrite fsub_nan_l, fdiv_nan_l, (cdf_nan cdf pdf K). reflexivity.
Qed.
Theorem all_nan predict y k0 k1 x mu sd : predict x = Ok (mu, sd) -> Forall (eq fnan) mu \/ Forall (eq fnan) sd ->
  (forall V, ei_eval64 cdf pdf predict y x = Ok V -> Forall (eq fnan) V) /\
  (forall V, pi_eval64 cdf predict y x = Ok V -> Forall (eq fnan) V) /\
  (forall V, lcb_eval64 predict k0 k1 x = Ok V -> Forall (eq fnan) V).
Proof.
  intros Hp H.
  assert (G : forall f : b64 -> b64 -> b64, (forall s, f fnan s = fnan) -> (forall m, f m fnan = fnan) -> Forall (eq fnan) (map2 f mu sd)).
  { intros f A B. clear Hp. revert sd H. induction mu as [|m mu' IH]; intros [|s sd'] H; cbn [map2]; constructor.
    - destruct H as [H|H]; inversion H; subst; [now rewrite A|now rewrite B].
    - apply IH. destruct H as [H|H]; inversion H; auto. }
  split; [|split].
  - unfold ei_eval64. intros V. destruct (np_min y) as [fm|]; [|discriminate]. cbn [bind]. rewrite Hp. cbn [bind fst snd]. intros [= <-]. apply G; intros.
    + rewrite (imp_nan_z cdf pdf K); [reflexivity|]. now rewrite fsub_nan_r.
    + rewrite (imp_nan_z cdf pdf K); [reflexivity|]. now rewrite fadd_nan_l, fdiv_nan_r.
  - unfold pi_eval64. intros V. destruct (np_min y) as [fm|]; [|discriminate]. cbn [bind]. rewrite Hp. cbn [bind fst snd]. intros [= <-]. apply G; intros.
    + rewrite fsub_nan_r, fdiv_nan_l, (cdf_nan cdf pdf K). reflexivity.
    + rewrite fadd_nan_l, fdiv_nan_r, (cdf_nan cdf pdf K). reflexivity.
  - unfold lcb_eval64. intros V. rewrite Hp. cbn [bind fst snd]. intros [= <-]. apply G; intros.
    + rewrite fmul_nan_r. apply fsub_nan_l.
    + rewrite fmul_nan_r. apply fsub_nan_r.
Qed.
End Main.
