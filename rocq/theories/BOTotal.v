(** Runs that complete, and the stopping rules of the constrained and the multi-fidelity class. *)
From Coq Require Import ZArith Bool List Lia.
From Verif Require Import Fl FlFacts NpList NpFacts Spec EA EASpec BO BOSpec BOFacts ConsFacts MFFacts.
Import ListNotations.

Section Gen.
Variables (S : Type) (step : S -> S * option exn) (continue : S -> result bool) (I : S -> Prop).
Hypothesis Hs : forall s, I s -> I (fst (step s)) /\ snd (step s) = None.
Hypothesis Hc : forall s, exists b, continue s = Ok b.
Lemma loop_completes n : forall s, I s -> I (fst (bo_loop S step continue n s)) /\ snd (bo_loop S step continue n s) = None.
Proof.
  induction n as [|n IH]; intros s H; simpl; auto. destruct (Hc s) as [[|] ->]; simpl; auto.
  destruct (Hs s H) as [A B]. destruct (step s) as [s' e]. simpl in *. subst e. auto.
Qed.
End Gen.
Lemma session_completes {S C} (run : C -> S -> S * option exn) (I : S -> Prop) :
  (forall c s, I s -> I (fst (run c s)) /\ snd (run c s) = None) ->
  forall calls s, I s -> all_ok (snd (session run calls s)).
Proof.
  intros H. induction calls as [|c cs IH]; intros s Hs; simpl; [constructor|].
  destruct (H c s Hs) as [A B]. destruct (run c s) as [s1 e]. simpl in *. subst e. specialize (IH s1 A).
  destruct (session run cs s1). simpl in *. constructor; auto.
Qed.
Lemma continue_total cmp o b : exists c, truth cmp (update_error (attr o) b) = Ok c.
Proof. rewrite truth_gap. eauto. Qed.
Lemma vstack_works dim a x : a <> [] -> points_of dim a -> points_of dim x -> vstack a x = Ok (a ++ x) /\ points_of dim (a ++ x).
Proof.
  intros N A X. destruct a as [|r a]; [congruence|]. unfold vstack. inversion A; subst. cbn [hd].
  assert (forallb (fun r0 => Nat.eqb (length r0) (length r)) x = true) as ->.
  { apply forallb_forall. intros r0 H. unfold points_of in X. rewrite Forall_forall in X. apply Nat.eqb_eq. auto. }
  split; auto. apply Forall_app. auto.
Qed.
Lemma argmin_row (x : mat) y : length y = length x -> x <> [] ->
  exists i r, np_argmin y = Ok i /\ np_min y = Ok (nth i y f0) /\ take_row x i = Ok r.
Proof.
  intros L N. assert (y <> []) as N' by (destruct y, x; simpl in L; congruence).
  destruct (np_argmin_ok y N') as [i E]. destruct (np_argmin_spec _ _ E) as (A & _).
  unfold np_min, take_row. destruct (nth_error x i) as [r|] eqn:R.
  - exists i, r. rewrite R, E. auto.
  - apply nth_error_None in R. lia.
Qed.

Section SF.
Variables (query : nat -> result mat) (func : objective) (train : nat -> option exn) (dim : nat).
Hypothesis Hq : query_works dim query.
Hypothesis Hf : objective_works func.
Hypothesis Ht : train_works train.
Definition sf_sound (s : sf_state) : Prop := s_x s <> [] /\ points_of dim (s_x s) /\ length (s_y s) = length (s_x s).
Lemma sf_step_completes s : sf_sound s -> sf_sound (fst (sf_step query func train s)) /\ snd (sf_step query func train s) = None.
Proof.
  intros (N & P & L). unfold sf_step. destruct (Hq (s_queries s)) as (ux & -> & U).
  destruct (Hf (length (s_calls s)) ux) as (y & -> & Ly). destruct (vstack_works dim _ _ N P U) as [-> P'].
  rewrite Ht. unfold sf_update_para. cbn [s_x s_y].
  assert (L' : length (s_y s ++ y) = length (s_x s ++ ux)) by (rewrite !app_length; lia).
  assert (N' : s_x s ++ ux <> []) by (destruct (s_x s); [congruence|discriminate]).
  destruct (argmin_row _ _ L' N') as (i & r & E1 & E2 & E3). rewrite E2, E1. cbn [bind]. rewrite E3.
  split; [|reflexivity]. repeat split; auto.
Qed.
Lemma sf_completes opt design : design <> [] -> points_of dim design -> exists s0, sf_new func train design = Ok s0 /\
  forall calls, all_ok (snd (session (sf_run query func train (attr opt)) calls s0)).
Proof.
  intros N P. unfold sf_new. destruct (Hf 0 design) as (y & -> & L). cbn [bind]. rewrite Ht.
  destruct (argmin_row _ _ L N) as (i & r & E1 & E2 & E3). rewrite E2. cbn [bind]. rewrite E1. cbn [bind]. rewrite E3. cbn [bind].
  eexists. split; [reflexivity|]. intros calls. apply (session_completes _ sf_sound).
  - intros c s Hs. apply loop_completes; auto using sf_step_completes. intros; apply continue_total.
  - repeat split; auto.
Qed.
End SF.

Section CONS.
Variables (query : nat -> result mat) (func : objective) (cons : nat -> mat -> result mat) (train : nat -> option exn) (nc dim : nat).
Hypothesis Hq : query_works dim query.
Hypothesis Hf : objective_works func.
Hypothesis Hg : cons_work nc cons.
Hypothesis Ht : train_works train.
Definition cn_sound (s : cn_state) : Prop := c_x s <> [] /\ points_of dim (c_x s) /\ c_g s <> [] /\ points_of nc (c_g s).
Lemma train_cons_works (g : mat) : length (hd [] g) = nc -> forall rem ii, ii + rem <= nc -> forall t, exists t', train_cons train g t ii rem = (t', None).
Proof.
  intros E. induction rem as [|r IH]; intros ii H t'; simpl; eauto.
  assert (Nat.ltb ii (length (hd [] g)) = true) as -> by (apply Nat.ltb_lt; lia). rewrite Ht. apply IH. lia.
Qed.
Lemma train_all_works g t : g <> [] -> points_of nc g -> exists t', train_all train nc g t = (t', None).
Proof.
  intros N P. unfold train_all. rewrite Ht. apply train_cons_works; auto.
  destruct g; [congruence|]. now inversion P.
Qed.
Lemma cn_step_completes s : cn_sound s -> cn_sound (fst (cn_step query func cons train nc s)) /\ snd (cn_step query func cons train nc s) = None.
Proof.
  intros (N & P & M & Q). unfold cn_step. destruct (Hq (c_queries s)) as (ux & -> & U).
  destruct (Hf (length (c_calls s)) ux) as (y & -> & Ly).
  destruct (Hg (length (c_cons_calls s)) ux) as (g & -> & Lg & Wg).
  destruct (vstack_works dim _ _ N P U) as [-> P']. destruct (vstack_works nc _ _ M Q Wg) as [-> Q'].
  assert (N' : c_x s ++ ux <> []) by (destruct (c_x s); [congruence|discriminate]).
  assert (M' : c_g s ++ g <> []) by (destruct (c_g s); [congruence|discriminate]).
  destruct (train_all_works _ (c_trains s) M' Q') as [t ->].
  destruct (cn_best nc (c_x s ++ ux) (c_y s ++ y) (c_g s ++ g)). split; [|reflexivity]. repeat split; auto.
Qed.
Lemma cn_completes opt design : design <> [] -> points_of dim design -> exists s0, cn_new func cons train nc design = Ok s0 /\
  forall calls, all_ok (snd (session (cn_run query func cons train nc (attr opt)) calls s0)).
Proof.
  intros N P. unfold cn_new. destruct (Hf 0 design) as (y & -> & L). destruct (Hg 0 design) as (g & -> & Lg & Wg). cbn [bind].
  assert (M : g <> []) by (destruct g, design; simpl in Lg; congruence).
  destruct (train_all_works _ 0 M Wg) as [t ->]. destruct (cn_best nc design y g).
  eexists. split; [reflexivity|]. intros calls. apply (session_completes _ cn_sound).
  - intros c s Hs. apply loop_completes; auto using cn_step_completes. intros; apply continue_total.
  - repeat split; auto.
Qed.
End CONS.

Section MF.
Variables (query : nat -> result (mat * Z)) (hf lf : objective) (train : nat -> option exn) (dim : nat).
Hypothesis Hq : query_works_mf dim query.
Hypothesis Hh : objective_works hf.
Hypothesis Hl : objective_works lf.
Hypothesis Ht : train_works train.
Definition mf_sound (s : mf_state) : Prop := m_sample s = 1 /\ m_response s = 1 /\
  (exists i a b, m_xs s = [i; [a; b]] /\ a <> [] /\ b <> [] /\ points_of dim a /\ points_of dim b) /\ exists j c d, m_ys s = [j; [c; d]].
Lemma app_nn {A} (a b : list A) : a <> [] -> a ++ b <> [].
Proof. destruct a; simpl; [congruence|discriminate]. Qed.
Lemma mf_step_completes s : mf_sound s -> mf_sound (fst (mf_step query hf lf train s)) /\ snd (mf_step query hf lf train s) = None.
Proof.
  intros (S1 & S2 & (i & a & b & Ex & Na & Nb & Pa & Pb) & j & c & d & Ey). unfold mf_step.
  destruct (Hq (m_queries s)) as (ux & fid & -> & U & Z0). rewrite S1, S2, Ex, Ey.
  destruct (Z.eqb fid 0) eqn:EZ.
  - destruct (Hh (length (m_hf_calls s)) ux) as (y & -> & Ly). unfold deref. cbn [nth].
    destruct (vstack_works dim _ _ Na Pa U) as [-> P']. rewrite Ht. unfold mf_update_para. rewrite EZ.
    apply Z.eqb_eq in EZ. destruct y as [|v y]; [exfalso; apply (Z0 EZ); destruct ux; simpl in Ly; congruence|].
    cbn [m_best m_best_x m_hist m_hist_x]. destruct (flt v (m_best s)); cbn [fst snd]; (split; [|reflexivity]);
      (repeat split; [exists i, (a ++ ux), b; repeat split; auto; now apply app_nn|do 3 eexists; reflexivity]).
  - destruct (Hl (length (m_lf_calls s)) ux) as (yl & -> & Lyl). unfold deref. cbn [nth].
    destruct (vstack_works dim _ _ Nb Pb U) as [-> P']. rewrite Ht. unfold mf_update_para. rewrite EZ. cbn [fst snd].
    split; [|reflexivity].
    repeat split; [exists i, a, (b ++ ux); repeat split; auto; now apply app_nn|do 3 eexists; reflexivity].
Qed.
Lemma mf_completes opt xh xl : xh <> [] -> xl <> [] -> points_of dim xh -> points_of dim xl -> exists s0, mf_new hf lf train xh xl = Ok s0 /\
  forall calls, all_ok (snd (session (mf_run query hf lf train (attr opt)) calls s0)).
Proof.
  intros Nh Nl Ph Pl. unfold mf_new. destruct (Hh 0 xh) as (y & -> & L). destruct (Hl 0 xl) as (y1 & -> & L1). cbn [bind]. rewrite Ht.
  destruct (argmin_row _ _ L Nh) as (i & r & E1 & E2 & E3). rewrite E2. cbn [bind]. rewrite E1. cbn [bind]. rewrite E3. cbn [bind].
  eexists. split; [reflexivity|]. intros calls. apply (session_completes _ mf_sound).
  - intros c s Hs. apply loop_completes; auto using mf_step_completes. intros; apply continue_total.
  - repeat split; [exists [xh; xl], xh, xl; auto|do 3 eexists; reflexivity].
Qed.
End MF.

(** ** stopping rules *)
Section Hist.
Variables (S : Type) (step : S -> S * option exn) (best : S -> b64) (hist : S -> list b64) (W : S -> Prop) (cmp : b64 -> bool) (o : option b64).
Hypothesis Hstep : forall s s', W s -> step s = (s', None) -> W s' /\ hist s' = hist s ++ [best s'].
Lemma iters_hist m s s' : iters _ step (fun s => truth cmp (update_error (attr o) (best s))) m s s' -> W s ->
  (exists h, hist s = h ++ [best s]) ->
  length (hist s') = m + length (hist s) /\ prefix_of (hist s) (hist s') /\
  (forall k, k < m -> cmp (gap o (nth (length (hist s) - 1 + k) (hist s') fnan)) = true).
Proof.
  intros H. induction H as [s|m s s1 s2 Hc Hs Hi IH]; intros HW [h Hh].
  - repeat split; auto using prefix_refl. lia.
  - destruct (Hstep _ _ HW Hs) as [W1 B4]. destruct IH as (L & P & F); eauto.
    rewrite truth_gap in Hc. injection Hc as Hc.
    assert (Q : prefix_of (hist s) (hist s2)) by (eapply prefix_trans; [|exact P]; rewrite B4; apply prefix_app).
    repeat split; auto.
    + rewrite L, B4, app_length. simpl. lia.
    + intros [|k] Hk.
      * destruct Q as [q ->]. rewrite Hh. rewrite app_length. simpl.
        replace (length h + 1 - 1 + 0) with (length h) by lia.
        rewrite <- app_assoc. simpl. rewrite nth_middle. exact Hc.
      * specialize (F k ltac:(lia)). rewrite B4, app_length in F. simpl in F.
        replace (length (hist s) - 1 + Datatypes.S k) with (length (hist s) + 1 - 1 + k); auto.
        rewrite Hh, app_length. simpl. lia.
Qed.
End Hist.

Lemma cn_stopping_rule query func cons train nc opt design calls s0 s es n stop s' : cn_new func cons train nc design = Ok s0 ->
  session (cn_run query func cons train nc (attr opt)) calls s0 = (s, es) -> all_ok es ->
  cn_run query func cons train nc (attr opt) (n, stop) s = (s', None) ->
  exists m, m <= n /\ c_queries s' = m + c_queries s /\ length (c_hist s') = m + length (c_hist s) /\
    (forall k, k < m -> fle stop (gap opt (nth (length (c_hist s) - 1 + k) (c_hist s') fnan)) = true) /\
    (m = n \/ flt (gap opt (c_best s')) stop = true \/ isnan (gap opt (c_best s')) = true \/ isnan stop = true).
Proof.
  intros H E A R. unfold cn_run in R. destruct (loop_iters _ _ _ _ _ _ R) as (m & Hm & I & F). cbn [fst snd] in *.
  exists m. split; auto. split.
  { clear -I. induction I; auto. rewrite IHI.
    destruct (cn_step_ok _ _ _ _ _ _ _ H0) as (ux & y & g & _ & _ & _ & _ & _ & _ & _ & _ & _ & -> & _). lia. }
  assert (ST : forall a b : cn_state, True -> cn_step query func cons train nc a = (b, None) -> True /\ c_hist b = c_hist a ++ [c_best b]).
  { intros a b _ D. destruct (cn_step_ok _ _ _ _ _ _ _ D) as (ux & y & g & _ & _ & _ & _ & _ & _ & _ & Eh & _). auto. }
  destruct (iters_hist _ _ c_best c_hist (fun _ => True) _ opt ST _ _ _ I Logic.I) as (L & _ & B).
  - pose (P := fun s => exists h, c_hist s = h ++ [c_best s]). change (P s).
    replace s with (fst (session (cn_run query func cons train nc (attr opt)) calls s0)) by (now rewrite E).
    apply (session_inv_ok (cn_run query func cons train nc (attr opt)) P).
    + intros c s1 H1. apply (loop_inv_ok _ _ _ P); auto. intros s2 H2 N. destruct (cn_step query func cons train nc s2) eqn:D. simpl in *. subst.
      destruct (cn_step_ok _ _ _ _ _ _ _ D) as (ux & y & g & _ & _ & _ & _ & _ & _ & _ & Eh & _). eexists. eauto.
    + destruct (cn_new_ok _ _ _ _ _ _ H) as (y & g & _ & _ & _ & _ & _ & _ & Eh & _). exists []. auto.
    + now rewrite E.
  - repeat split; auto. destruct F as [F|F]; auto. right. rewrite truth_gap in F. injection F as F. now apply not_fle.
Qed.

Lemma mf_stopping_rule query hf lf train opt xh xl calls s0 s es n stop s' : mf_new hf lf train xh xl = Ok s0 ->
  session (mf_run query hf lf train (attr opt)) calls s0 = (s, es) -> all_ok es ->
  mf_run query hf lf train (attr opt) (n, stop) s = (s', None) ->
  exists m, m <= n /\ m_queries s' = m + m_queries s /\ length (m_hist s') = m + length (m_hist s) /\
    (forall k, k < m -> flt stop (gap opt (nth (length (m_hist s) - 1 + k) (m_hist s') fnan)) = true) /\
    (m = n \/ fle (gap opt (m_best s')) stop = true \/ isnan (gap opt (m_best s')) = true \/ isnan stop = true).
Proof.
  intros H E A R.
  assert (exists y0 y1, hf 0 xh = Ok y0 /\ lf 0 xl = Ok y1) as (y0 & y1 & E0 & E1).
  { unfold mf_new in H. destruct (hf 0 xh); [|discriminate]. destruct (lf 0 xl); [eauto|discriminate]. }
  destruct (mf_new_cases hf lf train xh xl y0 y1 s0 H E0 E1) as (W0 & _ & _ & _ & _ & _ & _ & _ & _ & _ & Eh & _).
  assert (ST : forall a b, mf_wf xh xl y0 y1 a -> mf_step query hf lf train a = (b, None) ->
    mf_wf xh xl y0 y1 b /\ m_hist b = m_hist a ++ [m_best b]).
  { intros a b Wa D. destruct (mf_step_cases query hf lf train xh xl y0 y1 a b None Wa D) as (Wb & _ & [(K & _)|K]); [congruence|].
    split; auto. destruct K as (ux & fid & y & _ & _ & _ & _ & _ & _ & _ & _ & [(K & _)|(_ & _ & K & _)]); [congruence|auto]. }
  pose (P := fun s => mf_wf xh xl y0 y1 s /\ exists h, m_hist s = h ++ [m_best s]).
  assert (PS : P s).
  { replace s with (fst (session (mf_run query hf lf train (attr opt)) calls s0)) by (now rewrite E).
    apply (session_inv_ok (mf_run query hf lf train (attr opt)) P).
    - intros c s1 H1. apply (loop_inv_ok _ _ _ P); auto. intros s2 [W2 H2] N. destruct (mf_step query hf lf train s2) eqn:D. simpl in *. subst.
      destruct (ST _ _ W2 D) as [W3 K]. split; eauto.
    - split; auto. exists []. auto.
    - now rewrite E. }
  destruct PS as [Ws Ls]. 
  unfold mf_run in R. destruct (loop_iters _ _ _ _ _ _ R) as (m & Hm & I & F). cbn [fst snd] in *.
  exists m. split; auto. split; [eapply mf_loop_queries; eauto|].
  destruct (iters_hist _ _ m_best m_hist (mf_wf xh xl y0 y1) _ opt ST _ _ _ I Ws Ls) as (L & _ & B).
  repeat split; auto. destruct F as [F|F]; auto. right. rewrite truth_gap in F. injection F as F.
  unfold fgt in F. destruct (fle (gap opt (m_best s')) stop) eqn:K; auto. right.
  apply not_fle in K. destruct K as [K|[K|K]]; auto. congruence.
Qed.
