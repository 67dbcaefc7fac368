(** The statements about Bayesian optimisation in the form in which they are presented. *)
From Coq Require Import ZArith Bool List Lia.
From Verif Require Import Fl FlFacts NpList NpFacts Spec EA EASpec BO BOSpec BOFacts ConsFacts MFFacts.
Import ListNotations.

Section SF.
Variable query : nat -> result mat.
Variable func : objective.
Variable train : nat -> option exn.
Notation run := (sf_run query func train).

Lemma sf_earlier_kept opt calls s s' es : session (run opt) calls s = (s', es) ->
  prefix_of (s_x s) (s_x s') /\ prefix_of (s_y s) (s_y s') /\
  prefix_of (s_hist s) (s_hist s') /\ prefix_of (s_hist_x s) (s_hist_x s').
Proof.
  intros E. pose proof (sf_session_grown query func train opt calls s) as G. rewrite E in G.
  destruct G as (A & B & C & D & _). auto.
Qed.

Lemma sf_bookkeeping opt design calls s0 s es : one_per_point func -> one_point query ->
  sf_new func train design = Ok s0 -> session (run opt) calls s0 = (s, es) -> all_ok es ->
  length (s_x s) = length design + s_queries s /\ length (s_y s) = length design + s_queries s /\
  length (s_hist s) = 1 + s_queries s /\ length (s_hist_x s) = 1 + s_queries s /\
  length (s_calls s) = 1 + s_queries s /\ s_trains s = 1 + s_queries s /\
  true_trace func (s_calls s) /\ s_x s = concat (map fst (s_calls s)) /\
  exists ys, answers (s_calls s) ys /\ s_y s = concat ys.
Proof.
  intros Hf Hq H E A. destruct (sf_session_recorded query func train _ Hf Hq opt design calls s0 s es eq_refl H E A) as [(A1 & A2 & A3 & A4 & A5 & A6 & A7 & A8) _].
  repeat split; auto. replace s with (fst (session (run opt) calls s0)) by (now rewrite E).
  apply sf_session_true. destruct (sf_new_cases _ _ _ _ H) as (y & i & F & _ & _ & _ & _ & _ & _ & _ & _ & _ & _ & ->).
  intros [|[|k]] x z; simpl; intros [= <- <-]; auto.
Qed.

Lemma sf_history_best opt design calls s0 s es : one_per_point func -> one_point query ->
  sf_new func train design = Ok s0 -> session (run opt) calls s0 = (s, es) -> all_ok es -> no_nan (s_y s) ->
  non_increasing (s_hist s) /\
  forall t, t <= s_queries s ->
    first_min (firstn (length design + t) (s_x s)) (firstn (length design + t) (s_y s))
      (nth t (s_hist_x s) []) (nth t (s_hist s) fnan).
Proof.
  intros Hf Hq H E A N. destruct (sf_session_recorded query func train _ Hf Hq opt design calls s0 s es eq_refl H E A) as [R J].
  split; [eapply sf_history_mono; eauto|]. intros t Ht. eapply sf_history_min; eauto.
Qed.

Lemma sf_stopping_rule opt design calls s0 s es n stop s' : sf_new func train design = Ok s0 ->
  session (run (attr opt)) calls s0 = (s, es) -> all_ok es -> run (attr opt) (n, stop) s = (s', None) ->
  exists m, m <= n /\ s_queries s' = m + s_queries s /\ length (s_hist s') = m + length (s_hist s) /\
    (forall k, k < m -> fle stop (gap opt (nth (length (s_hist s) - 1 + k) (s_hist s') fnan)) = true) /\
    (m = n \/ flt (gap opt (s_best s')) stop = true \/ isnan (gap opt (s_best s')) = true \/ isnan stop = true).
Proof.
  intros H E A R. destruct (sf_stopping _ _ _ _ _ _ _ _ (sf_session_lasting _ _ _ _ _ _ _ _ _ H E A) R) as (m & A1 & A2 & A3 & A4 & A5).
  exists m. repeat split; auto. destruct A5 as [|A5]; auto. right. now apply not_fle.
Qed.

(** after exceptions: aligned data, and the first completed iteration repairs best *)
Lemma sf_recovers opt design calls s0 s es c s' : one_per_point func -> sf_new func train design = Ok s0 ->
  session (run opt) calls s0 = (s, es) -> length (s_x s) = length (s_y s) /\
  (run opt c s = (s', None) -> s_queries s' <> s_queries s -> no_nan (s_y s') ->
   first_min (s_x s') (s_y s') (s_best_x s') (s_best s')).
Proof.
  intros Hf H E. split.
  - assert (sf_aligned s) as [L _]; [|exact L].
    replace s with (fst (session (run opt) calls s0)) by (now rewrite E).
    apply (session_inv (run opt) sf_aligned); [intros; now apply sf_run_aligned|]. eapply sf_new_aligned; eauto.
  - intros R Q N. eapply sf_best_recovers; eauto.
Qed.

Lemma sf_nan_final o design calls s0 s es c : sf_new func train design = Ok s0 ->
  session (run (Optimum o)) calls s0 = (s, es) -> all_ok es -> (exists v, In v (s_y s) /\ isnan v = true) ->
  isnan (s_best s) = true /\ run (Optimum o) c s = (s, None).
Proof.
  intros H E A N. pose proof (sf_nan _ _ _ _ _ _ _ _ _ H E A N). split; auto. now apply sf_nan_stops.
Qed.
End SF.

Section CONS.
Variable query : nat -> result mat.
Variable func : objective.
Variable cons : nat -> mat -> result mat.
Variable train : nat -> option exn.
Variable nc : nat.
Notation run := (cn_run query func cons train nc).

Lemma cn_earlier_kept opt calls s s' es : session (run opt) calls s = (s', es) ->
  prefix_of (c_x s) (c_x s') /\ prefix_of (c_y s) (c_y s') /\ prefix_of (c_g s) (c_g s') /\
  prefix_of (c_hist s) (c_hist s') /\ prefix_of (c_hist_x s) (c_hist_x s').
Proof.
  intros E. pose proof (cn_session_grown query func cons train nc opt calls s) as G. now rewrite E in G.
Qed.
Lemma cn_history_final opt design calls s0 s es : one_per_point func -> cons_per_point nc cons -> one_point query ->
  cn_new func cons train nc design = Ok s0 -> session (run opt) calls s0 = (s, es) -> all_ok es -> no_nan (c_y s) ->
  non_increasing (c_hist s) /\ length (c_hist s) = 1 + c_queries s /\
  length (c_x s) = length design + c_queries s /\ length (c_y s) = length design + c_queries s /\
  length (c_g s) = length design + c_queries s /\
  forall t, t <= c_queries s ->
    feasible_best (firstn (length design + t) (c_y s)) (firstn (length design + t) (c_g s)) (nth t (c_hist s) fnan).
Proof.
  intros Hf Hc Hq H E A N.
  destruct (cn_session_recorded query func cons train nc Hf Hc _ Hq opt calls design s0 s es eq_refl H E A) as [R J].
  split; [eapply cn_history_mono; eauto|]. pose proof R as (A1 & A2 & A3 & A4 & _). repeat split; auto.
  intros t Ht. eapply cn_history_best; eauto.
Qed.
End CONS.

Section MF.
Variable query : nat -> result (mat * Z).
Variable hf lf : objective.
Variable train : nat -> option exn.
Notation run := (mf_run query hf lf train).

Lemma mf_new_answers xh xl s0 : mf_new hf lf train xh xl = Ok s0 -> exists y0 y1, hf 0 xh = Ok y0 /\ lf 0 xl = Ok y1.
Proof.
  unfold mf_new. destruct (hf 0 xh) as [y0|]; simpl; [|discriminate].
  destruct (lf 0 xl) as [y1|]; simpl; [|discriminate]. eauto.
Qed.
Lemma mf_best_final opt xh xl calls s0 s es : one_per_point hf -> one_point_mf query ->
  mf_new hf lf train xh xl = Ok s0 -> session (run opt) calls s0 = (s, es) -> all_ok es -> no_nan (hf_y s) ->
  (exists r, point_is (m_best_x s) r /\ some_min (hf_x s) (hf_y s) r (m_best s)) /\ non_increasing (m_hist s).
Proof.
  intros Hh Hq H E A N. destruct (mf_new_answers _ _ _ H) as (y0 & y1 & E0 & E1).
  destruct (mf_new_cases hf lf train xh xl y0 y1 _ H E0 E1) as (W & B1 & _ & B3 & _).
  assert (N0 : no_nan y0).
  { pose proof (mf_session_grown query hf lf train xh xl y0 y1 opt calls s0 W) as G. rewrite E in G.
    destruct G as (_ & [q G] & _). simpl in G. intros v Hv. apply N. rewrite G, B3. apply in_or_app. auto. }
  destruct (mf_session_best query hf lf train xh xl y0 y1 Hh Hq opt calls s0 s es H E0 E1 N0 E A)
    as (_ & _ & A3 & (i & w & r & P & C1 & C2 & C3) & _ & M).
  split; auto. exists r. split; auto. split; eauto.
Qed.
Lemma mf_nan_final opt xh xl calls s0 s es : one_per_point hf -> one_point_mf query ->
  mf_new hf lf train xh xl = Ok s0 -> session (run opt) calls s0 = (s, es) -> all_ok es -> no_nan (hf_y s0) ->
  isnan (m_best s) = false /\ (forall w, In w (hf_y s) -> isnan w = false -> fle (m_best s) w = true) /\
  exists r i w, point_is (m_best_x s) r /\ nth_error (hf_x s) i = Some r /\ nth_error (hf_y s) i = Some w /\ feq w (m_best s) = true.
Proof.
  intros Hh Hq H E A N. destruct (mf_new_answers _ _ _ H) as (y0 & y1 & E0 & E1).
  destruct (mf_new_cases hf lf train xh xl y0 y1 _ H E0 E1) as (W & B1 & _ & B3 & _). rewrite B3 in N.
  destruct (mf_session_best query hf lf train xh xl y0 y1 Hh Hq opt calls s0 s es H E0 E1 N E A)
    as (_ & A2 & A3 & (i & w & r & P & C1 & C2 & C3) & _ & M).
  repeat split; auto. exists r, i, w. auto.
Qed.
Lemma mf_lf_final opt xh xl calls s0 s es ux fid s' : mf_new hf lf train xh xl = Ok s0 ->
  session (run opt) calls s0 = (s, es) -> query (m_queries s) = Ok (ux, fid) -> fid <> 0%Z ->
  mf_step query hf lf train s = (s', None) ->
  m_best s' = m_best s /\ m_best_x s' = m_best_x s /\ hf_x s' = hf_x s /\ hf_y s' = hf_y s /\ m_hf_calls s' = m_hf_calls s.
Proof.
  intros H E. destruct (mf_new_answers _ _ _ H) as (y0 & y1 & E0 & E1).
  destruct (mf_new_cases hf lf train xh xl y0 y1 _ H E0 E1) as (W & _).
  pose proof (mf_wf_session query hf lf train xh xl y0 y1 opt calls s0 W) as W'. rewrite E in W'.
  intros. eapply mf_lf_query; eauto.
Qed.
Lemma mf_bookkeeping opt xh xl calls s0 s es : one_per_point hf -> one_per_point lf -> one_point_mf query ->
  mf_new hf lf train xh xl = Ok s0 -> session (run opt) calls s0 = (s, es) -> all_ok es ->
  length (m_order s) = m_queries s /\ length (m_hist s) = 1 + m_queries s /\
  length (hf_x s) = length xh + count_hf (m_order s) /\ length (hf_y s) = length xh + count_hf (m_order s) /\
  length (lf_x s) = length xl + count_lf (m_order s) /\ length (lf_y s) = length xl + count_lf (m_order s) /\
  hf_x s = concat (map fst (m_hf_calls s)) /\ lf_x s = concat (map fst (m_lf_calls s)) /\
  (exists ys, answers (m_hf_calls s) ys /\ hf_y s = concat ys) /\
  (exists ys, answers (m_lf_calls s) ys /\ lf_y s = concat ys).
Proof.
  intros Hh Hl Hq H E A. destruct (mf_new_answers _ _ _ H) as (y0 & y1 & E0 & E1).
  destruct (mf_session_counted query hf lf train xh xl y0 y1 Hh Hl Hq opt calls s0 s es H E0 E1 E A)
    as (A1 & A2 & A3 & A4 & A5 & A6 & A7 & A8 & A9 & A10).
  rewrite A2, A4. repeat split; auto.
Qed.
(** whatever raises: the initial arrays are intact and recorded data only grow *)
Lemma mf_init_kept opt xh xl calls s0 s es : mf_new hf lf train xh xl = Ok s0 ->
  session (run opt) calls s0 = (s, es) ->
  exists y0 y1, hf 0 xh = Ok y0 /\ lf 0 xl = Ok y1 /\
  init_hf_x s = xh /\ init_lf_x s = xl /\ init_hf_y s = y0 /\ init_lf_y s = y1 /\
  prefix_of xh (hf_x s) /\ prefix_of xl (lf_x s) /\ prefix_of y0 (hf_y s) /\ prefix_of y1 (lf_y s) /\
  prefix_of (m_hist s0) (m_hist s).
Proof.
  intros H E. destruct (mf_new_answers _ _ _ H) as (y0 & y1 & E0 & E1). exists y0, y1.
  destruct (mf_new_cases hf lf train xh xl y0 y1 _ H E0 E1) as (W & B1 & B2 & B3 & B4 & _).
  pose proof (mf_wf_session query hf lf train xh xl y0 y1 opt calls s0 W) as W'.
  pose proof (mf_session_grown query hf lf train xh xl y0 y1 opt calls s0 W) as G.
  rewrite E in W', G. destruct (mf_init_arrays _ _ _ _ _ W') as (C1 & C2 & C3 & C4).
  destruct G as (G1 & G2 & G3 & G4 & G5 & _). rewrite B1, B2, B3, B4 in *. repeat split; auto.
Qed.
(** the iteration performed by a step, whichever way it ends *)
Lemma mf_one_fidelity opt xh xl calls s0 s es s' : mf_new hf lf train xh xl = Ok s0 ->
  session (run opt) calls s0 = (s, es) -> one_point_mf query -> one_per_point hf -> one_per_point lf ->
  mf_step query hf lf train s = (s', None) ->
  (exists r v, hf_x s' = hf_x s ++ [r] /\ hf_y s' = hf_y s ++ [v] /\ lf_x s' = lf_x s /\ lf_y s' = lf_y s /\ m_order s' = m_order s ++ [0%Z]) \/
  (exists r v f, lf_x s' = lf_x s ++ [r] /\ lf_y s' = lf_y s ++ [v] /\ hf_x s' = hf_x s /\ hf_y s' = hf_y s /\ m_order s' = m_order s ++ [f] /\ f <> 0%Z).
Proof.
  intros H E Hq Hh Hl St. destruct (mf_new_answers _ _ _ H) as (y0 & y1 & E0 & E1).
  destruct (mf_new_cases hf lf train xh xl y0 y1 _ H E0 E1) as (W & _).
  pose proof (mf_wf_session query hf lf train xh xl y0 y1 opt calls s0 W) as W'. rewrite E in W'.
  destruct (mf_step_cases query hf lf train xh xl y0 y1 _ _ _ W' St) as (_ & _ & [K|K]); [destruct K; congruence|].
  destruct K as (ux & fid & y & Qu & F & X1 & X2 & Y1 & Y2 & _ & _ & [K|K]); [destruct K; congruence|].
  destruct K as (_ & O & _). pose proof (Hq _ _ _ Qu) as L. destruct ux as [|u [|]]; try discriminate.
  destruct (Z.eqb_spec fid 0).
  - left. subst fid. pose proof (Hh _ _ _ F) as L2. destruct y as [|v [|]]; try discriminate. exists u, v. auto 6.
  - right. pose proof (Hl _ _ _ F) as L2. destruct y as [|v [|]]; try discriminate. exists u, v, fid. auto 7.
Qed.
Lemma mf_stopping_final opt n stop s s' : run (attr opt) (n, stop) s = (s', None) ->
  exists m, m <= n /\ m_queries s' = m + m_queries s /\
    (m = n \/ fle (gap opt (m_best s')) stop = true \/ isnan (gap opt (m_best s')) = true \/ isnan stop = true).
Proof.
  intros H. destruct (mf_stopping _ _ _ _ _ _ _ _ _ H) as (m & A & B & C). exists m. repeat split; auto.
  destruct C as [|C]; auto. right. destruct (isnan stop) eqn:Ns; auto. destruct (isnan (gap opt (m_best s'))) eqn:Ng; auto.
  left. now apply flt_false.
Qed.
End MF.

Lemma unknown_optimum_sf query func train n stop s s' :
  sf_run query func train NoOptimum (n, stop) s = (s', None) ->
  (fle stop f1 = true -> s_queries s' = n + s_queries s) /\ (flt f1 stop = true -> s' = s).
Proof.
  intros H. apply sf_unknown in H as [A B]. split; auto. intros L. apply B.
  destruct (fle stop f1) eqn:E; auto. apply fle_not_flt in E. congruence.
Qed.
Lemma unknown_optimum_mf query hf lf train n stop s :
  (fle f1 stop = true -> mf_run query hf lf train NoOptimum (n, stop) s = (s, None)) /\
  (forall s', flt stop f1 = true -> mf_run query hf lf train NoOptimum (n, stop) s = (s', None) -> m_queries s' = n + m_queries s).
Proof.
  split.
  - intros L. apply mf_unknown_none. now apply fle_not_flt.
  - intros s' L H. eapply mf_unknown; eauto.
Qed.

Lemma query_selects de a m xh vh xl vl p : has_bound m = true -> eval_supported a m = true ->
  de Predict = Ok p -> de (Acq 0) = Ok (xh, vh) -> de (Acq 1) = Ok (xl, vl) ->
  (fle vh vl = true -> mf_query de a m false = Ok ([xh], 0%Z)) /\
  (fle vh vl = false -> mf_query de a m false = Ok ([xl], 1%Z)) /\
  mf_query de a m true = Raise UnboundLocalError.
Proof.
  intros B S P H L. unfold mf_query, de_call. rewrite B, S, P, H, L. simpl.
  destruct a; simpl; destruct (fle vh vl); repeat split; auto; discriminate.
Qed.
Lemma query_cokriging de a : mf_query de a CoKriging false = Raise AttributeError.
Proof. destruct a; reflexivity. Qed.
Lemma query_vfei_scaled de : mf_query de AcqVFEI ScaledKriging false = Raise ValueError.
Proof. reflexivity. Qed.
Lemma unusable_model de a m e query hf lf train opt n stop s :
  (m = CoKriging /\ e = AttributeError) \/ (m = ScaledKriging /\ a = AcqVFEI /\ e = ValueError) ->
  (forall k, query k = mf_query (de k) a m false) ->
  0 < n -> flt stop (gap opt (m_best s)) = true ->
  exists s', mf_run query hf lf train (attr opt) (n, stop) s = (s', Some e) /\
    m_hf_calls s' = m_hf_calls s /\ m_lf_calls s' = m_lf_calls s /\ m_best s' = m_best s.
Proof.
  intros M Q N T. eexists.
  assert (Qe : query (m_queries s) = Raise e).
  { rewrite Q. destruct M as [[-> ->]|(-> & -> & ->)]; [destruct a; reflexivity|reflexivity]. }
  destruct (mf_query_raises query hf lf train (attr opt) n stop s e Qe N) as (A & B & C & D).
  { rewrite truth_gap. unfold fgt. now rewrite T. }
  split; [|split; [exact B|split; [exact C|exact D]]].
  destruct (mf_run query hf lf train (attr opt) (n, stop) s). simpl in *. now subst.
Qed.
Lemma query_user_optimizer b o de : sf_query b (Some o) de = Raise TypeError.
Proof. destruct o; reflexivity. Qed.
Lemma query_in_box b x v : in_box b x -> exists x', sf_query b None (Ok (x, v)) = Ok x' /\ in_box b x'.
Proof. intros H. exists x. auto. Qed.
