(** Properties C25-C34 and C75-C78: Bayesian optimisation. *)
From Coq Require Import ZArith Bool List Lia.
From Verif Require Import Fl NpList Spec EA EASpec BO BOSpec BOFacts BOTotal BOMain.
Import ListNotations.

(** Example data: two initial points 0 and 4; query [k] proposes 2-k; the objective is the
    coordinate, the constraint is [x - 1]; training never fails. *)
Definition ex_design : mat := [[fz 0]; [fz 4]].
Definition ex_query (k : nat) : result mat := Ok [[fz (2 - Z.of_nat k)]].
Definition ex_obj : objective := fun _ x => Ok (map (fun r => nth 0 r f0) x).
Definition ex_cons (k : nat) (x : mat) : result mat := Ok (map (fun r => [fsub (nth 0 r f0) f1]) x).
Definition ex_train (k : nat) : option exn := None.
Definition ex_calls : list (nat * b64) := [(2, f0); (3, f1)].
Example ex_obj_ok : one_per_point ex_obj.
Proof. intros k x y [= <-]. apply map_length. Qed.
Example ex_query_ok : one_point ex_query.
Proof. intros k x [= <-]. reflexivity. Qed.
Example ex_cons_ok : cons_per_point 1 ex_cons.
Proof.
  intros k x g [= <-]. split; [apply map_length|]. apply Forall_forall. intros r H.
  apply in_map_iff in H as (? & <- & _). reflexivity.
Qed.
Lemma no_nan_b l : forallb (fun v => negb (isnan v)) l = true -> no_nan l.
Proof. intros H v Hv. rewrite forallb_forall in H. specialize (H v Hv). now destruct (isnan v). Qed.
Lemma all_ok_b es : forallb (fun e => match e with None => true | _ => false end) es = true -> all_ok es.
Proof. intros H. apply Forall_forall. intros e He. rewrite forallb_forall in H. specialize (H e He). now destruct e. Qed.

Lemma pair_ok {A B} (r : A * B) b : snd r = b -> r = (fst r, b).
Proof. destruct r; simpl; congruence. Qed.

(** Two calls, five iterations, the last query proposes -2. *)
Example ex_sf : exists s0 s es, sf_new ex_obj ex_train ex_design = Ok s0 /\
  session (sf_run ex_query ex_obj ex_train NoOptimum) ex_calls s0 = (s, es) /\ all_ok es /\ no_nan (s_y s) /\
  s_queries s = 5 /\ feq (s_best s) (fz (-2)) = true.
Proof.
  do 3 eexists. split; [reflexivity|]. split; [apply surjective_pairing|].
  split; [apply all_ok_b; reflexivity|]. split; [apply no_nan_b; reflexivity|]. split; reflexivity.
Qed.

(** ** C25 best is the minimum of all observed responses *)
Theorem C25_sf_best : forall query func train opt design s0 calls s es,
  sf_new func train design = Ok s0 -> session (sf_run query func train opt) calls s0 = (s, es) -> all_ok es ->
  no_nan (s_y s) -> first_min (s_x s) (s_y s) (s_best_x s) (s_best s).
Proof. exact sf_best. Qed.
Print Assumptions C25_sf_best.

(** ** C26 bookkeeping *)
Theorem C26_sf_records : forall query func train opt design calls s0 s es, one_per_point func -> one_point query ->
  sf_new func train design = Ok s0 -> session (sf_run query func train opt) calls s0 = (s, es) -> all_ok es ->
  length (s_x s) = length design + s_queries s /\ length (s_y s) = length design + s_queries s /\
  length (s_hist s) = 1 + s_queries s /\ length (s_hist_x s) = 1 + s_queries s /\
  length (s_calls s) = 1 + s_queries s /\ s_trains s = 1 + s_queries s /\
  true_trace func (s_calls s) /\ s_x s = concat (map fst (s_calls s)) /\
  exists ys, answers (s_calls s) ys /\ s_y s = concat ys.
Proof. exact sf_bookkeeping. Qed.
Print Assumptions C26_sf_records.
(** nothing recorded earlier is changed, even if calls raise *)
Theorem C26_sf_keeps : forall query func train opt calls s s' es,
  session (sf_run query func train opt) calls s = (s', es) ->
  prefix_of (s_x s) (s_x s') /\ prefix_of (s_y s) (s_y s') /\
  prefix_of (s_hist s) (s_hist s') /\ prefix_of (s_hist_x s) (s_hist_x s').
Proof. exact sf_earlier_kept. Qed.
Print Assumptions C26_sf_keeps.
(** entry [t] of the history is the best of the data known after [t] iterations *)
Theorem C26_sf_history : forall query func train opt design calls s0 s es, one_per_point func -> one_point query ->
  sf_new func train design = Ok s0 -> session (sf_run query func train opt) calls s0 = (s, es) -> all_ok es -> no_nan (s_y s) ->
  non_increasing (s_hist s) /\
  forall t, t <= s_queries s ->
    first_min (firstn (length design + t) (s_x s)) (firstn (length design + t) (s_y s))
      (nth t (s_hist_x s) []) (nth t (s_hist s) fnan).
Proof. exact sf_history_best. Qed.
Print Assumptions C26_sf_history.

(** ** C27 stopping rule *)
Theorem C27_sf_stopping : forall query func train opt design calls s0 s es n stop s',
  sf_new func train design = Ok s0 ->
  session (sf_run query func train (attr opt)) calls s0 = (s, es) -> all_ok es ->
  sf_run query func train (attr opt) (n, stop) s = (s', None) ->
  exists m, m <= n /\ s_queries s' = m + s_queries s /\ length (s_hist s') = m + length (s_hist s) /\
    (forall k, k < m -> fle stop (gap opt (nth (length (s_hist s) - 1 + k) (s_hist s') fnan)) = true) /\
    (m = n \/ flt (gap opt (s_best s')) stop = true \/ isnan (gap opt (s_best s')) = true \/ isnan stop = true).
Proof. exact sf_stopping_rule. Qed.
Print Assumptions C27_sf_stopping.
(** the constrained class follows the same rule *)
Theorem C27_cons_stopping : forall query func cons train nc opt design calls s0 s es n stop s',
  cn_new func cons train nc design = Ok s0 ->
  session (cn_run query func cons train nc (attr opt)) calls s0 = (s, es) -> all_ok es ->
  cn_run query func cons train nc (attr opt) (n, stop) s = (s', None) ->
  exists m, m <= n /\ c_queries s' = m + c_queries s /\ length (c_hist s') = m + length (c_hist s) /\
    (forall k, k < m -> fle stop (gap opt (nth (length (c_hist s) - 1 + k) (c_hist s') fnan)) = true) /\
    (m = n \/ flt (gap opt (c_best s')) stop = true \/ isnan (gap opt (c_best s')) = true \/ isnan stop = true).
Proof. exact cn_stopping_rule. Qed.
Print Assumptions C27_cons_stopping.
Theorem C27_sf_unknown_optimum : forall query func train n stop s s',
  sf_run query func train NoOptimum (n, stop) s = (s', None) ->
  (fle stop f1 = true -> s_queries s' = n + s_queries s) /\ (flt f1 stop = true -> s' = s).
Proof. exact unknown_optimum_sf. Qed.
Print Assumptions C27_sf_unknown_optimum.
(** With optimum -1 and tolerance 1/2 the run of the example stops early, after four of nine iterations. *)
Definition ex_s0 : sf_state := match sf_new ex_obj ex_train ex_design with Ok s => s | Raise _ => Build_sf_state [] [] f0 [] [] [] 0 0 [] end.
Definition ex_stop_run := sf_run ex_query ex_obj ex_train (attr (Some (fz (-1)))) (9, fbin 1 (-1)) ex_s0.
Example ex_sf_stops : sf_new ex_obj ex_train ex_design = Ok ex_s0 /\
  ex_stop_run = (fst ex_stop_run, None) /\ s_queries (fst ex_stop_run) = 4.
Proof. split; [reflexivity|]. split; [apply pair_ok; reflexivity|reflexivity]. Qed.

(** The constrained example stops early as well, after four of nine iterations. *)
Definition ex_c0 : cn_state := match cn_new ex_obj ex_cons ex_train 1 ex_design with Ok s => s | Raise _ => Build_cn_state [] [] [] finf None [] [] 0 0 [] [] end.
Definition ex_c_stop := cn_run ex_query ex_obj ex_cons ex_train 1 (attr (Some (fz (-1)))) (9, fbin 1 (-1)) ex_c0.
Example ex_cn_stops : cn_new ex_obj ex_cons ex_train 1 ex_design = Ok ex_c0 /\
  ex_c_stop = (fst ex_c_stop, None) /\ c_queries (fst ex_c_stop) = 4.
Proof. split; [reflexivity|]. split; [apply pair_ok; reflexivity|reflexivity]. Qed.

(** ** C28 constrained: best is the best feasible response *)
Theorem C28_cons_best : forall query func cons train nc, one_per_point func -> cons_per_point nc cons ->
  forall opt calls design s0 s es,
  cn_new func cons train nc design = Ok s0 ->
  session (cn_run query func cons train nc opt) calls s0 = (s, es) -> all_ok es -> no_nan (c_y s) ->
  feasible_best (c_y s) (c_g s) (c_best s) /\
  ((forall i, ~ feasible (c_g s) i) -> c_best s = finf /\ c_best_x s = None).
Proof. exact ConsFacts.cn_best_ok. Qed.
Print Assumptions C28_cons_best.
Theorem C28_cons_history : forall query func cons train nc opt design calls s0 s es,
  one_per_point func -> cons_per_point nc cons -> one_point query ->
  cn_new func cons train nc design = Ok s0 -> session (cn_run query func cons train nc opt) calls s0 = (s, es) -> all_ok es ->
  no_nan (c_y s) ->
  non_increasing (c_hist s) /\ length (c_hist s) = 1 + c_queries s /\
  length (c_x s) = length design + c_queries s /\ length (c_y s) = length design + c_queries s /\
  length (c_g s) = length design + c_queries s /\
  forall t, t <= c_queries s ->
    feasible_best (firstn (length design + t) (c_y s)) (firstn (length design + t) (c_g s)) (nth t (c_hist s) fnan).
Proof. exact cn_history_final. Qed.
Print Assumptions C28_cons_history.
Theorem C28_cons_keeps : forall query func cons train nc opt calls s s' es,
  session (cn_run query func cons train nc opt) calls s = (s', es) ->
  prefix_of (c_x s) (c_x s') /\ prefix_of (c_y s) (c_y s') /\ prefix_of (c_g s) (c_g s') /\
  prefix_of (c_hist s) (c_hist s') /\ prefix_of (c_hist_x s) (c_hist_x s').
Proof. exact cn_earlier_kept. Qed.
Print Assumptions C28_cons_keeps.
Example ex_cn : exists s0 s es, cn_new ex_obj ex_cons ex_train 1 ex_design = Ok s0 /\
  session (cn_run ex_query ex_obj ex_cons ex_train 1 NoOptimum) ex_calls s0 = (s, es) /\ all_ok es /\ no_nan (c_y s) /\
  c_queries s = 5 /\ feq (c_best s) (fz (-2)) = true /\ option_map (@length row) (c_best_x s) = Some 1.
Proof.
  do 3 eexists. split; [reflexivity|]. split; [apply surjective_pairing|].
  split; [apply all_ok_b; reflexivity|]. split; [apply no_nan_b; reflexivity|]. split; [reflexivity|]. split; reflexivity.
Qed.

(** ** C29 best_x rows attain best *)
Theorem C29_cons_best_x : forall query func cons train nc, one_per_point func -> cons_per_point nc cons ->
  forall opt calls design s0 s es bx,
  cn_new func cons train nc design = Ok s0 ->
  session (cn_run query func cons train nc opt) calls s0 = (s, es) -> all_ok es -> no_nan (c_y s) -> c_best_x s = Some bx ->
  (forall r, In r bx <-> exists i w, nth_error (c_x s) i = Some r /\ nth_error (c_y s) i = Some w /\ feq w (c_best s) = true) /\
  (exists i r w, In r bx /\ feasible (c_g s) i /\ nth_error (c_x s) i = Some r /\ nth_error (c_y s) i = Some w /\ feq w (c_best s) = true).
Proof. exact ConsFacts.cn_best_x_ok. Qed.
Print Assumptions C29_cons_best_x.
(** The natural expectation that every row of best_x is feasible is false: with a constant objective
    the infeasible initial point 4 (constraint value 3) is reported too. *)
Theorem C29_infeasible_tie_refuted : exists func cons train design s bx i r c,
  one_per_point func /\ cons_per_point 1 cons /\ cn_new func cons train 1 design = Ok s /\
  c_best_x s = Some bx /\ In r bx /\ nth_error (c_x s) i = Some r /\ nth_error (c_g s) i = Some [c] /\ flt f0 c = true.
Proof.
  exists (fun _ x => Ok (map (fun _ => f1) x)), ex_cons, ex_train, ex_design.
  eexists. eexists. exists 1, [fz 4]. eexists. split; [intros k x y [= <-]; apply map_length|].
  split; [exact ex_cons_ok|]. split; [reflexivity|]. split; [reflexivity|]. split; [right; left; reflexivity|].
  split; [reflexivity|]. split; reflexivity.
Qed.
Print Assumptions C29_infeasible_tie_refuted.

(** ** C30 multi-fidelity: best is the minimum high-fidelity response *)
Definition ex_mf_query (k : nat) : result (mat * Z) := Ok ([[fz (2 - Z.of_nat k)]], Z.of_nat (k mod 2)).
Example ex_mf_query_ok : one_point_mf ex_mf_query.
Proof. intros k x f [= <- _]. reflexivity. Qed.
Theorem C30_mf_best : forall query hf lf train opt xh xl calls s0 s es, one_per_point hf -> one_point_mf query ->
  mf_new hf lf train xh xl = Ok s0 -> session (mf_run query hf lf train opt) calls s0 = (s, es) -> all_ok es ->
  no_nan (hf_y s) ->
  (exists r, point_is (m_best_x s) r /\ some_min (hf_x s) (hf_y s) r (m_best s)) /\ non_increasing (m_hist s).
Proof. exact mf_best_final. Qed.
Print Assumptions C30_mf_best.
Theorem C30_mf_low_fidelity : forall query hf lf train opt xh xl calls s0 s es ux fid s', mf_new hf lf train xh xl = Ok s0 ->
  session (mf_run query hf lf train opt) calls s0 = (s, es) -> query (m_queries s) = Ok (ux, fid) -> fid <> 0%Z ->
  mf_step query hf lf train s = (s', None) ->
  m_best s' = m_best s /\ m_best_x s' = m_best_x s /\ hf_x s' = hf_x s /\ hf_y s' = hf_y s /\ m_hf_calls s' = m_hf_calls s.
Proof. exact mf_lf_final. Qed.
Print Assumptions C30_mf_low_fidelity.
Example ex_mf : exists s0 s es, mf_new ex_obj ex_obj ex_train ex_design ex_design = Ok s0 /\
  session (mf_run ex_mf_query ex_obj ex_obj ex_train NoOptimum) [(2, f0); (3, f0)] s0 = (s, es) /\ all_ok es /\ no_nan (hf_y s) /\
  m_queries s = 5 /\ m_order s = [0; 1; 0; 1; 0]%Z /\ feq (m_best s) (fz (-2)) = true.
Proof.
  do 3 eexists. split; [reflexivity|]. split; [apply surjective_pairing|].
  split; [apply all_ok_b; reflexivity|]. split; [apply no_nan_b; reflexivity|]. split; [reflexivity|]. split; reflexivity.
Qed.

(** ** C31 multi-fidelity bookkeeping *)
Theorem C31_mf_records : forall query hf lf train opt xh xl calls s0 s es,
  one_per_point hf -> one_per_point lf -> one_point_mf query ->
  mf_new hf lf train xh xl = Ok s0 -> session (mf_run query hf lf train opt) calls s0 = (s, es) -> all_ok es ->
  length (m_order s) = m_queries s /\ length (m_hist s) = 1 + m_queries s /\
  length (hf_x s) = length xh + count_hf (m_order s) /\ length (hf_y s) = length xh + count_hf (m_order s) /\
  length (lf_x s) = length xl + count_lf (m_order s) /\ length (lf_y s) = length xl + count_lf (m_order s) /\
  hf_x s = concat (map fst (m_hf_calls s)) /\ lf_x s = concat (map fst (m_lf_calls s)) /\
  (exists ys, answers (m_hf_calls s) ys /\ hf_y s = concat ys) /\
  (exists ys, answers (m_lf_calls s) ys /\ lf_y s = concat ys).
Proof. exact mf_bookkeeping. Qed.
Print Assumptions C31_mf_records.
Theorem C31_mf_one_fidelity : forall query hf lf train opt xh xl calls s0 s es s', mf_new hf lf train xh xl = Ok s0 ->
  session (mf_run query hf lf train opt) calls s0 = (s, es) -> one_point_mf query -> one_per_point hf -> one_per_point lf ->
  mf_step query hf lf train s = (s', None) ->
  (exists r v, hf_x s' = hf_x s ++ [r] /\ hf_y s' = hf_y s ++ [v] /\ lf_x s' = lf_x s /\ lf_y s' = lf_y s /\ m_order s' = m_order s ++ [0%Z]) \/
  (exists r v f, lf_x s' = lf_x s ++ [r] /\ lf_y s' = lf_y s ++ [v] /\ hf_x s' = hf_x s /\ hf_y s' = hf_y s /\ m_order s' = m_order s ++ [f] /\ f <> 0%Z).
Proof. exact mf_one_fidelity. Qed.
Print Assumptions C31_mf_one_fidelity.
(** the arrays of the initial design are never modified, even if calls raise *)
Theorem C31_mf_initial_design : forall query hf lf train opt xh xl calls s0 s es, mf_new hf lf train xh xl = Ok s0 ->
  session (mf_run query hf lf train opt) calls s0 = (s, es) ->
  exists y0 y1, hf 0 xh = Ok y0 /\ lf 0 xl = Ok y1 /\
  init_hf_x s = xh /\ init_lf_x s = xl /\ init_hf_y s = y0 /\ init_lf_y s = y1 /\
  prefix_of xh (hf_x s) /\ prefix_of xl (lf_x s) /\ prefix_of y0 (hf_y s) /\ prefix_of y1 (lf_y s) /\
  prefix_of (m_hist s0) (m_hist s).
Proof. exact mf_init_kept. Qed.
Print Assumptions C31_mf_initial_design.

(** ** C32 unknown optimum: the two classes differ at stopping_error = 1 *)
Theorem C32_mf_unknown_optimum : forall query hf lf train n stop s,
  (fle f1 stop = true -> mf_run query hf lf train NoOptimum (n, stop) s = (s, None)) /\
  (forall s', flt stop f1 = true -> mf_run query hf lf train NoOptimum (n, stop) s = (s', None) -> m_queries s' = n + m_queries s).
Proof. exact unknown_optimum_mf. Qed.
Print Assumptions C32_mf_unknown_optimum.
(** the single-fidelity side is C27_sf_unknown_optimum; in particular at the default tolerance: *)
Theorem C32_default_tolerance : forall query func train n s s',
  sf_run query func train NoOptimum (n, f1) s = (s', None) -> s_queries s' = n + s_queries s.
Proof. exact (fun query func train n s s' H => proj1 (unknown_optimum_sf query func train n f1 s s' H) eq_refl). Qed.
Print Assumptions C32_default_tolerance.
Theorem C32_mf_stopping : forall query hf lf train opt n stop s s', mf_run query hf lf train (attr opt) (n, stop) s = (s', None) ->
  exists m, m <= n /\ m_queries s' = m + m_queries s /\
    (m = n \/ fle (gap opt (m_best s')) stop = true \/ isnan (gap opt (m_best s')) = true \/ isnan stop = true).
Proof. exact mf_stopping_final. Qed.
Print Assumptions C32_mf_stopping.

(** and every earlier iteration started with an error above the tolerance *)
Theorem C32_mf_stopping_rule : forall query hf lf train opt xh xl calls s0 s es n stop s', mf_new hf lf train xh xl = Ok s0 ->
  session (mf_run query hf lf train (attr opt)) calls s0 = (s, es) -> all_ok es ->
  mf_run query hf lf train (attr opt) (n, stop) s = (s', None) ->
  exists m, m <= n /\ m_queries s' = m + m_queries s /\ length (m_hist s') = m + length (m_hist s) /\
    (forall k, k < m -> flt stop (gap opt (nth (length (m_hist s) - 1 + k) (m_hist s') fnan)) = true) /\
    (m = n \/ fle (gap opt (m_best s')) stop = true \/ isnan (gap opt (m_best s')) = true \/ isnan stop = true).
Proof. exact mf_stopping_rule. Qed.
Print Assumptions C32_mf_stopping_rule.
Definition ex_m0 : mf_state := match mf_new ex_obj ex_obj ex_train ex_design ex_design with Ok s => s
  | Raise _ => Build_mf_state [] [] 0 0 0 0 f0 (Rows []) [] [] [] 0 0 [] [] end.
Definition ex_m_stop := mf_run ex_mf_query ex_obj ex_obj ex_train (attr (Some (fz (-2)))) (9, f0) ex_m0.
Example ex_mf_stops : mf_new ex_obj ex_obj ex_train ex_design ex_design = Ok ex_m0 /\
  ex_m_stop = (fst ex_m_stop, None) /\ m_queries (fst ex_m_stop) = 5.
Proof. split; [reflexivity|]. split; [apply pair_ok; reflexivity|reflexivity]. Qed.

(** ** C33 fidelity selection *)
Theorem C33_selection : forall de a m xh vh xl vl p, has_bound m = true -> eval_supported a m = true ->
  de Predict = Ok p -> de (Acq 0) = Ok (xh, vh) -> de (Acq 1) = Ok (xl, vl) ->
  (fle vh vl = true -> mf_query de a m false = Ok ([xh], 0%Z)) /\
  (fle vh vl = false -> mf_query de a m false = Ok ([xl], 1%Z)) /\
  mf_query de a m true = Raise UnboundLocalError.
Proof. exact query_selects. Qed.
Print Assumptions C33_selection.
Example C33_ok : has_bound HierarchicalKriging = true /\ forall a, eval_supported a HierarchicalKriging = true.
Proof. split; [reflexivity|]. intros []; reflexivity. Qed.

(** ** C34 single-fidelity query *)
Theorem C34_user_optimizer : forall b o de, sf_query b (Some o) de = Raise TypeError.
Proof. exact query_user_optimizer. Qed.
Print Assumptions C34_user_optimizer.
Theorem C34_in_space : forall b x v, in_box b x -> exists x', sf_query b None (Ok (x, v)) = Ok x' /\ in_box b x'.
Proof. exact query_in_box. Qed.
Print Assumptions C34_in_space.
Example C34_ok : in_box [(fz 0, fz 2)] [f1].
Proof. repeat constructor. Qed.

(** ** C75 NaN responses *)
Theorem C75_sf_nan : forall query func train o design calls s0 s es c, sf_new func train design = Ok s0 ->
  session (sf_run query func train (Optimum o)) calls s0 = (s, es) -> all_ok es -> (exists v, In v (s_y s) /\ isnan v = true) ->
  isnan (s_best s) = true /\ sf_run query func train (Optimum o) c s = (s, None).
Proof. exact sf_nan_final. Qed.
Print Assumptions C75_sf_nan.
Theorem C75_mf_nan : forall query hf lf train opt xh xl calls s0 s es, one_per_point hf -> one_point_mf query ->
  mf_new hf lf train xh xl = Ok s0 -> session (mf_run query hf lf train opt) calls s0 = (s, es) -> all_ok es -> no_nan (hf_y s0) ->
  isnan (m_best s) = false /\ (forall w, In w (hf_y s) -> isnan w = false -> fle (m_best s) w = true) /\
  exists r i w, point_is (m_best_x s) r /\ nth_error (hf_x s) i = Some r /\ nth_error (hf_y s) i = Some w /\ feq w (m_best s) = true.
Proof. exact mf_nan_final. Qed.
Print Assumptions C75_mf_nan.
(** an objective that is NaN below 1 *)
Definition ex_nan : objective := fun _ x => Ok (map (fun r => if fle f1 (nth 0 r f0) then nth 0 r f0 else fnan) x).
Example ex_sf_nan : exists s0 s es, sf_new ex_nan ex_train [[fz 3]] = Ok s0 /\
  session (sf_run ex_query ex_nan ex_train (Optimum f0)) ex_calls s0 = (s, es) /\ all_ok es /\
  existsb isnan (s_y s) = true.
Proof.
  do 3 eexists. split; [reflexivity|]. split; [apply surjective_pairing|].
  split; [apply all_ok_b; reflexivity|]. reflexivity.
Qed.
Example ex_mf_nan : exists s0 s es, mf_new ex_nan ex_nan ex_train [[fz 3]] [[fz 3]] = Ok s0 /\
  session (mf_run ex_mf_query ex_nan ex_nan ex_train NoOptimum) [(5, f0)] s0 = (s, es) /\ all_ok es /\ no_nan (hf_y s0) /\
  existsb isnan (hf_y s) = true /\ feq (m_best s) (fz 2) = true.
Proof.
  do 3 eexists. split; [reflexivity|]. split; [apply surjective_pairing|].
  split; [apply all_ok_b; reflexivity|]. split; [apply no_nan_b; reflexivity|]. split; reflexivity.
Qed.

(** ** C76 exceptions and going on after them *)
Theorem C76_sf_recovers : forall query func train opt design calls s0 s es c s', one_per_point func ->
  sf_new func train design = Ok s0 ->
  session (sf_run query func train opt) calls s0 = (s, es) -> length (s_x s) = length (s_y s) /\
  (sf_run query func train opt c s = (s', None) -> s_queries s' <> s_queries s -> no_nan (s_y s') ->
   first_min (s_x s') (s_y s') (s_best_x s') (s_best s')).
Proof. exact sf_recovers. Qed.
Print Assumptions C76_sf_recovers.
Definition ex_bad_train (k : nat) : option exn := if Nat.eqb k 1 then Some LinAlgError else None.
Definition ex_mf_query2 (k : nat) : result (mat * Z) := Ok ([[fz (Z.of_nat k - 5)]], 0%Z).
Definition ex_bad_s0 : sf_state := match sf_new ex_obj ex_bad_train ex_design with Ok s => s | Raise _ => ex_s0 end.
Definition ex_bad_run := session (sf_run ex_query ex_obj ex_bad_train NoOptimum) [(2, f0)] ex_bad_s0.
Definition ex_bad_next := sf_run ex_query ex_obj ex_bad_train NoOptimum (3, f0) (fst ex_bad_run).
Example ex_sf_recovers : sf_new ex_obj ex_bad_train ex_design = Ok ex_bad_s0 /\ snd ex_bad_run = [Some LinAlgError] /\
  ex_bad_next = (fst ex_bad_next, None) /\ s_queries (fst ex_bad_run) = 1 /\ s_queries (fst ex_bad_next) = 4 /\ no_nan (s_y (fst ex_bad_next)).
Proof.
  split; [reflexivity|]. split; [reflexivity|]. split; [apply pair_ok; reflexivity|]. split; [reflexivity|]. split; [reflexivity|].
  apply no_nan_b. reflexivity.
Qed.
(** In the multi-fidelity class a high-fidelity response recorded just before a failed training is
    never taken into account afterwards, although later calls return normally. *)
Definition ex_mf_bad_s0 : mf_state :=
  match mf_new ex_obj ex_obj ex_bad_train ex_design ex_design with
  | Ok s => s | Raise _ => Build_mf_state [] [] 0 0 0 0 f0 (Vec []) [] [] [] 0 0 [] [] end.
Local Notation ex_mf_bad_run := (session (mf_run ex_mf_query2 ex_obj ex_obj ex_bad_train NoOptimum) [(1, f0)] ex_mf_bad_s0).
Local Notation ex_mf_bad_next := (mf_run ex_mf_query2 ex_obj ex_obj ex_bad_train NoOptimum (3, f0) (fst ex_mf_bad_run)).
Example ex_mf_bad_ok : snd ex_mf_bad_run = [Some LinAlgError] /\ snd ex_mf_bad_next = None /\ m_queries (fst ex_mf_bad_next) = 4.
Proof. split; [reflexivity|]. split; reflexivity. Qed.
Example ex_mf_bad_lost : flt (nth 2 (hf_y (fst ex_mf_bad_next)) f0) (m_best (fst ex_mf_bad_next)) = true.
Proof. reflexivity. Qed.
Example ex_mf_bad_nonan : forallb (fun v => negb (isnan v)) (hf_y (fst ex_mf_bad_next)) = true.
Proof. reflexivity. Qed.
Example ex_mf_bad_in : In (nth 2 (hf_y (fst ex_mf_bad_next)) f0) (hf_y (fst ex_mf_bad_next)).
Proof. apply nth_In. apply Nat.ltb_lt. reflexivity. Qed.
Example ex_mf_bad_new : mf_new ex_obj ex_obj ex_bad_train ex_design ex_design = Ok ex_mf_bad_s0.
Proof. reflexivity. Qed.
Example ex_mf_query2_ok : one_point_mf ex_mf_query2.
Proof. intros k x f [= <- _]. reflexivity. Qed.
Theorem C76_mf_recovers_refuted : exists query hf lf train xh xl s0 s es s' w,
  one_per_point hf /\ one_point_mf query /\ mf_new hf lf train xh xl = Ok s0 /\
  session (mf_run query hf lf train NoOptimum) [(1, f0)] s0 = (s, es) /\ es = [Some LinAlgError] /\
  mf_run query hf lf train NoOptimum (3, f0) s = (s', None) /\ m_queries s' = 4 /\ no_nan (hf_y s') /\
  In w (hf_y s') /\ flt w (m_best s') = true.
Proof.
  exists ex_mf_query2, ex_obj, ex_obj, ex_bad_train, ex_design, ex_design.
  exists ex_mf_bad_s0, (fst ex_mf_bad_run), (snd ex_mf_bad_run), (fst ex_mf_bad_next), (nth 2 (hf_y (fst ex_mf_bad_next)) f0).
  destruct ex_mf_bad_ok as (E1 & E2 & E3).
  pose proof (pair_ok ex_mf_bad_next None E2) as P.
  pose proof (surjective_pairing ex_mf_bad_run) as Q.
  exact (conj ex_obj_ok (conj ex_mf_query2_ok (conj ex_mf_bad_new (conj Q (conj E1
    (conj P (conj E3 (conj (no_nan_b _ ex_mf_bad_nonan) (conj ex_mf_bad_in ex_mf_bad_lost))))))))).
Qed.
Print Assumptions C76_mf_recovers_refuted.

(** ** C77 surrogate and acquisition combinations that cannot work *)
Theorem C77_unusable_models : forall de a m e query hf lf train opt n stop s,
  (m = CoKriging /\ e = AttributeError) \/ (m = ScaledKriging /\ a = AcqVFEI /\ e = ValueError) ->
  (forall k, query k = mf_query (de k) a m false) ->
  0 < n -> flt stop (gap opt (m_best s)) = true ->
  exists s', mf_run query hf lf train (attr opt) (n, stop) s = (s', Some e) /\
    m_hf_calls s' = m_hf_calls s /\ m_lf_calls s' = m_lf_calls s /\ m_best s' = m_best s.
Proof. exact unusable_model. Qed.
Print Assumptions C77_unusable_models.
Example C77_ok : flt f0 (gap None f1) = true /\ flt f0 (gap (Some f1) (fz 3)) = true.
Proof. split; reflexivity. Qed.

(** ** C78 an optimum attribute that is a list (AckleyN2) *)
Theorem C78_list_optimum : forall query func train n stop s a b l,
  sf_run query func train (OptimumList (a :: b :: l)) (S n, stop) s = (s, Some ValueError).
Proof. exact sf_list. Qed.
Print Assumptions C78_list_optimum.

(** ** C80 a run whose parts work completes *)
Theorem C80_sf_completes : forall query func train dim, query_works dim query -> objective_works func -> train_works train ->
  forall opt design, design <> [] -> points_of dim design ->
  exists s0, sf_new func train design = Ok s0 /\
  forall calls, all_ok (snd (session (sf_run query func train (attr opt)) calls s0)).
Proof. exact sf_completes. Qed.
Print Assumptions C80_sf_completes.
Theorem C80_cons_completes : forall query func cons train nc dim, query_works dim query -> objective_works func ->
  cons_work nc cons -> train_works train ->
  forall opt design, design <> [] -> points_of dim design ->
  exists s0, cn_new func cons train nc design = Ok s0 /\
  forall calls, all_ok (snd (session (cn_run query func cons train nc (attr opt)) calls s0)).
Proof. exact cn_completes. Qed.
Print Assumptions C80_cons_completes.
Theorem C80_mf_completes : forall query hf lf train dim, query_works_mf dim query -> objective_works hf -> objective_works lf ->
  train_works train ->
  forall opt xh xl, xh <> [] -> xl <> [] -> points_of dim xh -> points_of dim xl ->
  exists s0, mf_new hf lf train xh xl = Ok s0 /\
  forall calls, all_ok (snd (session (mf_run query hf lf train (attr opt)) calls s0)).
Proof. exact mf_completes. Qed.
Print Assumptions C80_mf_completes.
Example C80_ok : query_works 1 ex_query /\ query_works_mf 1 ex_mf_query /\ objective_works ex_obj /\ cons_work 1 ex_cons /\
  train_works ex_train /\ points_of 1 ex_design /\ ex_design <> [].
Proof.
  repeat split; try discriminate.
  - intros k. eexists. split; [reflexivity|]. repeat constructor.
  - intros k. do 2 eexists. split; [reflexivity|]. split; [repeat constructor|discriminate].
  - intros k x. eexists. split; [reflexivity|]. apply map_length.
  - intros k x. eexists. split; [reflexivity|]. split; [apply map_length|]. apply Forall_forall.
    intros r H. apply in_map_iff in H. now destruct H as (? & <- & _).
  - repeat constructor.
Qed.
