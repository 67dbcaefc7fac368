(** Proofs about the multi-fidelity Bayesian optimiser and the acquisition queries. *)
From Coq Require Import ZArith Bool List Lia.
From Verif Require Import Fl FlFacts NpList NpFacts Spec EA EASpec BO BOSpec BOFacts.
Import ListNotations.

Section MF.
Variable query : nat -> result (mat * Z).
Variable hf : objective.
Variable lf : objective.
Variable train : nat -> option exn.
Notation step := (mf_step query hf lf train).
Notation run := (mf_run query hf lf train).

Section Design.
Variables (xh xl : mat) (y0 y1 : list b64).

(** the two list objects are distinct, and the initial one still holds the initial arrays *)
Definition mf_wf (s : mf_state) : Prop :=
  m_init_sample s = 0 /\ m_sample s = 1 /\ m_init_response s = 0 /\ m_response s = 1 /\
  (exists a b, m_xs s = [[xh; xl]; [a; b]]) /\ (exists c d, m_ys s = [[y0; y1]; [c; d]]).

Lemma mf_new_cases s : mf_new hf lf train xh xl = Ok s -> hf 0 xh = Ok y0 -> lf 0 xl = Ok y1 ->
  mf_wf s /\ hf_x s = xh /\ lf_x s = xl /\ hf_y s = y0 /\ lf_y s = y1 /\ m_order s = [] /\ m_queries s = 0 /\
  m_trains s = 1 /\ m_hf_calls s = [(xh, Ok y0)] /\ m_lf_calls s = [(xl, Ok y1)] /\
  m_hist s = [m_best s] /\ m_hist_x s = [m_best_x s] /\
  exists i r, np_argmin y0 = Ok i /\ np_min y0 = Ok (m_best s) /\ nth_error xh i = Some r /\ m_best_x s = Vec r.
Proof.
  unfold mf_new. intros H E0 E1. rewrite E0, E1 in H. cbn [bind] in H.
  destruct (train 0); [discriminate|].
  unfold np_min in *. destruct (np_argmin y0) as [i|] eqn:A; simpl in H; [|discriminate].
  unfold take_row in H. destruct (nth_error xh i) as [r|] eqn:R; simpl in H; [|discriminate].
  injection H as <-. unfold mf_wf, hf_x, lf_x, hf_y, lf_y. simpl.
  repeat split; eauto 9.
Qed.

(** What one iteration does. *)
Lemma mf_step_cases s s' o : mf_wf s -> step s = (s', o) ->
  mf_wf s' /\ m_queries s' = S (m_queries s) /\
  ((o <> None /\ hf_x s' = hf_x s /\ lf_x s' = lf_x s /\ hf_y s' = hf_y s /\ lf_y s' = lf_y s /\
    m_best s' = m_best s /\ m_best_x s' = m_best_x s /\ m_hist s' = m_hist s /\ m_hist_x s' = m_hist_x s /\
    m_order s' = m_order s) \/
   exists ux fid y, query (m_queries s) = Ok (ux, fid) /\
    (if Z.eqb fid 0 then hf (length (m_hf_calls s)) ux = Ok y else lf (length (m_lf_calls s)) ux = Ok y) /\
    hf_x s' = (if Z.eqb fid 0 then hf_x s ++ ux else hf_x s) /\
    lf_x s' = (if Z.eqb fid 0 then lf_x s else lf_x s ++ ux) /\
    hf_y s' = (if Z.eqb fid 0 then hf_y s ++ y else hf_y s) /\
    lf_y s' = (if Z.eqb fid 0 then lf_y s else lf_y s ++ y) /\
    m_hf_calls s' = (if Z.eqb fid 0 then m_hf_calls s ++ [(ux, Ok y)] else m_hf_calls s) /\
    m_lf_calls s' = (if Z.eqb fid 0 then m_lf_calls s else m_lf_calls s ++ [(ux, Ok y)]) /\
    ((o <> None /\ m_best s' = m_best s /\ m_best_x s' = m_best_x s /\ m_hist s' = m_hist s /\ m_hist_x s' = m_hist_x s) \/
     (o = None /\ m_order s' = m_order s ++ [fid] /\
      m_hist s' = m_hist s ++ [m_best s'] /\ m_hist_x s' = m_hist_x s ++ [m_best_x s'] /\
      (if Z.eqb fid 0 then exists v l, y = v :: l /\
          (if flt v (m_best s) then m_best s' = v /\ m_best_x s' = Rows ux
           else m_best s' = m_best s /\ m_best_x s' = m_best_x s)
       else m_best s' = m_best s /\ m_best_x s' = m_best_x s)))).
Proof.
  intros (W1 & W2 & W3 & W4 & (a & b & Wx) & (c & d & Wy)) E.
  unfold mf_step in E. destruct (query (m_queries s)) as [[ux fid]|e] eqn:Q.
  2:{ injection E as <- <-. simpl. split; [unfold mf_wf; simpl; repeat split; eauto|]. split; auto.
      left. unfold hf_x, lf_x, hf_y, lf_y. simpl. repeat split; auto. discriminate. }
  destruct (Z.eqb fid 0) eqn:Ef.
  - destruct (hf (length (m_hf_calls s)) ux) as [y|e] eqn:F.
    2:{ injection E as <- <-. simpl. split; [unfold mf_wf; simpl; repeat split; eauto|]. split; auto.
        left. unfold hf_x, lf_x, hf_y, lf_y. simpl. repeat split; auto. discriminate. }
    rewrite W2, W4, Wx, Wy in E. unfold deref, assign in E. simpl in E.
    destruct (vstack a ux) as [x'|e] eqn:V.
    2:{ injection E as <- <-. simpl. split; [unfold mf_wf; simpl; repeat split; eauto|]. split; auto.
        left. unfold hf_x, lf_x, hf_y, lf_y. simpl. rewrite W2, W4, Wx, Wy. repeat split; auto. discriminate. }
    apply vstack_ok in V. subst x'.
    destruct (train (m_trains s)) as [e|] eqn:T.
    { injection E as <- <-. simpl. split; [unfold mf_wf; simpl; repeat split; eauto|]. split; auto.
      right. exists ux, fid, y. rewrite Ef. unfold hf_x, lf_x, hf_y, lf_y. simpl. rewrite W2, W4, Wx, Wy. unfold deref. simpl.
      repeat split; auto. left. repeat split; auto. discriminate. }
    unfold mf_update_para in E. rewrite Ef in E. destruct y as [|v l].
    { injection E as <- <-. simpl. split; [unfold mf_wf; simpl; repeat split; eauto|]. split; auto.
      right. exists ux, fid, []. rewrite Ef. unfold hf_x, lf_x, hf_y, lf_y. simpl. rewrite W2, W4, Wx, Wy. unfold deref. simpl.
      repeat split; auto. left. repeat split; auto. discriminate. }
    simpl in E. destruct (flt v (m_best s)) eqn:L; injection E as <- <-; simpl;
    (split; [unfold mf_wf; simpl; repeat split; eauto|]; split; auto; right; exists ux, fid, (v :: l);
     rewrite Ef; unfold hf_x, lf_x, hf_y, lf_y; simpl; rewrite W2, W4, Wx, Wy; unfold deref; simpl;
     repeat split; auto; right; repeat split; auto; exists v, l; rewrite L; auto).
  - destruct (lf (length (m_lf_calls s)) ux) as [y|e] eqn:F.
    2:{ injection E as <- <-. simpl. split; [unfold mf_wf; simpl; repeat split; eauto|]. split; auto.
        left. unfold hf_x, lf_x, hf_y, lf_y. simpl. repeat split; auto. discriminate. }
    rewrite W2, W4, Wx, Wy in E. unfold deref, assign in E. simpl in E.
    destruct (vstack b ux) as [x'|e] eqn:V.
    2:{ injection E as <- <-. simpl. split; [unfold mf_wf; simpl; repeat split; eauto|]. split; auto.
        left. unfold hf_x, lf_x, hf_y, lf_y. simpl. rewrite W2, W4, Wx, Wy. repeat split; auto. discriminate. }
    apply vstack_ok in V. subst x'.
    destruct (train (m_trains s)) as [e|] eqn:T.
    { injection E as <- <-. simpl. split; [unfold mf_wf; simpl; repeat split; eauto|]. split; auto.
      right. exists ux, fid, y. rewrite Ef. unfold hf_x, lf_x, hf_y, lf_y. simpl. rewrite W2, W4, Wx, Wy. unfold deref. simpl.
      repeat split; auto. left. repeat split; auto. discriminate. }
    unfold mf_update_para in E. rewrite Ef in E. simpl in E. injection E as <- <-. simpl.
    split; [unfold mf_wf; simpl; repeat split; eauto|]. split; auto. right. exists ux, fid, y.
    rewrite Ef. unfold hf_x, lf_x, hf_y, lf_y. simpl. rewrite W2, W4, Wx, Wy. unfold deref. simpl.
    repeat split; auto. right. repeat split; auto.
Qed.

Lemma mf_wf_session opt calls s : mf_wf s -> mf_wf (fst (session (run opt) calls s)).
Proof.
  apply (session_inv (run opt) mf_wf). intros c s1 H. apply (loop_inv _ _ _ mf_wf); auto.
  intros s2 H2. destruct (step s2) eqn:E. now destruct (mf_step_cases _ _ _ H2 E).
Qed.
Lemma mf_init_arrays s : mf_wf s -> init_hf_x s = xh /\ init_lf_x s = xl /\ init_hf_y s = y0 /\ init_lf_y s = y1.
Proof.
  intros (W1 & W2 & W3 & W4 & (a & b & Wx) & (c & d & Wy)).
  unfold init_hf_x, init_lf_x, init_hf_y, init_lf_y. rewrite W1, W3, Wx, Wy. auto.
Qed.
Definition mf_grown (s0 s : mf_state) : Prop :=
  prefix_of (hf_x s0) (hf_x s) /\ prefix_of (hf_y s0) (hf_y s) /\ prefix_of (lf_x s0) (lf_x s) /\
  prefix_of (lf_y s0) (lf_y s) /\ prefix_of (m_hist s0) (m_hist s) /\ prefix_of (m_hist_x s0) (m_hist_x s).
Lemma mf_grown_refl s : mf_grown s s.
Proof. repeat split; apply prefix_refl. Qed.
Lemma mf_grown_trans a b c : mf_grown a b -> mf_grown b c -> mf_grown a c.
Proof. intros (A1 & A2 & A3 & A4 & A5 & A6) (B1 & B2 & B3 & B4 & B5 & B6). repeat split; eauto using prefix_trans. Qed.
Lemma mf_step_grown s : mf_wf s -> mf_grown s (fst (step s)).
Proof.
  intros W. destruct (step s) as [s' o] eqn:E. destruct (mf_step_cases _ _ _ W E) as (_ & _ & [K|K]); unfold mf_grown; simpl.
  - destruct K as (_ & -> & -> & -> & -> & _ & _ & -> & -> & _). repeat split; apply prefix_refl.
  - destruct K as (ux & fid & y & _ & _ & -> & -> & -> & -> & _ & _ & [K|K]).
    + destruct K as (_ & _ & _ & -> & ->). destruct (Z.eqb fid 0); repeat split; auto using prefix_refl, prefix_app.
    + destruct K as (_ & _ & -> & -> & _). destruct (Z.eqb fid 0); repeat split; auto using prefix_refl, prefix_app.
Qed.
Lemma mf_session_grown opt calls s : mf_wf s -> mf_grown s (fst (session (run opt) calls s)).
Proof.
  intros W. apply (session_inv (run opt) (fun s' => mf_wf s' /\ mf_grown s s')); [|split; auto using mf_grown_refl].
  intros c s1 H. apply (loop_inv _ _ _ (fun s' => mf_wf s' /\ mf_grown s s')); auto.
  intros s2 [W2 G2]. split.
  - destruct (step s2) eqn:E. now destruct (mf_step_cases _ _ _ W2 E).
  - eapply mf_grown_trans; eauto using mf_step_grown.
Qed.

(** Counting (every iteration appends one row to one fidelity). *)
Section Counts.
Hypothesis Hh : one_per_point hf.
Hypothesis Hl : one_per_point lf.
Hypothesis Hq : one_point_mf query.
Definition mf_counted (s : mf_state) : Prop :=
  length (hf_x s) = length xh + count_hf (m_order s) /\ length (hf_y s) = length (hf_x s) /\
  length (lf_x s) = length xl + count_lf (m_order s) /\ length (lf_y s) = length (lf_x s) /\
  length (m_order s) = m_queries s /\ length (m_hist s) = S (m_queries s) /\
  hf_x s = concat (map fst (m_hf_calls s)) /\ lf_x s = concat (map fst (m_lf_calls s)) /\
  (exists ys, answers (m_hf_calls s) ys /\ hf_y s = concat ys) /\
  (exists ys, answers (m_lf_calls s) ys /\ lf_y s = concat ys).
Lemma count_hf_app a f : count_hf (a ++ [f]) = count_hf a + if Z.eqb f 0 then 1 else 0.
Proof. unfold count_hf. rewrite filter_app, app_length. simpl. now destruct (Z.eqb f 0). Qed.
Lemma count_lf_app a f : count_lf (a ++ [f]) = count_lf a + if Z.eqb f 0 then 0 else 1.
Proof. unfold count_lf. rewrite filter_app, app_length. simpl. now destruct (Z.eqb f 0). Qed.
Lemma concat_snoc {A} (l : list (list A)) a : concat (l ++ [a]) = concat l ++ a.
Proof. rewrite concat_app. simpl. now rewrite app_nil_r. Qed.
Lemma mf_step_counted s s' : mf_wf s -> mf_counted s -> step s = (s', None) -> mf_counted s'.
Proof.
  intros W (A1 & A2 & A3 & A4 & A5 & A6 & A7 & A8 & (ys & A9 & A10) & (zs & A11 & A12)) E.
  destruct (mf_step_cases _ _ _ W E) as (_ & Q & [K|K]); [destruct K; congruence|].
  destruct K as (ux & fid & y & Qu & F & X1 & X2 & Y1 & Y2 & C1 & C2 & [K|K]); [destruct K; congruence|].
  destruct K as (_ & O & Hi & _). pose proof (Hq _ _ _ Qu) as L1.
  unfold mf_counted. rewrite X1, X2, Y1, Y2, C1, C2, O, Hi, Q, count_hf_app, count_lf_app.
  destruct (Z.eqb fid 0); [pose proof (Hh _ _ _ F)|pose proof (Hl _ _ _ F)];
  rewrite ?app_length, ?map_app; simpl; rewrite ?concat_snoc; unfold mat, row in *;
  (split; [lia|]; split; [lia|]; split; [lia|]; split; [lia|]; split; [lia|]; split; [lia|]).
  - split; [rewrite concat_snoc; f_equal; exact A7|]. split; [exact A8|]. split; [|eauto].
    exists (ys ++ [y]). split; [|rewrite concat_snoc; f_equal; exact A10].
    unfold answers in *. rewrite !map_app. f_equal. exact A9.
  - split; [exact A7|]. split; [rewrite concat_snoc; f_equal; exact A8|]. split; [eauto|].
    exists (zs ++ [y]). split; [|rewrite concat_snoc; f_equal; exact A12].
    unfold answers in *. rewrite !map_app. f_equal. exact A11.
Qed.
Lemma mf_new_counted s : mf_new hf lf train xh xl = Ok s -> hf 0 xh = Ok y0 -> lf 0 xl = Ok y1 -> mf_counted s.
Proof.
  intros H E0 E1. destruct (mf_new_cases _ H E0 E1) as (_ & B1 & B2 & B3 & B4 & B5 & B6 & _ & B7 & B8 & B9 & _).
  unfold mf_counted. rewrite B1, B2, B3, B4, B5, B6, B7, B8, B9. simpl. rewrite !app_nil_r.
  rewrite (Hh _ _ _ E0), (Hl _ _ _ E1). unfold count_hf, count_lf. simpl.
  split; [lia|]. split; [reflexivity|]. split; [lia|]. split; [reflexivity|]. repeat split.
  - exists [y0]. split; [reflexivity|]. simpl. now rewrite app_nil_r.
  - exists [y1]. split; [reflexivity|]. simpl. now rewrite app_nil_r.
Qed.
Lemma mf_session_counted opt calls s0 s es : mf_new hf lf train xh xl = Ok s0 -> hf 0 xh = Ok y0 -> lf 0 xl = Ok y1 ->
  session (run opt) calls s0 = (s, es) -> all_ok es -> mf_counted s.
Proof.
  intros H E0 E1 E A. replace s with (fst (session (run opt) calls s0)) by (now rewrite E).
  apply (session_inv_ok (run opt) (fun s => mf_wf s /\ mf_counted s)).
  - intros c s1 H1. apply (loop_inv_ok _ _ _ (fun s => mf_wf s /\ mf_counted s)); auto.
    intros s2 [W2 H2] N. destruct (step s2) eqn:D. simpl in *. subst. split.
    + now destruct (mf_step_cases _ _ _ W2 D).
    + eapply mf_step_counted; eauto.
  - split; [|eapply mf_new_counted; eauto]. now destruct (mf_new_cases _ H E0 E1).
  - now rewrite E.
Qed.

(** The best value, ignoring NaN responses after the initial design. *)
Definition mf_best_inv (s : mf_state) : Prop :=
  length (hf_x s) = length (hf_y s) /\ isnan (m_best s) = false /\
  (forall w, In w (hf_y s) -> isnan w = false -> fle (m_best s) w = true) /\
  (exists i w r, point_is (m_best_x s) r /\ nth_error (hf_x s) i = Some r /\ nth_error (hf_y s) i = Some w /\ feq w (m_best s) = true) /\
  (exists h, m_hist s = h ++ [m_best s]) /\ non_increasing (m_hist s).

Lemma non_increasing_snoc h b v : non_increasing (h ++ [b]) -> fle v b = true -> non_increasing ((h ++ [b]) ++ [v]).
Proof.
  intros N L i j Hij. rewrite !app_length in *. simpl in *.
  assert (Nb : fle b b = true) by (apply fle_refl; eapply fle_nnan_r; eauto).
  assert (Nv : fle v v = true) by (apply fle_refl; eapply fle_nnan_l; eauto).
  assert (Vb : nth (length h) ((h ++ [b]) ++ [v]) fnan = b) by (rewrite <- app_assoc; apply nth_middle).
  assert (Vv : nth (length h + 1) ((h ++ [b]) ++ [v]) fnan = v).
  { replace (length h + 1) with (length (h ++ [b])) by (rewrite app_length; simpl; lia). apply nth_middle. }
  destruct (Nat.eq_dec j (length h + 1)) as [->|].
  - rewrite Vv. destruct (Nat.eq_dec i (length h + 1)) as [->|]; [now rewrite Vv|].
    eapply fle_trans; [exact L|]. specialize (N i (length h)). rewrite app_length in N. simpl in N.
    rewrite <- (app_nth1 (h ++ [b]) [v]) in N by (rewrite app_length; simpl; lia).
    rewrite Vb in N. rewrite app_nth1 by (rewrite app_length; simpl; lia). apply N. lia.
  - rewrite !(app_nth1 (h ++ [b]) [v]) by (rewrite app_length; simpl; lia).
    apply N. rewrite app_length. simpl. lia.
Qed.

Lemma mf_step_best s s' : mf_wf s -> mf_best_inv s -> step s = (s', None) -> mf_best_inv s'.
Proof.
  intros W (A1 & A2 & A3 & (i & w & r & B1 & B2 & B3 & B4) & (h & A5) & A6) E.
  destruct (mf_step_cases _ _ _ W E) as (_ & Q & [K|K]); [destruct K; congruence|].
  destruct K as (ux & fid & y & Qu & F & X1 & X2 & Y1 & Y2 & _ & _ & [K|K]); [destruct K; congruence|].
  destruct K as (_ & O & Hi & _ & U). pose proof (Hq _ _ _ Qu) as L1.
  destruct (Z.eqb fid 0).
  - destruct U as (v & l & -> & U). pose proof (Hh _ _ _ F) as L2.
    destruct ux as [|u [|]]; try discriminate. destruct l; [|discriminate].
    unfold mf_best_inv. rewrite X1, Y1, Hi, !app_length. simpl.
    split; [unfold mat, row in *; lia|].
    destruct (flt v (m_best s)) eqn:L; destruct U as [-> ->].
    + split; [eapply flt_nnan_l; eauto|]. split; [|split; [|split]].
      * intros w' Hw Nw. apply in_app_or in Hw as [Hw|[<-|[]]].
        -- eapply fle_trans; [apply flt_fle; exact L|]. auto.
        -- now apply fle_refl.
      * exists (length (hf_x s)), v, u. split; [right; auto|]. rewrite !nth_error_app2 by lia.
        rewrite A1, Nat.sub_diag. simpl. repeat split; auto. apply feq_refl. eapply flt_nnan_l; eauto.
      * eauto.
      * rewrite A5 in *. apply non_increasing_snoc; auto. now apply flt_fle.
    + split; auto. split; [|split; [|split]].
      * intros w' Hw Nw. apply in_app_or in Hw as [Hw|[<-|[]]]; auto. now apply flt_false.
      * exists i, w, r. rewrite !nth_error_app1 by (apply nth_error_Some; congruence). auto.
      * eauto.
      * rewrite A5 in *. apply non_increasing_snoc; auto. now apply fle_refl.
  - destruct U as [U1 U2]. unfold mf_best_inv. rewrite X1, Y1, Hi, U1, U2. repeat split; auto; eauto 8.
    rewrite A5 in *. apply non_increasing_snoc; auto. now apply fle_refl.
Qed.
Lemma mf_new_best s : mf_new hf lf train xh xl = Ok s -> hf 0 xh = Ok y0 -> lf 0 xl = Ok y1 -> no_nan y0 -> mf_best_inv s.
Proof.
  intros H E0 E1 N. destruct (mf_new_cases _ H E0 E1) as (_ & B1 & B2 & B3 & B4 & B5 & B6 & _ & _ & _ & B7 & B8 & i & r & C1 & C2 & C3 & C4).
  unfold mf_best_inv. rewrite B1, B3, B7, C4. pose proof (min_first _ _ _ _ _ C2 C1 C3 N) as M.
  apply first_some_min in M as (M1 & k & w & M2 & M3 & M4).
  assert (Nb : isnan (m_best s) = false) by (eapply np_min_nonan; eauto).
  split; [symmetry; eapply Hh; eauto|]. split; auto. split; [auto|]. split; [|split].
  - exists k, w, r. repeat split; auto. left. auto.
  - exists []. auto.
  - intros a b Hab. simpl in Hab. replace a with 0 by lia. replace b with 0 by lia. simpl. now apply fle_refl.
Qed.
Lemma mf_session_best opt calls s0 s es : mf_new hf lf train xh xl = Ok s0 -> hf 0 xh = Ok y0 -> lf 0 xl = Ok y1 -> no_nan y0 ->
  session (run opt) calls s0 = (s, es) -> all_ok es -> mf_best_inv s.
Proof.
  intros H E0 E1 N E A. replace s with (fst (session (run opt) calls s0)) by (now rewrite E).
  apply (session_inv_ok (run opt) (fun s => mf_wf s /\ mf_best_inv s)).
  - intros c s1 H1. apply (loop_inv_ok _ _ _ (fun s => mf_wf s /\ mf_best_inv s)); auto.
    intros s2 [W2 H2] N2. destruct (step s2) eqn:D. simpl in *. subst. split.
    + now destruct (mf_step_cases _ _ _ W2 D).
    + eapply mf_step_best; eauto.
  - split; [|eapply mf_new_best; eauto]. now destruct (mf_new_cases _ H E0 E1).
  - now rewrite E.
Qed.
End Counts.

(** a low-fidelity query leaves best and best_x alone *)
Lemma mf_lf_query s s' ux fid : mf_wf s -> query (m_queries s) = Ok (ux, fid) -> fid <> 0%Z -> step s = (s', None) ->
  m_best s' = m_best s /\ m_best_x s' = m_best_x s /\ hf_x s' = hf_x s /\ hf_y s' = hf_y s /\ m_hf_calls s' = m_hf_calls s.
Proof.
  intros W Q N E. destruct (mf_step_cases _ _ _ W E) as (_ & _ & [K|K]); [destruct K; congruence|].
  destruct K as (ux' & fid' & y & Qu & F & X1 & X2 & Y1 & Y2 & C1 & _ & [K|K]); [destruct K; congruence|].
  assert (fid' = fid) by congruence. subst. destruct (Z.eqb_spec fid 0); [congruence|].
  destruct K as (_ & _ & _ & _ & U). tauto.
Qed.
End Design.

(** stopping *)
Lemma mf_loop_queries cont m s s' : iters _ step cont m s s' -> m_queries s' = m + m_queries s.
Proof.
  intros H. induction H; auto. rewrite IHiters.
  assert (m_queries s1 = S (m_queries s)) as ->; [|lia].
  unfold mf_step, mf_update_para in H0.
  destruct (query (m_queries s)) as [[ux fid]|]; [|discriminate].
  destruct (if Z.eqb fid 0 then hf (length (m_hf_calls s)) ux else lf (length (m_lf_calls s)) ux) as [y|]; [|discriminate].
  destruct (vstack _ _); [|discriminate]. destruct (train _); [discriminate|].
  destruct (Z.eqb fid 0).
  - destruct y; [discriminate|]. simpl in H0. destruct (flt b (m_best s)); injection H0 as <-; auto.
  - injection H0 as <-. auto.
Qed.
Lemma mf_unknown n stop s s' : run NoOptimum (n, stop) s = (s', None) ->
  (flt stop f1 = true -> m_queries s' = n + m_queries s).
Proof.
  intros H E. unfold mf_run in H. simpl fst in H. simpl snd in H.
  destruct (loop_iters _ _ _ _ _ _ H) as (m & Hm & I & F).
  apply mf_loop_queries in I. rewrite I. destruct F as [->|F]; auto.
  simpl in F. unfold fgt in F. rewrite E in F. discriminate.
Qed.
Lemma mf_unknown_none n stop s : flt stop f1 = false -> run NoOptimum (n, stop) s = (s, None).
Proof.
  intros E. unfold mf_run. destruct n; auto. cbn [fst snd bo_loop truth update_error]. unfold fgt. now rewrite E.
Qed.
Lemma mf_stopping o n stop s s' : run (attr o) (n, stop) s = (s', None) ->
  exists m, m <= n /\ m_queries s' = m + m_queries s /\ (m = n \/ flt stop (gap o (m_best s')) = false).
Proof.
  intros H. unfold mf_run in H. destruct (loop_iters _ _ _ _ _ _ H) as (m & Hm & I & F).
  exists m. split; auto. split; [eapply mf_loop_queries; eauto|].
  destruct F as [F|F]; auto. right. simpl in F. rewrite truth_gap in F. now injection F.
Qed.

(** a query that always raises *)
Lemma mf_query_raises opt n stop s e : query (m_queries s) = Raise e -> 0 < n ->
  truth (fun x => fgt x stop) (update_error opt (m_best s)) = Ok true ->
  snd (run opt (n, stop) s) = Some e /\ m_hf_calls (fst (run opt (n, stop) s)) = m_hf_calls s /\
  m_lf_calls (fst (run opt (n, stop) s)) = m_lf_calls s /\ m_best (fst (run opt (n, stop) s)) = m_best s.
Proof.
  intros Q N T. unfold mf_run. simpl fst. simpl snd. destruct n; [lia|]. cbn [bo_loop]. rewrite T.
  unfold mf_step. rewrite Q. auto.
Qed.
End MF.

(** ** Queries *)
Lemma pso_type_error c b r stop : snd (pso_run c b eval_without_surrogate r stop) = Raise TypeError.
Proof. reflexivity. Qed.
Lemma de_type_error c b r stop : snd (de_run c b eval_without_surrogate r stop) = Raise TypeError.
Proof. reflexivity. Qed.
