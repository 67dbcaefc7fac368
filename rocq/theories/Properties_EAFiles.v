(** Theorems about interrupted runs of PSO and DE, printed lines and the plot of the history (C124), in binary64.
    The effects of a run are the calls of the objective, the printed lines and the two halves of writing
    step_results.pickle; a process can be interrupted between any two of them (EAFiles.v). *)
From Coq Require Import ZArith Bool List Lia String.
From Verif Require Import Fl NpList Spec Samplers SamplersSpec EA EASpec EAFacts PSOFacts DEFacts EAFiles EAFilesSpec EAFilesFacts Properties_EA.
Import ListNotations.
Local Open Scope list_scope.

(** ** C124 what an interrupted run leaves behind *)
(** The file is as it was before the run, or unfinished, or it holds what a run of [g] generations with the same
    draws would have returned, followed by zeros; [g] is the number of generations completed, and at most one later
    population has been evaluated. *)
Theorem C124_pso : forall cfg b func rng stop print happened,
  interrupted (pso_effects cfg b func rng stop print true) happened ->
  let g := dumps happened in
  match file_after Earlier happened with
  | Earlier => g = 0 /\ List.length (calls_of happened) <= 2
  | Partial => List.length (calls_of happened) = g + 2
  | Complete r => 1 <= g <= p_gen cfg /\ S g <= List.length (calls_of happened) <= g + 2 /\
      sr_best_x r = sr_best_x_hist r /\ sr_best_y r = sr_best_y_hist r /\
      exists o, pso_run (pso_generations cfg g) b func rng stop = (firstn (S g) (calls_of happened), Ok o) /\ holds (List.length b) (p_pop cfg) r o
  end.
Proof. exact pso_crash. Qed.
Print Assumptions C124_pso.
Theorem C124_de : forall cfg b func rng stop print happened,
  interrupted (de_effects cfg b func rng stop print true) happened ->
  let g := dumps happened in
  match file_after Earlier happened with
  | Earlier => g = 0 /\ List.length (calls_of happened) <= 2
  | Partial => List.length (calls_of happened) = g + 2
  | Complete r => 1 <= g <= d_gen cfg /\ S g <= List.length (calls_of happened) <= g + 2 /\
      sr_best_x r = sr_best_x_hist r /\ sr_best_y r = sr_best_y_hist r /\
      exists o, de_run (de_generations cfg g) b func rng stop = (firstn (S g) (calls_of happened), Ok o) /\ holds (List.length b) (d_pop cfg) r o
  end.
Proof. exact de_crash. Qed.
Print Assumptions C124_de.
(** the interruption between two generations, during a call and during a write all happen *)
Definition ex_effects := pso_effects ex_pso ex_box (const_func f1) ex_pso_draws None true true.
Example C124_ok : interrupted ex_effects (firstn 5 ex_effects) /\ interrupted ex_effects (firstn 7 ex_effects) /\
  dumps (firstn 5 ex_effects) = 1 /\ List.length (calls_of (firstn 5 ex_effects)) = 2 /\
  dumps (firstn 7 ex_effects) = 1 /\ List.length (calls_of (firstn 7 ex_effects)) = 3 /\
  match file_after Earlier (firstn 7 ex_effects) with Complete _ => True | _ => False end /\
  List.length ex_effects = 13.
Proof.
  split; [exists (skipn 5 ex_effects); symmetry; apply firstn_skipn|]. split; [exists (skipn 7 ex_effects); symmetry; apply firstn_skipn|].
  repeat split; reflexivity.
Qed.
(** but an interruption while the file is written loses what it held: the writes are not atomic *)
Theorem C124_torn_refuted : exists cfg b func rng happened, pso_draws_ok cfg b rng /\ well_behaved func (p_pop cfg) /\
  interrupted (pso_effects cfg b func rng None true true) happened /\ dumps happened = 1 /\ file_after Earlier happened = Partial.
Proof.
  exists ex_pso, ex_box, (const_func f1), ex_pso_draws, (firstn 8 ex_effects). split; [exact ex_pso_ok|]. split; [apply const_func_ok|].
  split; [exists (skipn 8 ex_effects); symmetry; apply firstn_skipn|]. split; reflexivity.
Qed.
Print Assumptions C124_torn_refuted.
(** printing and saving change no call *)
Theorem C124_pso_calls : forall cfg b func rng stop print save,
  calls_of (pso_effects cfg b func rng stop print save) = fst (pso_run cfg b func rng stop).
Proof. exact pso_same_calls. Qed.
Print Assumptions C124_pso_calls.
Theorem C124_de_calls : forall cfg b func rng stop print save,
  calls_of (de_effects cfg b func rng stop print save) = fst (de_run cfg b func rng stop).
Proof. exact de_same_calls. Qed.
Print Assumptions C124_de_calls.
(** one line is printed per generation, with the best found before that generation; the final best is not printed *)
Theorem C124_pso_lines : forall cfg b func rng stop save tr o, pso_run cfg b func rng stop = (tr, Ok o) ->
  lines_of (pso_effects cfg b func rng stop true save) =
  map (fun k => (k, nth k (o_best_y_hist o) f0, nth k (o_best_x_hist o) [])) (seq 0 (List.length tr - 1)).
Proof. exact pso_lines. Qed.
Print Assumptions C124_pso_lines.
Theorem C124_de_lines : forall cfg b func rng stop save tr o, de_run cfg b func rng stop = (tr, Ok o) ->
  lines_of (de_effects cfg b func rng stop true save) =
  map (fun k => (k, nth k (o_best_y_hist o) f0, nth k (o_best_x_hist o) [])) (seq 0 (List.length tr - 1)).
Proof. exact de_lines. Qed.
Print Assumptions C124_de_lines.
(** the plot shows the best value after every generation, and zero for generations that were not run *)
Theorem C124_pso_plot : forall cfg b func rng stop tr o name save, pso_run cfg b func rng stop = (tr, Ok o) ->
  plot_history (p_gen cfg) (Some (o_best_y_hist o)) name save =
    ([NewFigure; Curve (seq 0 (S (p_gen cfg))) (o_best_y_hist o)] ++ (if save then [Saved name] else []) ++ [Shown], None) /\
  forall k, List.length tr <= k <= p_gen cfg -> nth_error (o_best_y_hist o) k = Some f0.
Proof. exact pso_plot. Qed.
Print Assumptions C124_pso_plot.
Theorem C124_de_plot : forall cfg b func rng stop tr o name save, de_run cfg b func rng stop = (tr, Ok o) ->
  plot_history (d_gen cfg) (Some (o_best_y_hist o)) name save =
    ([NewFigure; Curve (seq 0 (S (d_gen cfg))) (o_best_y_hist o)] ++ (if save then [Saved name] else []) ++ [Shown], None) /\
  forall k, List.length tr <= k <= d_gen cfg -> nth_error (o_best_y_hist o) k = Some f0.
Proof. exact de_plot. Qed.
Print Assumptions C124_de_plot.
Example C124_runs : (exists tr o, pso_run ex_pso ex_box ex_func ex_pso_draws None = (tr, Ok o)) /\
  exists tr o, de_run (ex_de Best1) ex_box ex_func (ex_de_draws Best1) None = (tr, Ok o).
Proof. split; [exact ex_pso_returns|apply ex_de_returns; discriminate]. Qed.
(** so after an early stop the curve shows values below everything that was observed *)
Theorem C124_curve_refuted : exists cfg b func rng stop tr o, pso_draws_ok cfg b rng /\ pso_run cfg b func rng stop = (tr, Ok o) /\
  (forall k i p v, observed tr k i p v -> flt f0 v = true) /\ nth_error (o_best_y_hist o) (p_gen cfg) = Some f0.
Proof.
  destruct (pso_returns ex_pso ex_box (const_func f1) ex_pso_draws (Some (fz 2))) as (tr & out & E); auto using const_func_ok;
    try exact ex_pso_ok; try (simpl; lia).
  exists ex_pso, ex_box, (const_func f1), ex_pso_draws, (Some (fz 2)), tr, out. split; [exact ex_pso_ok|]. split; [exact E|].
  split.
  - pose proof E as E'. apply pso_calls in E' as [T _]. intros k i p v O. rewrite (const_observed _ _ T _ _ _ _ O). reflexivity.
  - apply (proj2 (pso_plot _ _ _ _ _ _ _ EmptyString true E)). replace (List.length tr) with 2; [simpl; lia|].
    change tr with (fst (tr, Ok out)). rewrite <- E. reflexivity.
Qed.
Print Assumptions C124_curve_refuted.
