(** Model of what PSO and DE leave outside the object while they run (optimization/evolutionary_algorithms.py):
    calls of the objective, printed lines and the file step_results.pickle; and of the plot of the history.

    The runs are those of EA.v.  Simplifications: printing and pickling never fail; [open] in mode "wb" empties the
    file at once and the pickle is complete when [dump] and the end of the [with] block are done, so between the two
    the file is [Partial]. *)
From Coq Require Import ZArith Bool List String.
From Verif Require Import Fl NpList Samplers EA.
Import ListNotations.

(** 114-124: the dictionary that is pickled; "best_x" and "best_y" are whole histories here.  The entries
    "design_space", "pop" and "gen" are constants of the run and are left out. *)
Record step_results := {
  sr_best_x : mat; sr_best_y : list b64; sr_best_x_hist : mat; sr_best_y_hist : list b64;
  sr_samples : list mat; sr_responses : list (list b64) }.
Definition pickled (s : ea_state) : step_results :=
  {| sr_best_x := st_gbx s; sr_best_y := st_gb s; sr_best_x_hist := st_gbx s; sr_best_y_hist := st_gb s;
     sr_samples := st_samples s; sr_responses := st_responses s |}.

Inductive effect :=
| Called (x : mat) (y : result (list b64))              (* the objective *)
| Printed (iter : nat) (best : b64) (best_x : row)      (* 129-133 *)
| Opened                                                (* 126 *)
| Dumped (r : step_results).                            (* 127 *)

(** the calls made since the trace was [tr] *)
Definition calls_since (tr tr' : trace) : list effect := map (fun c => Called (fst c) (snd c)) (skipn (List.length tr) tr').
(** 219-220 and 390-391 *)
Definition announce (print : bool) (iter : nat) (s : ea_state) : list effect :=
  if print then [Printed iter (nth iter (st_gb s) f0) (nth iter (st_gbx s) [])] else [].
(** 229-230 and 398-399, 113-127 [_save_results] *)
Definition save_step (save : bool) (s : ea_state) : list effect :=
  if save then [Opened; Dumped (pickled s)] else [].

(** 217-234 and 388-402: effects of the loop [EA.ea_loop] *)
Fixpoint loop_effects (step : nat -> trace -> ea_state -> trace * result ea_state) (stop : option b64) (print save : bool)
    (remaining iter : nat) (tr : trace) (s : ea_state) : list effect :=
  match remaining with
  | O => []
  | S rem =>
      announce print iter s ++
      match step iter tr s with
      | (tr', Raise e) => calls_since tr tr'
      | (tr', Ok s') =>
          calls_since tr tr' ++ save_step save s' ++
          if match stop with None => false | Some t => flt (nth (S iter) (st_gb s') f0) t end
          then [] else loop_effects step stop print save rem (S iter) tr' s'
      end
  end.
Definition run_effects (init : trace * result ea_state) step stop print save (gen : nat) : list effect :=
  match init with
  | (tr, Raise e) => calls_since [] tr
  | (tr, Ok s) => calls_since [] tr ++ loop_effects step stop print save gen 0 tr s
  end.
(** 170-253 [PSO.run_optimizer] *)
Definition pso_effects cfg b func rng stop print save : list effect :=
  run_effects (pso_init cfg b func rng) (pso_step cfg b func rng) stop print save (p_gen cfg).
(** 360-419 [DE.run_optimizer] *)
Definition de_effects cfg b func rng stop print save : list effect :=
  run_effects (de_init cfg b func rng) (de_step cfg b func rng) stop print save (d_gen cfg).

(** the file step_results.pickle: [Earlier] is whatever was (or was not) there before *)
Inductive file := Earlier | Partial | Complete (r : step_results).
Definition file_step (f : file) (e : effect) : file :=
  match e with Opened => Partial | Dumped r => Complete r | _ => f end.
Definition file_after (f : file) (l : list effect) : file := fold_left file_step l f.

(** 38-53 [plot_optimization_history]; [gen_best] is None before the first run.  Labels and limits are left out;
    matplotlib rejects curves whose coordinates differ in number. *)
Inductive figure_event := NewFigure | Curve (xs : list nat) (ys : list b64) | Saved (name : string) | Shown.
Definition plot_history (num_gen : nat) (gen_best : option (list b64)) (figure_name : string) (save_figure : bool)
  : list figure_event * option exn :=
  match gen_best with
  | None => ([NewFigure], Some AttributeError)
  | Some g =>
      let xs := seq 0 (S num_gen) in
      if Nat.eqb (List.length xs) (List.length g)
      then ([NewFigure; Curve xs g] ++ (if save_figure then [Saved figure_name] else []) ++ [Shown], None)
      else ([NewFigure], Some ValueError)
  end.
