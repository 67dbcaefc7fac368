(** Vocabulary of the statements about interrupted runs, printed lines and plots of PSO and DE. *)
From Coq Require Import List.
From Verif Require Import Fl NpList EA EAFiles.
Import ListNotations.

(** the calls of the objective among some effects, oldest first *)
Definition calls_of (l : list effect) : trace := flat_map (fun e => match e with Called x y => [(x, y)] | _ => [] end) l.
(** how often the file was written completely *)
Definition dumps (l : list effect) : nat := length (flat_map (fun e => match e with Dumped r => [r] | _ => [] end) l).
(** what was printed *)
Definition lines_of (l : list effect) : list (nat * b64 * row) :=
  flat_map (fun e => match e with Printed i v x => [(i, v, x)] | _ => [] end) l.
(** the process can be interrupted after [happened] *)
Definition interrupted (l happened : list effect) : Prop := exists rest, l = happened ++ rest.
(** the first rows of [l] are [rows]; all others are [filler] *)
Definition filled {A} (l rows : list A) (filler : A) : Prop := exists n, l = rows ++ repeat filler n.
(** the file holds the first [S g] entries of the histories of the run with outcome [o], then zeros *)
Definition holds (dim pop : nat) (r : step_results) (o : ea_out) : Prop :=
  filled (sr_best_y_hist r) (o_best_y_hist o) f0 /\ filled (sr_best_x_hist r) (o_best_x_hist o) (repeat f0 dim) /\
  filled (sr_samples r) (o_samples o) (repeat (repeat f0 dim) pop) /\ filled (sr_responses r) (o_responses o) (repeat f0 pop).
(** the same settings with another number of generations *)
Definition pso_generations (cfg : pso_config) (g : nat) : pso_config :=
  {| p_pop := p_pop cfg; p_gen := g; p_c1 := p_c1 cfg; p_c2 := p_c2 cfg; p_w := p_w cfg; p_vrate := p_vrate cfg |}.
Definition de_generations (cfg : de_config) (g : nat) : de_config :=
  {| d_pop := d_pop cfg; d_gen := g; d_F := d_F cfg; d_CR := d_CR cfg; d_strategy := d_strategy cfg |}.
