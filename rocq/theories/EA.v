(** Model of optimization/evolutionary_algorithms.py (PSO and DE).

    The random generator is an oracle: every draw is named by the place (generation, individual,
    dimension) where it is used, so theorems quantify over all streams.  The objective is an oracle
    too: it may depend on the number of the call and may raise.  Simplifications: [num_dim] is the
    number of rows of [design_space]; the objective returns a fresh array and does not write to its
    argument; printing, plotting and pickling are in EAFiles.v. *)
From Coq Require Import ZArith Bool List.
From Verif Require Import Fl NpList Samplers.
Import ListNotations.

(** [func(x)]: call number, population; the responses or an exception. *)
Definition objective := nat -> mat -> result (list b64).
(** What was passed to the objective and what came back, oldest call first. *)
Definition trace := list (mat * result (list b64)).

(** problems/functions.py 299-300 [FunctionWrapper.__call__], then
    [np.reshape(obj, (num_pop, 1))] (279-280, 313-314, 426-427, 495-496). *)
Definition evaluate (func : objective) (num_pop : nat) (tr : trace) (x : mat) : trace * result (list b64) :=
  let y := func (length tr) x in
  (tr ++ [(x, y)],
   l <- y ;; if Nat.eqb (length l) num_pop then Ok l else Raise ValueError).

(** 55-63 [_location_initialzer] *)
Definition location_init (b : box) (u : mat) : mat := map (scale_row scale_mul64 b) u.

(** 102-110, one coordinate: out of bounds (NaN is not) is replaced. *)
Definition loc_fix (lh : b64 * b64) (x rep : b64) : b64 :=
  if flt x (fst lh) || flt (snd lh) x then rep else x.
(** [a[i, j]] *)
Definition at2 (m : mat) (i j : nat) : b64 := nth j (nth i m []) f0.
Definition imap {A B} (f : nat -> A -> B) (l : list A) : list B := map2 f (seq 0 (length l)) l.
(** 98-111 [_loc_cons]: column [j] is repaired with column [j] of the [j]-th replacement population. *)
Definition loc_cons (b : box) (u : nat -> mat) (x : mat) : mat :=
  imap (fun i r =>
    imap (fun j xj => loc_fix (nth j b (f0, f0)) xj (at2 (location_init b (u j)) i j)) r) x.

(** 324-333 and 508-517 [__update_gen_optimum] *)
Definition update_gen_optimum (iter : nat) (x : mat) (obj : list b64) (gb : list b64) (gbx : mat)
  : result (list b64 * mat) :=
  m <- np_min obj ;;
  k <- np_argmin obj ;;
  if fge (nth iter gb f0) m
  then Ok (upd (S iter) m gb, upd (S iter) (nth k x []) gbx)
  else Ok (upd (S iter) (nth iter gb f0) gb, upd (S iter) (nth iter gbx []) gbx).

(** 237-253 and 404-419: the results dictionary and the two further return values. *)
Record ea_out := {
  o_best_x : row; o_best_y : b64;                         (* results["best_x"], results["best_y"] *)
  o_best_x_hist : mat; o_best_y_hist : list b64;          (* ["best_x_historical"], ["best_y_historical"] *)
  o_samples : list mat; o_responses : list (list b64);    (* ["all_samples"], ["all_responses"] *)
  o_value : b64; o_location : row;                        (* second and third return value *)
  o_pop_best : list b64; o_pop_best_x : mat               (* PSO attributes pop_best, pop_best_x afterwards *)
}.
(** State kept in [self] during a run. *)
Record ea_state := {
  st_x : mat; st_v : mat; st_obj : list b64;
  st_pb : list b64; st_pbx : mat;                         (* PSO only: pop_best, pop_best_x *)
  st_gb : list b64; st_gbx : mat;
  st_samples : list mat; st_responses : list (list b64)
}.
(** The final dictionary; [last] is the value of the loop variable, unbound if the loop never ran. *)
Definition ea_finish (s : ea_state) (last : option nat) : result ea_out :=
  match last with
  | None => Raise UnboundLocalError
  | Some it =>
      Ok {| o_best_x := List.last (st_gbx s) []; o_best_y := List.last (st_gb s) f0;
            o_best_x_hist := st_gbx s; o_best_y_hist := st_gb s;
            o_samples := st_samples s; o_responses := st_responses s;
            o_value := nth (S it) (st_gb s) f0; o_location := nth (S it) (st_gbx s) [];
            o_pop_best := st_pb s; o_pop_best_x := st_pbx s |}
  end.

(** 217-234 and 388-402: the generation loop for a given [step]; stops early if the best value is
    below [stop]. *)
Fixpoint ea_loop (step : nat -> trace -> ea_state -> trace * result ea_state) (stop : option b64)
    (remaining iter : nat) (last : option nat) (tr : trace) (s : ea_state) : trace * result ea_out :=
  match remaining with
  | O => (tr, ea_finish s last)
  | S rem =>
      match step iter tr s with
      | (tr', Raise e) => (tr', Raise e)
      | (tr', Ok s') =>
          if match stop with None => false | Some t => flt (nth (S iter) (st_gb s') f0) t end
          then (tr', ea_finish s' (Some iter))
          else ea_loop step stop rem (S iter) (Some iter) tr' s'
      end
  end.

Definition zeros (n : nat) : list b64 := repeat f0 n.

(** ** PSO *)

Record pso_config := { p_pop : nat; p_gen : nat; p_c1 : b64; p_c2 : b64; p_w : b64; p_vrate : b64 }.
(** draws in [0,1): initial locations, initial velocities, and for generation g and dimension j the
    replacement population of [_loc_cons]. *)
Record pso_draws := { pd_loc : mat; pd_vel : mat; pd_rep : nat -> nat -> mat }.

(** 335-342 [__velocity_cons], one component, over any arithmetic *)
Definition clamp {T} (ltb : T -> T -> bool) (mul div : T -> T -> T) (abs : T -> T) (vmax v : T) : T :=
  if ltb vmax (abs v) then div (mul v vmax) (abs v) else v.

Section PSO.
Variable cfg : pso_config.
Variable b : box.
Variable func : objective.
Variable rng : pso_draws.

(** 263 *)
Definition pso_vmax : row := map (fun lh => fmul (fsub (snd lh) (fst lh)) (p_vrate cfg)) b.
(** 255-267 [__velocity_initialzer] (default trick "random") *)
Definition pso_velocity_init : mat := map (fun r => map2 fmul r pso_vmax) (pd_vel rng).
(** 335-342 [__velocity_cons], one component *)
Definition vel_clamp : b64 -> b64 -> b64 := clamp flt fmul fdiv fabs.
(** 301-305, one component *)
Definition vel_update (v pbx x gbx : b64) : b64 :=
  fadd (fadd (fmul (p_w cfg) v) (fmul (p_c1 cfg) (fsub pbx x))) (fmul (p_c2 cfg) (fsub gbx x)).

(** 275-291 [_pso_initializer], with the arrays of 205-212 *)
Definition pso_init : trace * result ea_state :=
  let x := location_init b (pd_loc rng) in
  let v := pso_velocity_init in
  let '(tr, y) := evaluate func (p_pop cfg) [] x in
  (tr,
   obj <- y ;;
   m <- np_min obj ;;
   k <- np_argmin obj ;;
   Ok {| st_x := x; st_v := v; st_obj := obj; st_pb := obj; st_pbx := x;
         st_gb := upd 0 m (zeros (S (p_gen cfg)));
         st_gbx := upd 0 (nth k x []) (repeat (zeros (length b)) (S (p_gen cfg)));
         st_samples := upd 0 x (repeat (repeat (zeros (length b)) (p_pop cfg)) (S (p_gen cfg)));
         st_responses := upd 0 obj (repeat (zeros (p_pop cfg)) (S (p_gen cfg))) |}).

(** 293-310 [__update_pop]: the new velocity and location *)
Definition pso_new_v (iter : nat) (s : ea_state) : mat :=
  imap (fun i r =>
    imap (fun j v => vel_clamp (nth j pso_vmax f0)
                       (vel_update v (at2 (st_pbx s) i j) (at2 (st_x s) i j) (at2 (st_gbx s) iter j))) r)
    (st_v s).
Definition pso_new_x (iter : nat) (s : ea_state) (v : mat) : mat :=
  loc_cons b (pd_rep rng iter) (map2 (map2 fadd) (st_x s) v).

(** 317-322 [__update_pop_optimum] *)
Definition pop_best_value (new old : list b64) : list b64 := map2 (fun n o => if fle n o then n else o) new old.
Definition pop_best_loc (new old : list b64) (x pbx : mat) : mat :=
  map2 (fun c xp => if fle (fst c) (snd c) then fst xp else snd xp) (combine new old) (combine x pbx).

(** 222-228: one generation *)
Definition pso_step (iter : nat) (tr : trace) (s : ea_state) : trace * result ea_state :=
  let v := pso_new_v iter s in
  let x := pso_new_x iter s v in
  let '(tr', y) := evaluate func (p_pop cfg) tr x in
  (tr',
   obj <- y ;;
   g <- update_gen_optimum iter x obj (st_gb s) (st_gbx s) ;;
   Ok {| st_x := x; st_v := v; st_obj := obj;
         st_pb := pop_best_value obj (st_pb s);
         st_pbx := pop_best_loc obj (st_pb s) x (st_pbx s);
         st_gb := fst g; st_gbx := snd g;
         st_samples := upd (S iter) x (st_samples s);
         st_responses := upd (S iter) obj (st_responses s) |}).

(** 170-253 [run_optimizer] *)
Definition pso_run (stop : option b64) : trace * result ea_out :=
  match pso_init with
  | (tr, Raise e) => (tr, Raise e)
  | (tr, Ok s) => ea_loop pso_step stop (p_gen cfg) 0 None tr s
  end.
End PSO.

(** ** DE *)

Inductive de_strategy := Rand1 | Best1 | OtherStrategy.
Record de_config := { d_pop : nat; d_gen : nat; d_F : b64; d_CR : b64; d_strategy : de_strategy }.
(** draws: initial locations; for generation g and individual i the donor indices and the forced
    dimension; for dimension j the crossover number; the replacement populations of [_loc_cons]. *)
Record de_draws := {
  dd_loc : mat;
  dd_donors : nat -> nat -> list nat;
  dd_dim : nat -> nat -> nat;
  dd_cr : nat -> nat -> nat -> b64;
  dd_rep : nat -> nat -> mat
}.

(** 442-445 and 469-472: a donor equal to the target is replaced by its successor (cyclically). *)
Definition fix_donor (num_pop ii r : nat) : nat :=
  if Nat.eqb r ii then (if Nat.ltb ii (num_pop - 1) then S ii else 0) else r.

Section DE.
Variable cfg : de_config.
Variable b : box.
Variable func : objective.
Variable rng : de_draws.

(** number of donor indices asked from [np.random.choice] (439, 466) *)
Definition donors_needed : nat :=
  match d_strategy cfg with Rand1 => 3 | _ => 2 end.
(** 438-451 and 465-480: the mutant vector of individual [ii] *)
Definition de_mutant (iter ii : nat) (x gbx : mat) : row :=
  let r := map (fix_donor (d_pop cfg) ii) (dd_donors rng iter ii) in
  let xr k := nth (nth k r 0) x [] in
  match d_strategy cfg with
  | Rand1 => map2 fadd (xr 0) (map (fmul (d_F cfg)) (map2 fsub (xr 1) (xr 2)))
  | _ => map2 fadd (nth iter gbx []) (map (fmul (d_F cfg)) (map2 fsub (xr 0) (xr 1)))
  end.
(** 452-459 and 481-488: binomial crossover *)
Definition de_trial (iter ii : nat) (x : mat) (v : row) : row :=
  imap (fun j xj =>
    if flt (dd_cr rng iter ii j) (d_CR cfg) || Nat.eqb (dd_dim rng iter ii) j then nth j v f0 else xj)
    (nth ii x []).
(** 435-492 [__update_pop]: the repaired trial population.  [np.random.choice] raises ValueError when
    asked for more distinct indices than there are individuals, or for an index out of none. *)
Definition de_new_u (iter : nat) (x gbx : mat) : result mat :=
  match d_strategy cfg with
  | OtherStrategy => Raise ValueError
  | _ =>
      if Nat.ltb (d_pop cfg) donors_needed then Raise ValueError
      else if Nat.eqb (length b) 0 then Raise ValueError
      else Ok (loc_cons b (dd_rep rng iter)
                 (map (fun ii => de_trial iter ii x (de_mutant iter ii x gbx)) (seq 0 (d_pop cfg))))
  end.

(** 421-433 [_de_initializer], with the arrays of 379-383 *)
Definition de_init : trace * result ea_state :=
  let x := location_init b (dd_loc rng) in
  let '(tr, y) := evaluate func (d_pop cfg) [] x in
  (tr,
   obj <- y ;;
   m <- np_min obj ;;
   k <- np_argmin obj ;;
   Ok {| st_x := x; st_v := []; st_obj := obj; st_pb := []; st_pbx := [];
         st_gb := upd 0 m (zeros (S (d_gen cfg)));
         st_gbx := upd 0 (nth k x []) (repeat (zeros (length b)) (S (d_gen cfg)));
         st_samples := upd 0 x (repeat (repeat (zeros (length b)) (d_pop cfg)) (S (d_gen cfg)));
         st_responses := upd 0 obj (repeat (zeros (d_pop cfg)) (S (d_gen cfg))) |}).

(** 498-501: greedy selection *)
Definition de_select_x (new old : list b64) (u x : mat) : mat :=
  map2 (fun c ux => if flt (fst c) (snd c) then fst ux else snd ux) (combine new old) (combine u x).
Definition de_select_obj (new old : list b64) : list b64 := map2 (fun n o => if flt n o then n else o) new old.

(** 393-397: one generation *)
Definition de_step (iter : nat) (tr : trace) (s : ea_state) : trace * result ea_state :=
  match de_new_u iter (st_x s) (st_gbx s) with
  | Raise e => (tr, Raise e)
  | Ok u =>
      let '(tr', y) := evaluate func (d_pop cfg) tr u in
      (tr',
       obj_u <- y ;;
       let x := de_select_x obj_u (st_obj s) u (st_x s) in
       let obj := de_select_obj obj_u (st_obj s) in
       g <- update_gen_optimum iter x obj (st_gb s) (st_gbx s) ;;
       Ok {| st_x := x; st_v := []; st_obj := obj; st_pb := []; st_pbx := [];
             st_gb := fst g; st_gbx := snd g;
             st_samples := upd (S iter) x (st_samples s);
             st_responses := upd (S iter) obj (st_responses s) |})
  end.

(** 360-419 [run_optimizer] *)
Definition de_run (stop : option b64) : trace * result ea_out :=
  match de_init with
  | (tr, Raise e) => (tr, Raise e)
  | (tr, Ok s) => ea_loop de_step stop (d_gen cfg) 0 None tr s
  end.
End DE.
