(** Model of optimization/sf_uncons_bo.py, sf_cons_bo.py and mf_uncons_bo.py.

    The acquisition's [query], the problem's functions and the training of the surrogates are
    oracles: they may raise, and they take the number of earlier calls as an argument, so that
    quantifying over them covers every state they may keep (random generator, fitted surrogate).
    A method returns the state it leaves behind together with [None], or [Some e] if it raised [e]:
    Python keeps the attributes assigned before the exception.  Simplifications: the initial design
    is an argument (the samplers are modelled in Samplers.v); objectives return one column; oracles
    do not write to their arguments; a negative [max_iter] is the same as 0; printing is left out. *)
From Coq Require Import ZArith Bool List.
From Verif Require Import Fl NpList EA.
Import ListNotations.

(** [np.vstack((a, rows))] on a non-empty two-dimensional array. *)
Definition vstack (a rows : mat) : result mat :=
  if forallb (fun r => Nat.eqb (length r) (length (hd [] a))) rows then Ok (a ++ rows) else Raise ValueError.
(** [a[i, :]] *)
Definition take_row {A} (a : list A) (i : nat) : result A :=
  match nth_error a i with Some r => Ok r | None => Raise IndexError end.

(** ** The stopping error, the same in the three classes *)

(** [problem.optimum]: absent, a number, or (AckleyN2, sf_functions.py 509) a list of numbers. *)
Inductive optimum_attr := NoOptimum | Optimum (v : b64) | OptimumList (l : list b64).

(** sf_uncons_bo.py 122-138, sf_cons_bo.py 173-189, mf_uncons_bo.py 113-129 [__update_error]; a list
    of numbers is compared with 0 as a whole (unequal) and then broadcast. *)
Definition update_error (opt : optimum_attr) (best : b64) : list b64 :=
  match opt with
  | NoOptimum => [f1]
  | Optimum o =>
      if negb (feq o f0) then [fabs (fdiv (fsub best o) o)] else [fabs (fsub best o)]
  | OptimumList l => map (fun o => fabs (fdiv (fsub best o) o)) l
  end.
(** The truth value of a comparison with an array: only arrays of one element have one. *)
Definition truth (cmp : b64 -> bool) (err : list b64) : result bool :=
  match err with [e] => Ok (cmp e) | _ => Raise ValueError end.

Section Loop.
Variable S : Type.
Variable step : S -> S * option exn.
Variable continue : S -> result bool.
(** [while iteration < max_iter and continue: step] *)
Fixpoint bo_loop (rem : nat) (s : S) : S * option exn :=
  match rem with
  | O => (s, None)
  | Datatypes.S r =>
      match continue s with
      | Raise e => (s, Some e)
      | Ok false => (s, None)
      | Ok true =>
          match step s with
          | (s', Some e) => (s', Some e)
          | (s', None) => bo_loop r s'
          end
      end
  end.
End Loop.

(** A session: any number of [run_optimizer] calls on one object; an exception ends one call and
    the caller may go on.  Lists what each call raised. *)
Fixpoint session {S C} (run : C -> S -> S * option exn) (calls : list C) (s : S) : S * list (option exn) :=
  match calls with
  | [] => (s, [])
  | c :: cs => let '(s1, e) := run c s in let '(s2, es) := session run cs s1 in (s2, e :: es)
  end.

(** ** Single-fidelity, unconstrained: BayesUnConsOpt *)

Record sf_state := {
  s_x : mat; s_y : list b64;                       (* sample, response *)
  s_best : b64; s_best_x : row;                    (* best, best_x *)
  s_hist : list b64; s_hist_x : mat;               (* history_best, history_best_x *)
  s_queries : nat; s_trains : nat;                 (* how often the oracles were called *)
  s_calls : trace                                  (* what the objective was asked and answered *)
}.

Section SF.
Variable query : nat -> result mat.                (* acquisition.query, after np.atleast_2d *)
Variable func : objective.                         (* problem.f *)
Variable train : nat -> option exn.                (* surrogate.train *)
Variable opt : optimum_attr.                       (* problem.optimum *)

(** sf_uncons_bo.py 111-120 [_update_para] *)
Definition sf_update_para (s : sf_state) : sf_state * option exn :=
  match (v <- np_min (s_y s) ;; i <- np_argmin (s_y s) ;; Ok (v, i)) with
  | Raise e => (s, Some e)
  | Ok (v, i) =>
      match take_row (s_x s) i with
      | Raise e =>      (* 116 has been executed, 117 raises *)
          ({| s_x := s_x s; s_y := s_y s; s_best := v; s_best_x := s_best_x s; s_hist := s_hist s;
              s_hist_x := s_hist_x s; s_queries := s_queries s; s_trains := s_trains s;
              s_calls := s_calls s |}, Some e)
      | Ok r =>
          ({| s_x := s_x s; s_y := s_y s; s_best := v; s_best_x := r; s_hist := s_hist s ++ [v];
              s_hist_x := s_hist_x s ++ [r]; s_queries := s_queries s; s_trains := s_trains s;
              s_calls := s_calls s |}, None)
      end
  end.

(** sf_uncons_bo.py 60-73: one iteration *)
Definition sf_step (s : sf_state) : sf_state * option exn :=
  let q := query (s_queries s) in
  let set x y tr t :=
    {| s_x := x; s_y := y; s_best := s_best s; s_best_x := s_best_x s; s_hist := s_hist s;
       s_hist_x := s_hist_x s; s_queries := S (s_queries s); s_trains := t; s_calls := tr |} in
  match q with
  | Raise e => (set (s_x s) (s_y s) (s_calls s) (s_trains s), Some e)
  | Ok ux =>
      let uy := func (length (s_calls s)) ux in
      let tr := s_calls s ++ [(ux, uy)] in
      match uy with
      | Raise e => (set (s_x s) (s_y s) tr (s_trains s), Some e)
      | Ok y =>
          match vstack (s_x s) ux with
          | Raise e => (set (s_x s) (s_y s) tr (s_trains s), Some e)
          | Ok x' =>
              let s' := set x' (s_y s ++ y) tr (S (s_trains s)) in
              match train (s_trains s) with
              | Some e => (s', Some e)
              | None => sf_update_para s'
              end
          end
      end
  end.

(** sf_uncons_bo.py 42-78 [run_optimizer (max_iter, stopping_error)] *)
Definition sf_run (c : nat * b64) (s : sf_state) : sf_state * option exn :=
  bo_loop _ sf_step (fun s => truth (fun e => fge e (snd c)) (update_error opt (s_best s))) (fst c) s.

(** sf_uncons_bo.py 16-40 and 80-109: the object after construction, for the design drawn *)
Definition sf_new (design : mat) : result sf_state :=
  let y := func 0 design in
  y0 <- y ;;
  match train 0 with
  | Some e => Raise e
  | None =>
      v <- np_min y0 ;;
      i <- np_argmin y0 ;;
      r <- take_row design i ;;
      Ok {| s_x := design; s_y := y0; s_best := v; s_best_x := r; s_hist := [v]; s_hist_x := [r];
            s_queries := 0; s_trains := 1; s_calls := [(design, y)] |}
  end.
End SF.

(** ** Single-fidelity, constrained: BayesConsOpt *)

Record cn_state := {
  c_x : mat; c_y : list b64; c_g : mat;            (* sample, obj_response, cons_response *)
  c_best : b64; c_best_x : option mat;             (* best, best_x *)
  c_hist : list b64; c_hist_x : list (option mat);
  c_queries : nat; c_trains : nat;
  c_calls : trace; c_cons_calls : list (mat * result mat)
}.

(** sf_cons_bo.py 127-129 / 152-154: the positions whose constraint row has [nc] entries [<= 0] *)
Definition feasible_index (nc : nat) (g : mat) : list nat :=
  filter (fun i => Nat.eqb (length (filter (fun c => fle c f0) (nth i g []))) nc) (seq 0 (length g)).
(** [np.where(obj == v)[0]] *)
Definition where_eq (y : list b64) (v : b64) : list nat :=
  filter (fun i => feq (nth i y f0) v) (seq 0 (length y)).
(** [a[idx]] for a list of positions *)
Fixpoint take_rows {A} (a : list A) (idx : list nat) : result (list A) :=
  match idx with
  | [] => Ok []
  | i :: l => r <- take_row a i ;; rs <- take_rows a l ;; Ok (r :: rs)
  end.
(** sf_cons_bo.py 127-134 / 152-161: the body of the try block *)
Definition best_feasible (nc : nat) (x : mat) (y : list b64) (g : mat) : result (b64 * mat) :=
  yf <- take_rows y (feasible_index nc g) ;;
  v <- np_min yf ;;
  bx <- take_rows x (where_eq y v) ;;
  Ok (v, bx).
(** sf_cons_bo.py 126-144 / 151-171: with the except branch *)
Definition cn_best (nc : nat) (x : mat) (y : list b64) (g : mat) : b64 * option mat :=
  match best_feasible nc x y g with
  | Ok (v, bx) => (v, Some bx)
  | Raise _ => (finf, None)
  end.

Section CONS.
Variable query : nat -> result mat.
Variable func : objective.                         (* problem.f *)
Variable cons : nat -> mat -> result mat.          (* problem.f_cons: one row per point *)
Variable train : nat -> option exn.                (* all trainings, numbered in order *)
Variable nc : nat.                                 (* problem.num_cons *)
Variable opt : optimum_attr.

(** sf_cons_bo.py 74-79: the objective surrogate, then one surrogate per constraint; column [ii] of
    the constraint responses must exist.  Returns the number of trainings started. *)
Fixpoint train_cons (g : mat) (t ii rem : nat) : nat * option exn :=
  match rem with
  | O => (t, None)
  | S r =>
      if Nat.ltb ii (length (hd [] g)) then
        match train t with
        | Some e => (S t, Some e)
        | None => train_cons g (S t) (S ii) r
        end
      else (t, Some IndexError)
  end.
Definition train_all (g : mat) (t : nat) : nat * option exn :=
  match train t with
  | Some e => (S t, Some e)
  | None => train_cons g (S t) 0 nc
  end.

(** sf_cons_bo.py 60-86: one iteration *)
Definition cn_step (s : cn_state) : cn_state * option exn :=
  let set x y g tr trc t :=
    {| c_x := x; c_y := y; c_g := g; c_best := c_best s; c_best_x := c_best_x s; c_hist := c_hist s;
       c_hist_x := c_hist_x s; c_queries := S (c_queries s); c_trains := t; c_calls := tr;
       c_cons_calls := trc |} in
  match query (c_queries s) with
  | Raise e => (set (c_x s) (c_y s) (c_g s) (c_calls s) (c_cons_calls s) (c_trains s), Some e)
  | Ok ux =>
      let uy := func (length (c_calls s)) ux in
      let tr := c_calls s ++ [(ux, uy)] in
      match uy with
      | Raise e => (set (c_x s) (c_y s) (c_g s) tr (c_cons_calls s) (c_trains s), Some e)
      | Ok y =>
          let ug := cons (length (c_cons_calls s)) ux in
          let trc := c_cons_calls s ++ [(ux, ug)] in
          match ug with
          | Raise e => (set (c_x s) (c_y s) (c_g s) tr trc (c_trains s), Some e)
          | Ok g =>
              match vstack (c_x s) ux with
              | Raise e => (set (c_x s) (c_y s) (c_g s) tr trc (c_trains s), Some e)
              | Ok x' =>
                  match vstack (c_g s) g with
                  | Raise e => (set x' (c_y s ++ y) (c_g s) tr trc (c_trains s), Some e)
                  | Ok g' =>
                      let y' := c_y s ++ y in
                      match train_all g' (c_trains s) with
                      | (t, Some e) => (set x' y' g' tr trc t, Some e)
                      | (t, None) =>
                          let '(v, bx) := cn_best nc x' y' g' in
                          ({| c_x := x'; c_y := y'; c_g := g'; c_best := v; c_best_x := bx;
                              c_hist := c_hist s ++ [v]; c_hist_x := c_hist_x s ++ [bx];
                              c_queries := S (c_queries s); c_trains := t; c_calls := tr;
                              c_cons_calls := trc |}, None)
                      end
                  end
              end
          end
      end
  end.

(** sf_cons_bo.py 42-91 [run_optimizer (max_iter, stopping_error)] *)
Definition cn_run (c : nat * b64) (s : cn_state) : cn_state * option exn :=
  bo_loop _ cn_step (fun s => truth (fun e => fge e (snd c)) (update_error opt (c_best s))) (fst c) s.

(** sf_cons_bo.py 16-40 and 93-147 *)
Definition cn_new (design : mat) : result cn_state :=
  let y := func 0 design in
  y0 <- y ;;
  let g := cons 0 design in
  g0 <- g ;;
  match train_all g0 0 with
  | (_, Some e) => Raise e
  | (t, None) =>
      let '(v, bx) := cn_best nc design y0 g0 in
      Ok {| c_x := design; c_y := y0; c_g := g0; c_best := v; c_best_x := bx; c_hist := [v];
            c_hist_x := [bx]; c_queries := 0; c_trains := t; c_calls := [(design, y)];
            c_cons_calls := [(design, g)] |}
  end.
End CONS.

(** ** Multi-fidelity: mfUnConsBayesOpt *)

(** The attribute [best_x] starts as a one-dimensional array and later becomes two-dimensional. *)
Inductive point := Vec (r : row) | Rows (m : mat).

(** Python list objects live at addresses: [self.sample] and [self.init_sample] are references, so
    that writing [self.sample[0] = ...] is a write to the object the reference points to. *)
Record mf_state := {
  m_xs : list (list mat);                          (* the list objects holding sample arrays *)
  m_ys : list (list (list b64));                   (* the list objects holding response arrays *)
  m_init_sample : nat; m_sample : nat;             (* references into m_xs *)
  m_init_response : nat; m_response : nat;         (* references into m_ys *)
  m_best : b64; m_best_x : point;
  m_hist : list b64; m_hist_x : list point;
  m_order : list Z;                                (* fidelity_query_order *)
  m_queries : nat; m_trains : nat;
  m_hf_calls : trace; m_lf_calls : trace
}.

Section MF.
Variable query : nat -> result (mat * Z).
Variable hf : objective.
Variable lf : objective.
Variable train : nat -> option exn.
Variable opt : optimum_attr.

(** the array [self.sample[k]], [self.response[k]] *)
Definition deref {A} (h : list (list A)) (a k : nat) (d : A) : A := nth k (nth a h []) d.
(** the statement [self.sample[k] = v] *)
Definition assign {A} (h : list (list A)) (a k : nat) (v : A) : list (list A) :=
  upd a (upd k v (nth a h [])) h.

(** mf_uncons_bo.py 131-152 [_update_para] *)
Definition mf_update_para (ux : mat) (uy : list b64) (fid : Z) (s : mf_state) : mf_state * option exn :=
  let put b bx h hx :=
    {| m_xs := m_xs s; m_ys := m_ys s; m_init_sample := m_init_sample s; m_sample := m_sample s;
       m_init_response := m_init_response s; m_response := m_response s; m_best := b; m_best_x := bx;
       m_hist := h; m_hist_x := hx; m_order := m_order s ++ [fid]; m_queries := m_queries s;
       m_trains := m_trains s; m_hf_calls := m_hf_calls s; m_lf_calls := m_lf_calls s |} in
  if Z.eqb fid 0 then
    match uy with
    | [] => (put (m_best s) (m_best_x s) (m_hist s) (m_hist_x s), Some IndexError)
    | v :: _ =>
        let '(b, bx) := if flt v (m_best s) then (v, Rows ux) else (m_best s, m_best_x s) in
        (put b bx (m_hist s ++ [b]) (m_hist_x s ++ [bx]), None)
    end
  else (put (m_best s) (m_best_x s) (m_hist s ++ [m_best s]) (m_hist_x s ++ [m_best_x s]), None).

(** mf_uncons_bo.py 82-107: one iteration *)
Definition mf_step (s : mf_state) : mf_state * option exn :=
  let set xs ys hc lc t :=
    {| m_xs := xs; m_ys := ys; m_init_sample := m_init_sample s; m_sample := m_sample s;
       m_init_response := m_init_response s; m_response := m_response s; m_best := m_best s;
       m_best_x := m_best_x s; m_hist := m_hist s; m_hist_x := m_hist_x s; m_order := m_order s;
       m_queries := S (m_queries s); m_trains := t; m_hf_calls := hc; m_lf_calls := lc |} in
  match query (m_queries s) with
  | Raise e => (set (m_xs s) (m_ys s) (m_hf_calls s) (m_lf_calls s) (m_trains s), Some e)
  | Ok (ux, fid) =>
      let k := if Z.eqb fid 0 then 0 else 1 in
      let uy := if Z.eqb fid 0 then hf (length (m_hf_calls s)) ux else lf (length (m_lf_calls s)) ux in
      let hc := if Z.eqb fid 0 then m_hf_calls s ++ [(ux, uy)] else m_hf_calls s in
      let lc := if Z.eqb fid 0 then m_lf_calls s else m_lf_calls s ++ [(ux, uy)] in
      match uy with
      | Raise e => (set (m_xs s) (m_ys s) hc lc (m_trains s), Some e)
      | Ok y =>
          match vstack (deref (m_xs s) (m_sample s) k []) ux with
          | Raise e => (set (m_xs s) (m_ys s) hc lc (m_trains s), Some e)
          | Ok x' =>
              let s' := set (assign (m_xs s) (m_sample s) k x')
                            (assign (m_ys s) (m_response s) k (deref (m_ys s) (m_response s) k [] ++ y))
                            hc lc (S (m_trains s)) in
              match train (m_trains s) with
              | Some e => (s', Some e)
              | None => mf_update_para ux y fid s'
              end
          end
      end
  end.

(** mf_uncons_bo.py 55-111 [run_optimizer]: here the comparison is strict.  The cost ratio only
    reaches the acquisition. *)
Definition mf_run (c : nat * b64) (s : mf_state) : mf_state * option exn :=
  bo_loop _ mf_step (fun s => truth (fun e => fgt e (snd c)) (update_error opt (m_best s))) (fst c) s.

(** mf_uncons_bo.py 19-53 and 154-194, for the two designs drawn; [problem(samples)] is
    functions.py [MultiFidelityFunctions.__call__] on two levels. [list.copy] makes a new list object
    with the same arrays. *)
Definition mf_new (xh xl : mat) : result mf_state :=
  let yh := hf 0 xh in let yl := lf 0 xl in
  y0 <- yh ;;
  y1 <- yl ;;
  match train 0 with
  | Some e => Raise e
  | None =>
      let samples := [xh; xl] in
      let responses := [y0; y1] in
      v <- np_min y0 ;;
      i <- np_argmin y0 ;;
      r <- take_row xh i ;;
      Ok {| m_xs := [samples; samples]; m_ys := [responses; responses];
            m_init_sample := 0; m_sample := 1; m_init_response := 0; m_response := 1;
            m_best := v; m_best_x := Vec r; m_hist := [v]; m_hist_x := [Vec r]; m_order := [];
            m_queries := 0; m_trains := 1; m_hf_calls := [(xh, yh)]; m_lf_calls := [(xl, yl)] |}
  end.
End MF.

(** ** Acquisition queries *)

(** scipy's differential_evolution as an oracle: given which function is minimised, the minimiser
    found and its value, or an exception of the evaluated function. *)
Inductive mf_acq := AcqAugmentedEI | AcqVFEI | AcqVFLCB | AcqExtendedPI.
(** The surrogates of mf_uncons_bo.py 163-174: only subclasses of _mfGaussianProcess have the
    attribute [bound] (mf_gaussian_process.py 14); co_kriging.py 308-338 has [bounds] only. *)
Inductive mf_model := HierarchicalKriging | ScaledKriging | CoKriging.
Definition has_bound (m : mf_model) : bool := match m with CoKriging => false | _ => true end.
(** mf_acqusitions.py 273-274 *)
Definition eval_supported (a : mf_acq) (m : mf_model) : bool :=
  match a, m with AcqVFEI, HierarchicalKriging => true | AcqVFEI, _ => false | _, _ => true end.

Inductive de_target := Predict | Acq (fidelity : Z).
Section Query.
Variable de : de_target -> result (row * b64).     (* (res.x, res.fun) *)
(** differential_evolution(self.eval, bounds=mf_surrogate.bound, ...): the first evaluation raises if
    the model is not supported *)
Definition de_call (a : mf_acq) (m : mf_model) (t : de_target) : result (row * b64) :=
  if has_bound m then
    match t with
    | Acq _ => if eval_supported a m then de t else Raise ValueError
    | Predict => de t
    end
  else Raise AttributeError.
(** mf_acqusitions.py 131-177, 293-341, 407-457, 529-583 [query] *)
Definition mf_query (a : mf_acq) (m : mf_model) (optimizer_given : bool) : result (mat * Z) :=
  _ <- match a with AcqExtendedPI => de_call a m Predict | _ => Ok ([], f0) end ;;
  if optimizer_given then Raise UnboundLocalError   (* opt_hf is never assigned *)
  else
    h <- de_call a m (Acq 0) ;;
    l <- de_call a m (Acq 1) ;;
    if fle (snd h) (snd l) then Ok ([fst h], 0%Z) else Ok ([fst l], 1%Z).
End Query.

(** sf_uncons_acqusitions.py 41-71 and sf_cons_acqusitions.py 43-74 [query]: the optimizers of
    evolutionary_algorithms.py call [self.eval] with the population only, so the parameters for the
    surrogates are missing. *)
Inductive ea_optimizer := ByPSO (c : pso_config) (r : pso_draws) | ByDE (c : de_config) (r : de_draws).
Definition eval_without_surrogate : objective := fun _ _ => Raise TypeError.
Definition sf_query (bounds : box) (optimizer : option ea_optimizer) (de : result (row * b64)) : result row :=
  match optimizer with
  | None => r <- de ;; Ok (fst r)
  | Some (ByPSO c r) => o <- snd (pso_run c bounds eval_without_surrogate r None) ;; Ok (o_location o)
  | Some (ByDE c r) => o <- snd (de_run c bounds eval_without_surrogate r None) ;; Ok (o_location o)
  end.
