(** Model of design_of_experiment/sf_samplers.py and design_of_experiment/mf_samplers.py. *)
From Coq Require Import ZArith NArith Bool List.
From Verif Require Import Fl NpList.
Import ListNotations.

(** ** Scaling of unit samples, over any arithmetic *)

(** sf_samplers.py 98 ([scale_samples]): [lb + s * (ub - lb)], one entry. *)
Definition scale_lb {T} (add sub mul : T -> T -> T) (lo hi u : T) : T := add lo (mul u (sub hi lo)).
(** mf_samplers.py 204-205 and 273-274; evolutionary_algorithms.py 57-61: [s * (ub - lb) + lb]. *)
Definition scale_mul {T} (add sub mul : T -> T -> T) (lo hi u : T) : T := add (mul u (sub hi lo)) lo.

(** Row-wise broadcasting of the formula; [lb]/[ub] are columns 0/1 of the design space
    (sf_samplers.py 102-115, mf_samplers.py 103-131). *)
Definition scale_row {T} (f : T -> T -> T -> T) (b : list (T * T)) (r : list T) : list T :=
  map2 (fun lh u => f (fst lh) (snd lh) u) b r.

Definition scale_lb64 := scale_lb fadd fsub fmul.
Definition scale_mul64 := scale_mul fadd fsub fmul.

(** ** Seeds and engines *)

(** What a SciPy engine is seeded with: an integer, or fresh operating-system entropy. *)
Inductive seedval := Seed (z : Z) | Entropy (e : Z).

(** [LatinHypercube(d, seed).random(n)]: dimension, seed, number of points.  Oracle. *)
Definition lhs_engine := nat -> seedval -> nat -> mat.
(** Point number [i] of [Sobol(d, seed)].  Oracle. *)
Definition sobol_stream := nat -> seedval -> nat -> row.

(** SciPy's Sobol engine: a position in the stream and a limit of [2^30] points. *)
Record sobol_engine := { se_dim : nat; se_seed : seedval; se_generated : N }.
Definition sobol_maxn : N := N.pow 2 30.
Definition sobol_new (d : nat) (s : seedval) : sobol_engine := {| se_dim := d; se_seed := s; se_generated := 0%N |}.
Definition sobol_at (e : sobol_engine) (k : N) : sobol_engine :=
  {| se_dim := se_dim e; se_seed := se_seed e; se_generated := k |}.
(** [Sobol.random(n)] *)
Definition sobol_random (stream : sobol_stream) (n : N) (e : sobol_engine) : result (mat * sobol_engine) :=
  if N.eqb n 0 then Ok ([], e)
  else if N.ltb sobol_maxn (se_generated e + n) then Raise ValueError
  else Ok (map (stream (se_dim e) (se_seed e)) (seq (N.to_nat (se_generated e)) (N.to_nat n)),
           sobol_at e (se_generated e + n)).
(** [Sobol.random_base2(m)]: rejects a total that is not a power of two. *)
Definition sobol_random_base2 (stream : sobol_stream) (m : N) (e : sobol_engine) : result (mat * sobol_engine) :=
  let total := (se_generated e + N.pow 2 m)%N in
  if negb (N.eqb (N.land total (total - 1)) 0) then Raise ValueError
  else sobol_random stream (N.pow 2 m) e.
Definition sobol_reset (e : sobol_engine) : sobol_engine := sobol_at e 0.
Definition sobol_fast_forward (n : N) (e : sobol_engine) : sobol_engine := sobol_at e (se_generated e + n).

(** ** Single-fidelity samplers (sf_samplers.py) *)

(** 138-164 [FixNumberSampler.get_samples]; [np.tile(space, (n, 1))]. *)
Definition fix_number_get_samples {T} (b : list (T * T)) (n : nat) (seed : Z) : list (list T) :=
  repeat (flat_map (fun lh => [fst lh; snd lh]) b) n.

(** 184-209 [LatinHyperCube.get_samples]. *)
Definition lhs_get_samples (eng : lhs_engine) (b : box) (n : nat) (seed : seedval) : mat :=
  map (scale_row scale_lb64 b) (eng (length b) seed n).

(** 231-261 [RandomSampler.get_samples].  [G] is the state of NumPy's global generator; the call
    reseeds it, draws, and leaves the advanced state behind. *)
Definition random_get_samples {G : Type} (np_seed : Z -> G) (np_random : G -> nat -> nat -> mat * G)
    (b : box) (n : nat) (seed : Z) (_global : G) : mat * G :=
  let g := np_seed seed in
  let '(s, g') := np_random g n (length b) in
  (map (scale_row scale_lb64 b) s, g').

(** 289-324 [SobolSequence.get_samples]; [skip] is [self.num_skip] (269-287).  The second component
    is the number of points the engine generated on the way (work done). *)
Definition sobol_get_samples (stream : sobol_stream) (skip : N) (b : box) (n : nat) (seed : seedval)
  : result (mat * N) :=
  let e0 := sobol_new (length b) seed in
  se1 <- sobol_random_base2 stream (N.of_nat n) e0 ;;
  let e3 := sobol_fast_forward skip (sobol_reset (snd se1)) in
  se2 <- sobol_random stream (N.of_nat n) e3 ;;
  Ok (map (scale_row scale_lb64 b) (fst se2), N.of_nat (length (fst se1))).
(** 284-287: default of [num_skip]. *)
Definition sobol_num_skip (num_skip : option N) (b : box) : N :=
  match num_skip with None => N.of_nat (length b) | Some k => k end.
Definition new_sobol_samples (stream : sobol_stream) (num_skip : option N) (b : box) (n : nat) (seed : seedval)
  : result (mat * N) := sobol_get_samples stream (sobol_num_skip num_skip b) b n seed.

(** ** Multi-fidelity samplers (mf_samplers.py) *)

Inductive design := SharedSpace (b : box) | PerLevel (bs : list box).
Inductive mf_kind := KLhs | KSobol (skip : N).
Record mf_sampler := { mfs_spaces : list box; mfs_dim : nat; mfs_nested : bool; mfs_kind : mf_kind }.

(** 13-38 [MultiFidelitySampler.__init__] and 133-141 [transfer_design_space_list]. *)
Definition mk_mf_sampler (ds : design) (num_fidelity : option nat) (nested : bool) (k : mf_kind)
  : result mf_sampler :=
  match ds with
  | SharedSpace b =>
      match num_fidelity with
      | None => Raise TypeError                       (* range(None) *)
      | Some m => Ok {| mfs_spaces := repeat b m; mfs_dim := length b; mfs_nested := nested; mfs_kind := k |}
      end
  | PerLevel [] => Raise IndexError                   (* design_space[0] *)
  | PerLevel (b :: bs) =>
      Ok {| mfs_spaces := b :: bs; mfs_dim := length b; mfs_nested := nested; mfs_kind := k |}
  end.
(** 251-254: default of [num_skip] ([len(design_space)]: dimensions of a shared array, but number
    of levels of a list). *)
Definition mf_sobol_num_skip (num_skip : option N) (ds : design) : N :=
  match num_skip with
  | Some k => k
  | None => N.of_nat (match ds with SharedSpace b => length b | PerLevel bs => length bs end)
  end.

(** 147-184 [MFLatinHyperCube.__init__] and 223-254 [MFSobolSequence.__init__]. *)
Definition new_mf_lhs (ds : design) (num_fidelity : option nat) (nested : bool) : result mf_sampler :=
  mk_mf_sampler ds num_fidelity nested KLhs.
Definition new_mf_sobol (ds : design) (num_fidelity : option nat) (nested : bool) (num_skip : option N)
  : result mf_sampler :=
  mk_mf_sampler ds num_fidelity nested (KSobol (mf_sobol_num_skip num_skip ds)).

Section MF.
Variable lhs : lhs_engine.
Variable stream : sobol_stream.
(** [np.random.choice(np.arange(n), size, replace=False)], by call number: oracle for the global generator. *)
Variable choice : nat -> nat -> nat -> list nat.
(** entropy used by an engine built with [seed=None], per fidelity. *)
Variable ent : nat -> Z.
Variable s : mf_sampler.
Variable seed : option Z.

(** 204-207 and 273-276: scaling with the bounds of level [fid]; indexing a missing level raises
    IndexError.  Simplification: a level whose dimension differs from [num_dim] raises ValueError
    (NumPy would broadcast if it were 1). *)
Definition mf_scale (fid : nat) (samples : mat) : result mat :=
  match nth_error (mfs_spaces s) fid with
  | None => Raise IndexError
  | Some b => if Nat.eqb (length b) (mfs_dim s)
              then Ok (map (scale_row scale_mul64 b) samples)
              else Raise ValueError
  end.

(** 186-207 (LHS) and 256-276 (Sobol) [_get_non_nested_samples]. *)
Definition mf_non_nested (n fid : nat) : result mat :=
  match mfs_kind s with
  | KLhs =>
      let sd := match seed with Some z => Seed (z + Z.of_nat fid) | None => Entropy (ent fid) end in
      mf_scale fid (lhs (mfs_dim s) sd n)
  | KSobol skip =>
      let sd := match seed with Some z => Seed z | None => Entropy (ent fid) end in
      r <- sobol_random stream (N.of_nat n) (sobol_fast_forward skip (sobol_reset (sobol_new (mfs_dim s) sd))) ;;
      mf_scale fid (fst r)
  end.

(** 209-220 (LHS: random rows without replacement) and 278-289 (Sobol: first rows)
    [_get_nested_samples].  [k] numbers the calls to [np.random.choice]. *)
Definition mf_nested_samples (k n : nat) (data : mat) : result mat :=
  match mfs_kind s with
  | KLhs =>
      if Nat.ltb (length data) n then Raise ValueError
      else Ok (map (fun i => nth i data []) (choice k (length data) n))
  | KSobol _ => Ok (firstn n data)
  end.

(** 89-101 [_mf_samples_rules]: the assertion holds for every adjacent pair. *)
Fixpoint mf_rules (ns : list nat) : bool :=
  match ns with
  | a :: (b :: _) as t => Nat.leb a b && mf_rules t
  | _ => true
  end.

(** 70-83: the loop.  [todo] is the caller's list reversed ([pop()] takes its head); it is returned
    as the loop leaves it. *)
Fixpoint mf_loop (k : nat) (todo : list nat) (data : list mat) : result (list mat) * list nat :=
  match todo with
  | [] => (Ok data, [])
  | n :: rest =>
      match (if mfs_nested s then mf_nested_samples k n (hd [] data) else mf_non_nested n (length rest)) with
      | Ok x => mf_loop (S k) rest (x :: data)
      | Raise e => (Raise e, rest)
      end
  end.

(** 40-87 [get_samples].  Result and the caller's [num_samples] list after the call. *)
Definition mf_get_samples (ns : list nat) : result (list mat) * list nat :=
  if mf_rules ns then
    match rev ns with
    | [] => (Raise IndexError, [])                    (* pop from empty list *)
    | n :: rest =>
        match mf_non_nested n (length rest) with
        | Ok x => let '(r, rem) := mf_loop 0 rest [x] in (r, rev rem)
        | Raise e => (Raise e, rev rest)
        end
    end
  else (Raise AssertionError, ns).
End MF.

(** ** core/data.py *)

(** 6-30 [mfArray]: [n_levels], [hf], [size] of the stored list (None before data are set). *)
Definition mfarray_n_levels {A} (d : list (list A)) : nat := length d.
Definition mfarray_hf {A} (d : list (list A)) : result (list A) :=
  match d with [] => Raise IndexError | x :: _ => Ok x end.
Definition mfarray_size {A} (d : list (list A)) : list nat :=
  map (fun i => length (nth i d [])) (seq 0 (mfarray_n_levels d)).
