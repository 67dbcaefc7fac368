(** Model of visualization/samplers_visualization.py and of [kronDelta] in models/kernels.py. *)
From Coq Require Import ZArith Bool List Reals String.
From Verif Require Import Fl NpList.
Import ListNotations.
Local Open Scope string_scope.

(** ** Plots of samples *)

(** an array of shape (number of rows, [ncols]) *)
Record array := { ncols : nat; rows : mat }.
(** [samples[:, j]] *)
Definition column (a : array) (j : nat) : result row :=
  if Nat.ltb j (ncols a) then Ok (map (fun r => nth j r f0) (rows a)) else Raise IndexError.

(** what a plot does through matplotlib; labels of axes, titles, grids, fonts and line widths are left out *)
Inductive event :=
| Figure                 (* plt.subplots or plt.figure *)
| Axes3d                 (* fig.add_subplot(111, projection='3d') *)
| Scatter (coords : list row) (color marker : string) (size : Z) (level : option nat)   (* ax.scatter; the label names the level *)
| SaveFig (filename : string) | Close | Show.
(** a method leaves its events behind and returns None or raises *)
Definition drawing := (list event * option exn)%type.
Definition nothing : drawing := ([], None).
Definition emit (e : event) : drawing := ([e], None).
Definition fail (e : exn) : drawing := ([], Some e).
Definition andthen (a b : drawing) : drawing :=
  match a with (l, None) => (List.app l (fst b), snd b) | (l, Some e) => (l, Some e) end.
Definition withr {A} (r : result A) (k : A -> drawing) : drawing :=
  match r with Ok a => k a | Raise e => fail e end.

(** 58-62, 89-93, 111-115, 169-173, 203-207, 231-235 *)
Definition finish (save : bool) (filename : string) : drawing :=
  if save then ([SaveFig filename; Close], None) else emit Show.
(** the positional arguments of [ax.scatter]: 43 and 149-150 (2D), 68-70 and 181-183 (3D), 97 and 214 (1D) *)
Definition coordinates (d : nat) (a : array) : result (list row) :=
  match d with
  | 1 => c0 <- column a 0 ;; Ok [c0; repeat f0 (List.length (rows a))]
  | 2 => c0 <- column a 0 ;; c1 <- column a 1 ;; Ok [c0; c1]
  | _ => c0 <- column a 0 ;; c1 <- column a 1 ;; c2 <- column a 2 ;; Ok [c0; c1; c2]
  end.
(** 42, 66-67, 96, 146, 177-179, 211 *)
Definition canvas (d : nat) : drawing := if Nat.eqb d 3 then ([Figure; Axes3d], None) else emit Figure.

(** 26-39 [SFSamplerVisualization.plot_samples] with 41-115 *)
Definition sf_plot (num_dim : nat) (samples : array) (save : bool) (filename : string) : drawing :=
  match num_dim with
  | 1 | 2 | 3 =>
      andthen (canvas num_dim)
        (andthen (withr (coordinates num_dim samples) (fun cs => emit (Scatter cs "#EE7733" "*" 50 None)))
          (finish save filename))
  | _ => fail ValueError
  end.
(** 17-24: the constructor keeps the sampler, whose attribute [samples] is None before [get_samples]; the plot
    reads it again *)
Definition sf_visualizer (samples : option array) : result array :=
  match samples with None => Raise ValueError | Some a => Ok a end.

(** 237-243 *)
Definition colors : list string := ["#EE7733"; "#0077BB"; "#009988"; "#EE3377"; "#CC3311"].
Definition markers : list string := ["+"; "o"; "v"; "^"; "s"; "D"].
Definition get_color (fidelity : nat) : result string :=
  match nth_error colors fidelity with Some c => Ok c | None => Raise IndexError end.
Definition get_marker (fidelity : nat) : result string :=
  match nth_error markers fidelity with Some c => Ok c | None => Raise IndexError end.
(** the loop bodies 149-154, 181-187 and 214-218 *)
Definition plot_level (d : nat) (fidelity : nat) (a : array) : drawing :=
  withr (coordinates d a) (fun cs =>
  withr (get_color fidelity) (fun c =>
  withr (get_marker fidelity) (fun m =>
  emit (Scatter cs c m (30 + 10 * Z.of_nat fidelity) (Some fidelity))))).
(** [enumerate] *)
Definition enumerate {A} (l : list A) : list (nat * A) := combine (seq 0 (List.length l)) l.
(** 132-142 [MFSamplerVisualization.plot_samples] with 144-235 *)
Definition mf_plot (num_dim : nat) (data : list array) (save : bool) (filename : string) : drawing :=
  match num_dim with
  | 1 | 2 | 3 =>
      andthen (canvas num_dim)
        (andthen (fold_left (fun acc ia => andthen acc (plot_level num_dim (fst ia) (snd ia))) (rev (enumerate data)) nothing)
          (finish save filename))
  | _ => fail ValueError
  end.
(** 120-130: the sampler has no attribute [data] before [get_samples] *)
Definition mf_visualizer (data : option (list array)) : result (list array) :=
  match data with None => Raise AssertionError | Some l => Ok l end.

(** ** kernels.py 180-193 [kronDelta], one entry, over the real numbers: [cdist] is the Euclidean distance and
    [np.finfo(np.float32).eps] is 2^-23 *)
Definition euclidean (x y : list R) : R :=
  sqrt (fold_right Rplus 0%R (map2 (fun a b => (a - b) ^ 2)%R x y)).
Definition kron_delta (x y : list R) : bool := if Rlt_dec (euclidean x y) (/ 2 ^ 23) then true else false.
