(** Words for the statements about plots. *)
From Coq Require Import ZArith Bool List Reals String.
From Verif Require Import Fl NpList Interfaces.
Import ListNotations.

(** a sample of [d] coordinates as a plot shows it; samples of one coordinate lie on the axis *)
Definition shown (d : nat) (r : row) : row := if Nat.eqb d 1 then [nth 0 r f0; f0] else firstn d r.
(** the points of a scatter plot, given by columns *)
Definition points (coords : list row) : list row :=
  map (fun i => map (fun c => nth i c f0) coords) (seq 0 (List.length (hd [] coords))).
(** the scatter plots among the events *)
Definition scatters (l : list event) : list event := filter (fun e => match e with Scatter _ _ _ _ _ => true | _ => false end) l.
(** the figure is shown or written *)
Definition delivered (l : list event) : Prop := In Show l \/ exists f, In (SaveFig f) l.
(** all rows of an array have as many entries as the array has columns *)
Definition regular (a : array) : Prop := Forall (fun r => List.length r = ncols a) (rows a).
