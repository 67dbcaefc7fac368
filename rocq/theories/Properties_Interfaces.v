(** C102: plots of samples.  C103: kronDelta.  The words ([shown], [points], [scatters], [delivered]) are in InterfacesSpec.v. *)
From Coq Require Import ZArith Bool List Reals String Lra Lia.
From Verif Require Import Fl NpList Interfaces InterfacesSpec InterfacesFacts.
Import ListNotations.

(** ** C102 *)
(** a plot of a sampler shows every sample *)
Theorem C102_single : forall d a save file, (1 <= d <= 3)%nat -> (d <= ncols a)%nat -> regular a ->
  exists l cs c m s, sf_plot d a save file = ((l ++ (if save then [SaveFig file; Close] else [Show]))%list, None) /\
    scatters l = [Scatter cs c m s None] /\ points cs = map (shown d) (rows a) /\ ~ delivered l.
Proof. exact sf_plot_ok. Qed.
Print Assumptions C102_single.
(** other dimensions are rejected before anything is drawn *)
Theorem C102_dimensions : forall d, ~ (1 <= d <= 3)%nat ->
  (forall a save file, sf_plot d a save file = ([], Some ValueError)) /\
  (forall data save file, mf_plot d data save file = ([], Some ValueError)).
Proof. exact plot_dims. Qed.
Print Assumptions C102_dimensions.
(** up to five levels: each is drawn once and in full, level 0 last *)
Theorem C102_levels : forall d data save file, (1 <= d <= 3)%nat -> (List.length data <= 5)%nat ->
  Forall (fun a => (d <= ncols a)%nat /\ regular a) data ->
  exists l, mf_plot d data save file = ((l ++ (if save then [SaveFig file; Close] else [Show]))%list, None) /\ ~ delivered l /\
    List.length (scatters l) = List.length data /\
    forall i a, nth_error data i = Some a -> exists cs c m s,
      nth_error (scatters l) (List.length data - 1 - i) = Some (Scatter cs c m s (Some i)) /\ points cs = map (shown d) (rows a).
Proof. exact mf_plot_ok. Qed.
Print Assumptions C102_levels.
(** two levels differ in colour, marker and size *)
Theorem C102_distinct : forall d data save file, (1 <= d <= 3)%nat -> (List.length data <= 5)%nat ->
  Forall (fun a => (d <= ncols a)%nat /\ regular a) data ->
  forall cs c m s i cs' c' m' s' j,
  In (Scatter cs c m s (Some i)) (fst (mf_plot d data save file)) -> In (Scatter cs' c' m' s' (Some j)) (fst (mf_plot d data save file)) ->
  i <> j -> c <> c' /\ m <> m' /\ s <> s'.
Proof. exact mf_plot_distinct. Qed.
Print Assumptions C102_distinct.
Example C102_two_levels : let data := [{| ncols := 2; rows := [[f0; f1]] |}; {| ncols := 2; rows := [[f0; f1]; [f1; f1]] |}] in
  (List.length data <= 5)%nat /\ Forall (fun a => (2 <= ncols a)%nat /\ regular a) data.
Proof. split; [cbn; lia|]. repeat constructor. Qed.
(** with six levels or more the call raises and not even the first five are drawn *)
Theorem C102_many_levels_refuted : forall d data save file, (1 <= d <= 3)%nat -> (5 < List.length data)%nat ->
  exists l, mf_plot d data save file = (l, Some IndexError) /\ scatters l = [] /\ ~ delivered l.
Proof. exact mf_plot_many. Qed.
Print Assumptions C102_many_levels_refuted.
(** a figure is shown or written exactly when the call returns *)
Theorem C102_delivered :
  (forall d a save file, delivered (fst (sf_plot d a save file)) <-> snd (sf_plot d a save file) = None) /\
  (forall d data save file, delivered (fst (mf_plot d data save file)) <-> snd (mf_plot d data save file) = None).
Proof. exact plot_delivered. Qed.
Print Assumptions C102_delivered.

(** ** C103 *)
Theorem C103_reflexive_symmetric : (forall x, kron_delta x x = true) /\ (forall x y, kron_delta x y = kron_delta y x).
Proof. exact kron_refl_sym. Qed.
Print Assumptions C103_reflexive_symmetric.
(** points called equal agree in every coordinate up to 2^-23 *)
Theorem C103_close : forall x y k, List.length x = List.length y -> (k < List.length x)%nat ->
  kron_delta x y = true -> (Rabs (nth k x 0 - nth k y 0) < / 2 ^ 23)%R.
Proof. exact kron_close. Qed.
Print Assumptions C103_close.
(** it is equality on points whose coordinates are equal or at least 2^-23 apart *)
Theorem C103_separated : forall x y, List.length x = List.length y ->
  (forall k, (k < List.length x)%nat -> nth k x 0 = nth k y 0 \/ / 2 ^ 23 <= Rabs (nth k x 0 - nth k y 0))%R ->
  (kron_delta x y = true <-> x = y).
Proof. exact kron_separated. Qed.
Print Assumptions C103_separated.
Example C103_grid : let x := [0; 1]%R in let y := [0; 0]%R in
  forall k, (k < 2)%nat -> (nth k x 0 = nth k y 0 \/ / 2 ^ 23 <= Rabs (nth k x 0 - nth k y 0))%R.
Proof.
  intros x y [|[|k]] H; [now left| |lia]. right. cbn [nth x y]. rewrite Rminus_0_r, Rabs_R1. rewrite <- Rinv_1. apply Rinv_le_contravar; [lra|]. apply pow_R1_Rle. lra.
Qed.
(** but it is not an equivalence *)
Theorem C103_transitive_refuted : exists x y z, kron_delta x y = true /\ kron_delta y z = true /\ kron_delta x z = false.
Proof. exact kron_not_transitive. Qed.
Print Assumptions C103_transitive_refuted.
