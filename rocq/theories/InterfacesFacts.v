(** Proofs about plots of samples and kronDelta. *)
From Coq Require Import ZArith Bool List Reals String Lra Lia Psatz.
From Verif Require Import Fl NpList Interfaces InterfacesSpec.
Import ListNotations.
Local Open Scope string_scope.
Local Open Scope list_scope.

Lemma points_col n (f : nat -> row) cs : hd [] cs = f 0 -> List.length (f 0) = n -> points cs = map (fun i => map (fun c => nth i c f0) cs) (seq 0 n).
Proof. intros H L. unfold points. now rewrite H, L. Qed.
Lemma nth_repeat0 n i : nth i (repeat f0 n) f0 = f0.
Proof. revert i. induction n as [|n IH]; intros [|i]; cbn; auto. Qed.
Lemma map_seq_nth {A B} (g : nat -> B) (h : A -> B) (l : list A) d : (forall i, (i < List.length l)%nat -> g i = h (nth i l d)) -> map g (seq 0 (List.length l)) = map h l.
Proof.
  revert g. induction l as [|a l IH]; intros g H; [easy|]. cbn [List.length seq map]. f_equal; [apply (H 0); cbn; lia|].
  rewrite <- seq_shift, map_map. apply IH. intros i Hi. apply (H (S i)). cbn. lia.
Qed.
Lemma nth_map0 (l : mat) (j i : nat) : (i < List.length l)%nat -> nth i (map (fun r => nth j r f0) l) f0 = nth j (nth i l []) f0.
Proof. intros H. rewrite (nth_indep _ f0 (nth j ([] : row) f0)) by (now rewrite map_length). exact (map_nth (fun r : row => nth j r f0) l [] i). Qed.
Lemma first2 (r : row) n : List.length r = n -> (2 <= n)%nat -> firstn 2 r = [nth 0 r f0; nth 1 r f0].
Proof. destruct r as [|a [|b r]]; cbn; intros; try lia; easy. Qed.
Lemma first3 (r : row) n : List.length r = n -> (3 <= n)%nat -> firstn 3 r = [nth 0 r f0; nth 1 r f0; nth 2 r f0].
Proof. destruct r as [|a [|b [|c r]]]; cbn; intros; try lia; easy. Qed.

Lemma coordinates_ok d a : (1 <= d <= 3)%nat -> (d <= ncols a)%nat -> regular a ->
  exists cs, coordinates d a = Ok cs /\ points cs = map (shown d) (rows a).
Proof.
  intros H1 H2 R. unfold regular in R. rewrite Forall_forall in R.
  assert (C : forall j, (j < ncols a)%nat -> column a j = Ok (map (fun r => nth j r f0) (rows a))).
  { intros j Hj. unfold column. apply Nat.ltb_lt in Hj. now rewrite Hj. }
  assert (D : d = 1 \/ d = 2 \/ d = 3) by lia. destruct D as [-> | [-> | ->]]; unfold coordinates.
  - rewrite C by lia. cbn [bind]. eexists; split; [reflexivity|]. unfold points. cbn [hd]. rewrite map_length. apply map_seq_nth with (d := []).
    intros i Hi. cbn [map]. rewrite nth_map0, nth_repeat0 by easy. reflexivity.
  - rewrite !C by lia. cbn [bind]. eexists; split; [reflexivity|]. unfold points. cbn [hd]. rewrite map_length. apply map_seq_nth with (d := []).
    intros i Hi. cbn [map]. rewrite !nth_map0 by easy. unfold shown. cbn [Nat.eqb]. symmetry. apply (first2 _ (ncols a)); [|lia]. apply R. now apply nth_In.
  - rewrite !C by lia. cbn [bind]. eexists; split; [reflexivity|]. unfold points. cbn [hd]. rewrite map_length. apply map_seq_nth with (d := []).
    intros i Hi. cbn [map]. rewrite !nth_map0 by easy. unfold shown. cbn [Nat.eqb]. symmetry. apply (first3 _ (ncols a)); [|lia]. apply R. now apply nth_In.
Qed.
Lemma coordinates_short d a : (1 <= d <= 3)%nat -> (ncols a < d)%nat -> coordinates d a = Raise IndexError.
Proof.
  intros H1 H2. assert (C : forall j, column a j = if Nat.ltb j (ncols a) then Ok (map (fun r => nth j r f0) (rows a)) else Raise IndexError) by easy.
  assert (D : d = 1 \/ d = 2 \/ d = 3) by lia. destruct D as [-> | [-> | ->]]; unfold coordinates; rewrite !C;
    repeat match goal with |- context [Nat.ltb ?j (ncols a)] => destruct (Nat.ltb_spec j (ncols a)) end; cbn [bind]; try easy; lia.
Qed.

Lemma andthen_none l b : andthen (l, None) b = ((l ++ fst b)%list, snd b).
Proof. reflexivity. Qed.
Lemma canvas_ok d : exists l, canvas d = (l, None) /\ scatters l = [] /\ ~ delivered l.
Proof.
  unfold canvas, emit. destruct (Nat.eqb d 3); eexists; (split; [reflexivity|]); (split; [reflexivity|]); intros [H | [f H]]; cbn in H; intuition discriminate.
Qed.
Lemma finish_ok save file : exists l, finish save file = (l, None) /\ scatters l = [] /\ delivered l /\ l = (if save then [SaveFig file; Close] else [Show]).
Proof.
  unfold finish, emit. destruct save; eexists; (split; [reflexivity|]); (split; [reflexivity|]); (split; [|reflexivity]).
  - right. exists file. now left.
  - left. now left.
Qed.
Lemma scatters_app l m : scatters (l ++ m) = (scatters l ++ scatters m)%list.
Proof. apply filter_app. Qed.
Lemma delivered_app l m : delivered (l ++ m) <-> delivered l \/ delivered m.
Proof. unfold delivered. setoid_rewrite in_app_iff. firstorder. Qed.

Theorem sf_plot_ok d a save file : (1 <= d <= 3)%nat -> (d <= ncols a)%nat -> regular a ->
  exists l cs c m s, sf_plot d a save file = ((l ++ (if save then [SaveFig file; Close] else [Show]))%list, None) /\
    scatters l = [Scatter cs c m s None] /\ points cs = map (shown d) (rows a) /\ ~ delivered l.
Proof.
  intros H1 H2 R. destruct (coordinates_ok d a H1 H2 R) as (cs & Ec & Pc). destruct (canvas_ok d) as (l & El & Sl & Dl). destruct (finish_ok save file) as (f & Ef & _ & _ & If).
  exists (l ++ [Scatter cs "#EE7733" "*" 50 None])%list, cs, "#EE7733"%string, "*"%string, 50%Z.
  assert (E : sf_plot d a save file = ((l ++ [Scatter cs "#EE7733" "*" 50 None]) ++ f, None)%list).
  { unfold sf_plot. assert (D : d = 1 \/ d = 2 \/ d = 3) by lia. rewrite El, Ec, Ef. destruct D as [-> | [-> | ->]]; cbn [withr emit andthen fst snd app]; rewrite <- app_assoc; reflexivity. }
  rewrite E, If. split; [reflexivity|]. split; [now rewrite scatters_app, Sl|]. split; [exact Pc|]. rewrite delivered_app. intros [H|H]; [now apply Dl|].
  destruct H as [H|[g H]]; cbn in H; intuition discriminate.
Qed.
Theorem plot_dims d : ~ (1 <= d <= 3)%nat -> (forall a save file, sf_plot d a save file = ([], Some ValueError)) /\ forall data save file, mf_plot d data save file = ([], Some ValueError).
Proof. intros H. destruct d as [|[|[|[|d]]]]; try lia; split; reflexivity. Qed.

Lemma plot_level_ok d i a : (1 <= d <= 3)%nat -> (d <= ncols a)%nat -> regular a -> (i < 5)%nat ->
  exists cs, plot_level d i a = ([Scatter cs (nth i colors "") (nth i markers "") (30 + 10 * Z.of_nat i) (Some i)], None) /\ points cs = map (shown d) (rows a).
Proof.
  intros H1 H2 R Hi. destruct (coordinates_ok d a H1 H2 R) as (cs & Ec & Pc). exists cs. split; [|exact Pc]. unfold plot_level. rewrite Ec. cbn [withr].
  do 5 (destruct i as [|i]; [reflexivity|]). lia.
Qed.
(** the levels drawn *)
Definition drawn_level (d : nat) (ia : nat * array) (e : event) : Prop :=
  exists cs, e = Scatter cs (nth (fst ia) colors "") (nth (fst ia) markers "") (30 + 10 * Z.of_nat (fst ia)) (Some (fst ia)) /\ points cs = map (shown d) (rows (snd ia)).
Lemma fold_levels d l acc : (1 <= d <= 3)%nat -> Forall (fun ia => (d <= ncols (snd ia))%nat /\ regular (snd ia) /\ (fst ia < 5)%nat) l ->
  exists es, fold_left (fun acc ia => andthen acc (plot_level d (fst ia) (snd ia))) l (acc, None) = ((acc ++ es)%list, None) /\ Forall2 (drawn_level d) l es.
Proof.
  intros H1 F. revert acc. induction F as [|[i a] l (H2 & R & Hi) F IH]; intros acc; [exists []; rewrite app_nil_r; split; [reflexivity|constructor]|].
  cbn [fst snd] in *. destruct (plot_level_ok d i a H1 H2 R Hi) as (cs & E & P). cbn [fold_left fst snd]. rewrite E, andthen_none. cbn [fst snd].
  destruct (IH (acc ++ [Scatter cs (nth i colors "") (nth i markers "") (30 + 10 * Z.of_nat i) (Some i)])%list) as (es & Ef & F2).
  exists (Scatter cs (nth i colors "") (nth i markers "") (30 + 10 * Z.of_nat i) (Some i) :: es). rewrite Ef, <- app_assoc. split; [reflexivity|].
  constructor; [exists cs; easy|exact F2].
Qed.
Lemma enumerate_nth {A} (l : list A) k i a : nth_error (combine (seq k (List.length l)) l) i = Some a -> nth_error l i = Some (snd a) /\ fst a = (k + i)%nat.
Proof.
  revert k i. induction l as [|x l IH]; intros k [|i]; cbn; try discriminate.
  - intros [= <-]. split; [reflexivity|cbn; lia].
  - intros H. apply IH in H. destruct H as [H1 H2]. split; [exact H1|lia].
Qed.
Lemma enumerate_Forall {A} (P : nat * A -> Prop) (l : list A) : (forall i a, nth_error l i = Some a -> P (i, a)) -> Forall P (enumerate l).
Proof.
  intros H. rewrite Forall_forall. intros [i a] Hin. apply In_nth_error in Hin. destruct Hin as [k Hk]. unfold enumerate in Hk. apply enumerate_nth in Hk. cbn [fst snd] in Hk. destruct Hk as [H1 H2].
  replace i with k by lia. now apply H.
Qed.
Lemma enumerate_length {A} (l : list A) : List.length (enumerate l) = List.length l.
Proof. unfold enumerate. rewrite combine_length, seq_length. lia. Qed.
Lemma scatters_all l es d : Forall2 (drawn_level d) l es -> scatters es = es /\ ~ delivered es.
Proof.
  induction 1 as [|ia e l es (cs & -> & _) F [IH1 IH2]]; [split; [reflexivity|]; intros [[]|[f []]]|].
  split; [unfold scatters in *; cbn; now rewrite IH1|]. change (?e :: es) with ([e] ++ es)%list. rewrite delivered_app. intros [H|H]; [|easy].
  destruct H as [H|[g H]]; cbn in H; intuition discriminate.
Qed.
Lemma mf_plot_shape d data save file : (1 <= d <= 3)%nat -> mf_plot d data save file =
  andthen (canvas d) (andthen (fold_left (fun acc ia => andthen acc (plot_level d (fst ia) (snd ia))) (rev (enumerate data)) ([], None)) (finish save file)).
Proof. intros H. destruct d as [|[|[|[|d]]]]; try lia; reflexivity. Qed.
Lemma mf_plot_run d data save file : (1 <= d <= 3)%nat -> (List.length data <= 5)%nat -> Forall (fun a => (d <= ncols a)%nat /\ regular a) data ->
  exists l es, mf_plot d data save file = ((l ++ (if save then [SaveFig file; Close] else [Show]))%list, None) /\ scatters l = es /\ ~ delivered l /\ Forall2 (drawn_level d) (rev (enumerate data)) es.
Proof.
  intros H1 H5 F. rewrite (mf_plot_shape d data save file H1). destruct (canvas_ok d) as (l & El & Sl & Dl). destruct (finish_ok save file) as (f & Ef & _ & _ & If).
  destruct (fold_levels d (rev (enumerate data)) [] H1) as (es & Es & F2).
  { apply Forall_rev. apply enumerate_Forall. intros i a Ha. cbn [fst snd]. assert (Hi : (i < List.length data)%nat) by (apply nth_error_Some; congruence).
    rewrite Forall_forall in F. destruct (F a (nth_error_In _ _ Ha)). repeat split; try easy. lia. }
  destruct (scatters_all _ _ _ F2) as [S1 S2].
  exists (l ++ es)%list, es. rewrite El, Es, Ef. cbn [app]. rewrite !andthen_none. cbn [fst snd]. rewrite app_assoc, If. split; [reflexivity|].
  split; [rewrite scatters_app, Sl; exact S1|]. split; [|exact F2]. rewrite delivered_app. tauto.
Qed.
Lemma Forall2_nth {A B} (P : A -> B -> Prop) l m i a : Forall2 P l m -> nth_error l i = Some a -> exists b, nth_error m i = Some b /\ P a b.
Proof. intros F. revert i. induction F as [|x y l m H F IH]; intros [|i]; cbn; try discriminate; [intros [= <-]; now exists y|apply IH]. Qed.
Lemma Forall2_len {A B} (P : A -> B -> Prop) l m : Forall2 P l m -> List.length l = List.length m.
Proof. induction 1; cbn; congruence. Qed.
Lemma nth_error_rev {A} (l : list A) i : (i < List.length l)%nat -> nth_error (rev l) (List.length l - 1 - i) = nth_error l i.
Proof.
  intros H. destruct l as [|d0 l0] eqn:E; [cbn in H; lia|]. rewrite <- E in *.
  rewrite !(nth_error_nth' _ d0) by (rewrite ?rev_length; lia). f_equal. rewrite rev_nth by lia. f_equal. lia.
Qed.
Lemma nth_error_enum {A} (l : list A) i a : nth_error l i = Some a -> nth_error (enumerate l) i = Some (i, a).
Proof.
  intros H. assert (Hi : (i < List.length (enumerate l))%nat) by (rewrite enumerate_length; apply nth_error_Some; congruence).
  destruct (nth_error (enumerate l) i) as [[k b]|] eqn:E; [|apply nth_error_None in E; lia]. pose proof E as E'. unfold enumerate in E. apply enumerate_nth in E. cbn [fst snd] in E. destruct E as [E1 E2]. repeat f_equal; [lia|congruence].
Qed.
(** every level is drawn once, in full, the levels of lower fidelity first *)
Theorem mf_plot_ok d data save file : (1 <= d <= 3)%nat -> (List.length data <= 5)%nat -> Forall (fun a => (d <= ncols a)%nat /\ regular a) data ->
  exists l, mf_plot d data save file = ((l ++ (if save then [SaveFig file; Close] else [Show]))%list, None) /\ ~ delivered l /\
    List.length (scatters l) = List.length data /\
    forall i a, nth_error data i = Some a -> exists cs c m s,
      nth_error (scatters l) (List.length data - 1 - i) = Some (Scatter cs c m s (Some i)) /\ points cs = map (shown d) (rows a).
Proof.
  intros H1 H5 F. destruct (mf_plot_run d data save file H1 H5 F) as (l & es & E & S & D & F2). exists l. split; [exact E|]. split; [exact D|]. rewrite S.
  split; [rewrite <- (Forall2_len _ _ _ F2), rev_length, enumerate_length; reflexivity|].
  intros i a Ha. assert (Hi : (i < List.length data)%nat) by (apply nth_error_Some; congruence).
  assert (HE : nth_error (rev (enumerate data)) (List.length data - 1 - i) = Some (i, a)).
  { rewrite <- (enumerate_length data) at 1. rewrite nth_error_rev by (now rewrite enumerate_length). now apply nth_error_enum. }
  destruct (Forall2_nth _ _ _ _ _ F2 HE) as (e & He & cs & -> & P). cbn [fst snd] in *. exists cs, (nth i colors ""), (nth i markers ""), (30 + 10 * Z.of_nat i)%Z. split; [exact He|exact P].
Qed.
(** levels can be told apart *)
Theorem mf_plot_distinct d data save file : (1 <= d <= 3)%nat -> (List.length data <= 5)%nat -> Forall (fun a => (d <= ncols a)%nat /\ regular a) data ->
  forall cs c m s i cs' c' m' s' j, In (Scatter cs c m s (Some i)) (fst (mf_plot d data save file)) -> In (Scatter cs' c' m' s' (Some j)) (fst (mf_plot d data save file)) ->
  i <> j -> c <> c' /\ m <> m' /\ s <> s'.
Proof.
  intros H1 H5 F cs c m s i cs' c' m' s' j A B N. destruct (mf_plot_run d data save file H1 H5 F) as (l & es & E & S & D & F2). rewrite E in A, B. cbn [fst] in A, B.
  assert (G : forall q z x t k, In (Scatter q z x t (Some k)) (l ++ (if save then [SaveFig file; Close] else [Show])) -> z = nth k colors ""%string /\ x = nth k markers ""%string /\ t = (30 + 10 * Z.of_nat k)%Z /\ (k < 5)%nat).
  { intros q z x t k H. assert (H' : In (Scatter q z x t (Some k)) es).
    { rewrite <- S. unfold scatters. apply filter_In. split; [|reflexivity]. apply in_app_or in H. destruct H as [H|H]; [exact H|]. destruct save; cbn in H; intuition discriminate. }
    apply In_nth_error in H'. destruct H' as [p Hp]. assert (Hlp : (p < List.length (rev (enumerate data)))%nat) by (rewrite (Forall2_len _ _ _ F2); apply nth_error_Some; congruence).
    destruct (nth_error (rev (enumerate data)) p) as [[k' a]|] eqn:Ep; [|apply nth_error_None in Ep; lia].
    destruct (Forall2_nth _ _ _ _ _ F2 Ep) as (e & He & (q' & Ee & _)). rewrite Hp in He. injection He as <-. injection Ee as -> -> -> -> ->. cbn [fst].
    repeat split; try reflexivity. apply nth_error_In in Ep. apply in_rev in Ep. apply In_nth_error in Ep. destruct Ep as [o Ho]. assert (Hol : (o < List.length (enumerate data))%nat) by (apply nth_error_Some; congruence).
    unfold enumerate in Ho. apply enumerate_nth in Ho. cbn [fst] in Ho. rewrite enumerate_length in Hol. lia. }
  destruct (G _ _ _ _ _ A) as (-> & -> & -> & Hi). destruct (G _ _ _ _ _ B) as (-> & -> & -> & Hj).
  do 5 (destruct i as [|i]; [do 5 (destruct j as [|j]; [first [now destruct N | cbn; repeat split; discriminate]|]); lia|]). lia.
Qed.
(** with more than five levels nothing is drawn *)
Theorem mf_plot_many d data save file : (1 <= d <= 3)%nat -> (5 < List.length data)%nat -> exists l, mf_plot d data save file = (l, Some IndexError) /\ scatters l = [] /\ ~ delivered l.
Proof.
  intros H1 H5. rewrite (mf_plot_shape d data save file H1). destruct (canvas_ok d) as (l & El & Sl & Dl). rewrite El, andthen_none.
  assert (R : exists k a r, rev (enumerate data) = (k, a) :: r /\ (5 <= k)%nat).
  { destruct (nth_error data (List.length data - 1)) as [a|] eqn:E; [|apply nth_error_None in E; lia]. apply nth_error_enum in E.
    pose proof (nth_error_rev (enumerate data) (List.length data - 1)) as N. rewrite enumerate_length in N. specialize (N ltac:(lia)). rewrite E in N. replace (List.length data - 1 - (List.length data - 1))%nat with 0%nat in N by lia.
    destruct (rev (enumerate data)) as [|x r]; [discriminate|]. injection N as ->. do 3 eexists. split; [reflexivity|lia]. }
  destruct R as (k & a & r & -> & Hk). cbn [fold_left fst snd]. rewrite andthen_none. cbn [app fst snd].
  assert (P : exists e, plot_level d k a = ([], Some e) /\ e = IndexError).
  { unfold plot_level. assert (C : get_color k = Raise IndexError) by (unfold get_color; do 5 (destruct k as [|k]; [lia|]); now destruct k).
    destruct (Nat.le_gt_cases d (ncols a)) as [H|H].
    - assert (X : exists cs, coordinates d a = Ok cs).
      { unfold coordinates, column. assert (D : d = 1 \/ d = 2 \/ d = 3) by lia. destruct D as [-> | [-> | ->]]; repeat match goal with |- context [Nat.ltb ?j (ncols a)] => destruct (Nat.ltb_spec j (ncols a)); [|lia] end; cbn [bind]; eexists; reflexivity. }
      destruct X as [cs ->]. cbn [withr]. rewrite C. now exists IndexError.
    - rewrite (coordinates_short d a H1 H). now exists IndexError. }
  destruct P as (e & -> & ->). cbn [fst snd].
  assert (Z : forall q, fold_left (fun acc ia => andthen acc (plot_level d (fst ia) (snd ia))) q ([], Some IndexError) = ([], Some IndexError)) by (induction q; cbn; auto).
  rewrite Z. cbn [andthen fst snd]. rewrite app_nil_r. exists l. easy.
Qed.
(** a plot is shown or written exactly when the call returns *)
Theorem plot_delivered : (forall d a save file, delivered (fst (sf_plot d a save file)) <-> snd (sf_plot d a save file) = None) /\
  forall d data save file, delivered (fst (mf_plot d data save file)) <-> snd (mf_plot d data save file) = None.
Proof.
  assert (N : ~ delivered []) by (intros [[]|[f []]]).
  assert (A : forall x y : drawing, ~ delivered (fst x) -> (delivered (fst y) <-> snd y = None) -> (delivered (fst (andthen x y)) <-> snd (andthen x y) = None)).
  { intros [l [e|]] [m o] Hx Hy; cbn [andthen fst snd] in *; [split; [easy|discriminate]|]. rewrite delivered_app. tauto. }
  assert (Fi : forall save file, delivered (fst (finish save file)) <-> snd (finish save file) = None).
  { intros save file. destruct (finish_ok save file) as (f & -> & _ & D & _). cbn. tauto. }
  assert (Ca : forall d, ~ delivered (fst (canvas d))) by (intros d; destruct (canvas_ok d) as (l & -> & _ & D); exact D).
  assert (Bad : delivered [] <-> Some ValueError = None) by (split; [easy|discriminate]).
  assert (Sc : forall cs c m s k, ~ delivered [Scatter cs c m s k]) by (intros cs c m s k [H|[f H]]; cbn in H; intuition discriminate).
  split.
  - intros d a save file. assert (D : ~ (1 <= d <= 3)%nat \/ d = 1 \/ d = 2 \/ d = 3) by lia. destruct D as [D|D]; [rewrite (proj1 (plot_dims d D)); exact Bad|].
    assert (B : forall d0, ~ delivered (fst (withr (coordinates d0 a) (fun cs => emit (Scatter cs "#EE7733" "*" 50 None))))) by (intros d0; destruct (coordinates d0 a); cbn; [apply Sc|exact N]).
    destruct D as [-> | [-> | ->]]; cbn [sf_plot]; (apply A; [apply Ca|]); apply A; auto.
  - intros d data save file. assert (D : ~ (1 <= d <= 3)%nat \/ (1 <= d <= 3)%nat) by lia. destruct D as [D|D]; [rewrite (proj2 (plot_dims d D)); exact Bad|].
    rewrite (mf_plot_shape d data save file D). apply A; [apply Ca|]. apply A; [|apply Fi].
    assert (G : forall l (acc : drawing), ~ delivered (fst acc) -> ~ delivered (fst (fold_left (fun acc ia => andthen acc (plot_level d (fst ia) (snd ia))) l acc))).
    { induction l as [|[k a] l IH]; intros acc Hacc; [exact Hacc|]. cbn [fold_left fst snd]. apply IH. destruct acc as [la [e|]]; cbn [andthen fst snd] in *; [exact Hacc|]. rewrite delivered_app. intros [H|H]; [easy|].
      unfold plot_level, withr in H. destruct (coordinates d a); [destruct (get_color k); [destruct (get_marker k)|]|]; cbn in H; try now apply N. now apply Sc in H. }
    apply G. exact N.
Qed.

(** ** kronDelta *)
Local Open Scope R_scope.
Definition sqsum (x y : list R) : R := fold_right Rplus 0 (map2 (fun a b => (a - b) ^ 2) x y).
Lemma sqsum_ge0 x y : 0 <= sqsum x y.
Proof. revert y. induction x as [|a x IH]; intros [|b y]; try (cbn; lra). unfold sqsum in *. cbn [map2 fold_right]. specialize (IH y). pose proof (pow2_ge_0 (a - b)). lra. Qed.
Lemma sqsum_sym x y : sqsum x y = sqsum y x.
Proof. revert y. induction x as [|a x IH]; intros [|b y]; try easy. unfold sqsum in *. cbn [map2 fold_right]. rewrite IH. ring. Qed.
Lemma sqsum_self x : sqsum x x = 0.
Proof. unfold sqsum. induction x as [|a x IH]; cbn [map2 fold_right]; [easy|]. rewrite IH. ring. Qed.
Lemma sqsum_coord x y k : List.length x = List.length y -> (k < List.length x)%nat -> (nth k x 0 - nth k y 0) ^ 2 <= sqsum x y.
Proof.
  revert y k. induction x as [|a x IH]; intros [|b y] k L H; cbn in L, H; try lia. destruct k as [|k]; cbn [nth].
  - cbn [map2 sqsum fold_right]. unfold sqsum. cbn [map2 fold_right]. pose proof (sqsum_ge0 x y) as P. unfold sqsum in P. lra.
  - unfold sqsum. cbn [map2 fold_right]. specialize (IH y k ltac:(lia) ltac:(lia)). unfold sqsum in IH. pose proof (pow2_ge_0 (a - b)). lra.
Qed.
Lemma eps32_pos : 0 < / 2 ^ 23.
Proof. apply Rinv_0_lt_compat, pow_lt. lra. Qed.
Lemma kron_true x y : kron_delta x y = true <-> euclidean x y < / 2 ^ 23.
Proof. unfold kron_delta. destruct (Rlt_dec _ _); split; easy. Qed.
Theorem kron_refl_sym : (forall x, kron_delta x x = true) /\ forall x y, kron_delta x y = kron_delta y x.
Proof.
  split.
  - intros x. apply kron_true. unfold euclidean. fold (sqsum x x). rewrite sqsum_self, sqrt_0. apply eps32_pos.
  - intros x y. unfold kron_delta, euclidean. fold (sqsum x y) (sqsum y x). now rewrite sqsum_sym.
Qed.
Theorem kron_close x y k : List.length x = List.length y -> (k < List.length x)%nat -> kron_delta x y = true -> Rabs (nth k x 0 - nth k y 0) < / 2 ^ 23.
Proof.
  intros L H T. apply kron_true in T. apply Rle_lt_trans with (2 := T). unfold euclidean. fold (sqsum x y).
  rewrite <- sqrt_Rsqr_abs. apply sqrt_le_1_alt. unfold Rsqr. pose proof (sqsum_coord x y k L H). lra.
Qed.
Theorem kron_separated x y : List.length x = List.length y -> (forall k, (k < List.length x)%nat -> nth k x 0 = nth k y 0 \/ / 2 ^ 23 <= Rabs (nth k x 0 - nth k y 0)) ->
  (kron_delta x y = true <-> x = y).
Proof.
  intros L S. split; [|intros <-; apply kron_refl_sym]. intros T. apply nth_ext with (d := 0) (d' := 0); [exact L|]. intros k Hk.
  destruct (S k Hk) as [E|E]; [exact E|]. pose proof (kron_close x y k L Hk T). lra.
Qed.
Theorem kron_not_transitive : exists x y z, kron_delta x y = true /\ kron_delta y z = true /\ kron_delta x z = false.
Proof.
  exists [0], [3 / 4 * / 2 ^ 23], [3 / 2 * / 2 ^ 23]. pose proof eps32_pos as P. set (e := / 2 ^ 23) in *.
  assert (E : forall a b, euclidean [a] [b] = Rabs (a - b)).
  { intros a b. unfold euclidean. cbn [map2 fold_right]. rewrite <- sqrt_Rsqr_abs. f_equal. unfold Rsqr. ring. }
  repeat split.
  - apply kron_true. rewrite E. fold e. rewrite Rabs_left by lra. lra.
  - apply kron_true. rewrite E. fold e. rewrite Rabs_left by lra. lra.
  - apply not_true_is_false. intros T. apply kron_true in T. rewrite E in T. fold e in T. rewrite Rabs_left in T by lra. lra.
Qed.
