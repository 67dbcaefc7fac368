(** Facts about the NumPy-style list helpers. *)
From Coq Require Import ZArith Bool List Lia.
From Verif Require Import Fl FlFacts NpList.
Import ListNotations.

Lemma map2_length {A B C} (f : A -> B -> C) l m : length (map2 f l m) = Nat.min (length l) (length m).
Proof. revert m. induction l; destruct m; simpl; auto. Qed.

Lemma map2_nth {A B C} (f : A -> B -> C) l m i da db dc : i < length l -> i < length m ->
  nth i (map2 f l m) dc = f (nth i l da) (nth i m db).
Proof.
  revert m i. induction l; destruct m; simpl; intros; try lia. destruct i; auto. apply IHl; lia.
Qed.

Lemma upd_length {A} i (v : A) l : length (upd i v l) = length l.
Proof. revert i. induction l; destruct i; simpl; auto. Qed.

Lemma nth_upd_same {A} i (v : A) l d : i < length l -> nth i (upd i v l) d = v.
Proof. revert i. induction l; destruct i; simpl; intros; try lia; auto. apply IHl. lia. Qed.

Lemma nth_upd_other {A} i j (v : A) l d : i <> j -> nth j (upd i v l) d = nth j l d.
Proof. revert i j. induction l; destruct i, j; simpl; intros; try lia; auto. Qed.

Lemma nth_error_upd {A} i j (v : A) l :
  nth_error (upd i v l) j = if Nat.eqb i j then (if Nat.ltb i (length l) then Some v else None) else nth_error l j.
Proof.
  revert i j. induction l; destruct i, j; simpl; auto.
  - destruct (Nat.eqb i j); auto.
  - rewrite IHl. reflexivity.
Qed.

Lemma argmin_from_spec l : forall pre bi best,
  bi < length pre -> nth bi pre f0 = best ->
  (forall j, j < length pre -> isnan (nth j pre f0) = false -> isnan best = false -> fle best (nth j pre f0) = true) ->
  (isnan best = false -> forall x, In x pre -> isnan x = false) ->
  (forall j, j < bi -> isnan (nth j pre f0) = false /\ (isnan best = false -> flt best (nth j pre f0) = true)) ->
  let i := argmin_from (length pre) bi best l in
  let r := nth i (pre ++ l) f0 in
  i < length (pre ++ l) /\
  (isnan r = false -> forall x, In x (pre ++ l) -> isnan x = false /\ fle r x = true) /\
  (forall j, j < i -> isnan (nth j (pre ++ l) f0) = false /\ (isnan r = false -> flt r (nth j (pre++l) f0) = true)).
Proof.
  induction l as [|x l IH]; intros pre bi best Hb Hn Hle Hnn Hfst; simpl.
  - rewrite app_nil_r, Hn. split; [exact Hb|]. split; [|exact Hfst].
    intros N y Hy. assert (isnan y = false) by (apply Hnn; auto). split; [assumption|].
    destruct (In_nth _ _ f0 Hy) as (j & Hj & E). rewrite <- E in *. apply Hle; auto.
  - replace (pre ++ x :: l) with ((pre ++ [x]) ++ l) by (now rewrite <- app_assoc).
    replace (S (length pre)) with (length (pre ++ [x])) by (rewrite app_length; simpl; lia).
    destruct (isnan best) eqn:Nb.
    + cbv zeta.
      assert (E : nth bi ((pre ++ [x]) ++ l) f0 = best) by (rewrite <- app_assoc, app_nth1; auto).
      rewrite E. split; [rewrite !app_length; lia|]. split; [congruence|].
      intros j Hj. split; [|congruence]. rewrite <- app_assoc, app_nth1 by lia. now apply Hfst.
    + assert (Ha : forall j, j < length pre -> nth j (pre ++ [x]) f0 = nth j pre f0) by (intros; now rewrite app_nth1).
      assert (Hx : nth (length pre) (pre ++ [x]) f0 = x) by (rewrite app_nth2, Nat.sub_diag; auto).
      assert (Hl : length (pre ++ [x]) = S (length pre)) by (rewrite app_length; simpl; lia).
      destruct (isnan x || flt x best) eqn:C.
      * apply IH; auto.
        -- rewrite Hl; lia.
        -- intros j Hj Nj Nx. rewrite Hl in Hj. destruct (Nat.eq_dec j (length pre)) as [->|].
           ++ rewrite Hx. now apply fle_refl.
           ++ rewrite Ha in * by lia. rewrite Nx in C. simpl in C.
              eapply fle_trans; [apply flt_fle; exact C|]. apply Hle; auto; lia.
        -- intros Nx y Hy. apply in_app_or in Hy as [Hy|[<-|[]]]; auto.
        -- intros j Hj. rewrite Ha by lia. split.
           ++ apply Hnn; auto. apply nth_In; lia.
           ++ intros Nx. rewrite Nx in C. simpl in C.
              eapply flt_fle_trans; [exact C|]. apply Hle; auto; try lia. apply Hnn; auto. apply nth_In; lia.
      * apply orb_false_elim in C as [Nx C]. apply IH; auto.
        -- rewrite Hl; lia.
        -- rewrite Ha; auto.
        -- intros j Hj Nj _. rewrite Hl in Hj. destruct (Nat.eq_dec j (length pre)) as [->|].
           ++ rewrite Hx. now apply flt_false.
           ++ rewrite Ha in * by lia. apply Hle; auto; lia.
        -- intros _ y Hy. apply in_app_or in Hy as [Hy|[<-|[]]]; auto.
        -- intros j Hj. rewrite Ha by lia. destruct (Hfst j Hj). auto.
Qed.

Lemma np_argmin_spec l i : np_argmin l = Ok i ->
  i < length l /\
  (isnan (nth i l f0) = false -> forall x, In x l -> isnan x = false /\ fle (nth i l f0) x = true) /\
  (forall j, j < i -> isnan (nth j l f0) = false /\ (isnan (nth i l f0) = false -> flt (nth i l f0) (nth j l f0) = true)).
Proof.
  destruct l as [|x l]; simpl np_argmin; [discriminate|]. intros [= <-].
  apply (argmin_from_spec l [x] 0 x); simpl; auto.
  - intros j Hj. replace j with 0 by lia. intros. now apply fle_refl.
  - intros N y [<-|[]]; auto.
  - intros; lia.
Qed.

Lemma np_argmin_ok l : l <> [] -> exists i, np_argmin l = Ok i.
Proof. destruct l; [congruence|]. simpl. eauto. Qed.

Lemma np_min_spec l v : np_min l = Ok v ->
  In v l /\ (isnan v = false -> forall x, In x l -> isnan x = false /\ fle v x = true).
Proof.
  unfold np_min. destruct (np_argmin l) as [i|] eqn:E; simpl; [|discriminate].
  intros [= <-]. destruct (np_argmin_spec l i E) as (A & B & C). split; auto. now apply nth_In.
Qed.

Lemma np_min_argmin l v : np_min l = Ok v -> exists i, np_argmin l = Ok i /\ i < length l /\ nth i l f0 = v.
Proof.
  unfold np_min. destruct (np_argmin l) as [i|] eqn:E; simpl; [|discriminate].
  intros [= <-]. destruct (np_argmin_spec l i E) as (A & _). eauto.
Qed.

Lemma np_min_nan l v : np_min l = Ok v -> (exists x, In x l /\ isnan x = true) -> isnan v = true.
Proof.
  intros H (x & Hx & Nx). destruct (np_min_spec l v H) as [_ B].
  destruct (isnan v) eqn:E; auto. destruct (B eq_refl x Hx). congruence.
Qed.

Lemma np_min_nonan l v : np_min l = Ok v -> (forall x, In x l -> isnan x = false) -> isnan v = false.
Proof. intros H A. apply A. now apply np_min_spec in H. Qed.

Lemma np_min_ok l : l <> [] -> exists v, np_min l = Ok v.
Proof. intros H. unfold np_min. destruct (np_argmin_ok l H) as [i ->]. simpl. eauto. Qed.
