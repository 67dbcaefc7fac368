(** The statements about test problems, over their declared attributes. *)
From Coq Require Import Reals List ZArith Lra Lia Psatz.
From Flocq Require Import Core.
From Verif Require Import Fl Samplers Problems ProblemsSpec ProblemsFacts ProblemsMore ProblemsNum.
Import ListNotations.
Local Open Scope R_scope.

Lemma goldprice_c61 x1 x2 :
  goldprice_optimum <= goldprice x1 x2 /\ (goldprice x1 x2 = goldprice_optimum <-> x1 = 0 /\ x2 = -1).
Proof. exact (goldprice_min x1 x2). Qed.

(** ** Ackley, Thevenot: what a construction declares *)
Lemma construct_ok P f bound d (p : P) c : (0 <= d)%Z ->
  construct f bound d p c =
  let n := Z.to_nat d in let o := Instance p n (repeat (- bound, bound) n) in
  (Class (Some (Attributes n (repeat (- bound, bound) n) (f p (repeat 0 n)) (repeat 0 n))) (cl_objects c ++ [o]), Ok o).
Proof. intros D. unfold construct. destruct (Z.ltb_spec d 0); [lia|easy]. Qed.
Lemma construct_negative P f bound d (p : P) c : (d < 0)%Z -> construct f bound d p c = (c, Raise AssertionError).
Proof. intros D. unfold construct. destruct (Z.ltb_spec d 0); [easy|lia]. Qed.
Lemma ackley_c62 d a b c cl : (0 < d)%Z ->
  exists cl' o, ackley_construct d (a, b, c) cl = (cl', Ok o) /\ get_optimum cl' o = Some (Some 0) /\ get_scheme cl' o = Some (repeat 0 (Z.to_nat d)).
Proof.
  intros D. unfold ackley_construct. rewrite construct_ok by lia. cbv zeta. eexists; eexists. split; [reflexivity|].
  unfold get_optimum, get_scheme. cbn [cl_attr option_map at_optimum at_scheme fst snd]. rewrite ackley_zero by lia. easy.
Qed.
Lemma ackley_c62_zero a b c cl :
  exists cl' o, ackley_construct 0 (a, b, c) cl = (cl', Ok o) /\ get_optimum cl' o = Some None.
Proof. unfold ackley_construct. rewrite construct_ok by lia. eexists; eexists. split; reflexivity. Qed.
Lemma thevenot_c64 d m beta cl : (0 < d)%Z -> (1 <= m)%nat ->
  exists cl' o, thevenot_construct d (m, beta) cl = (cl', Ok o) /\ get_optimum cl' o = Some (Some (-1)) /\
    get_domain cl' o = Some (repeat (- (2 * PI), 2 * PI) (Z.to_nat d)).
Proof.
  intros D M. unfold thevenot_construct. rewrite construct_ok by lia. cbv zeta. eexists; eexists. split; [reflexivity|].
  unfold get_optimum, get_domain. cbn [cl_attr option_map at_optimum at_domain fst snd]. rewrite thevenot_zero by lia. easy.
Qed.
Lemma in_box_zeros n b : 0 <= b -> in_box (repeat (- b, b) n) (repeat 0 n).
Proof. intros B. induction n as [|n IH]; simpl; constructor; [simpl; lra|exact IH]. Qed.
Lemma thevenot_c64_beaten m beta n : (2 <= n)%nat -> (1 <= m)%nat -> beta <> 0 ->
  exists x, in_box (repeat (- (2 * PI), 2 * PI) n) x /\ thevenot m beta x < thevenot m beta (repeat 0 n).
Proof.
  intros N M B. destruct n as [|[|n]]; try lia. exists (PI :: repeat 0 (S n)). pose proof PI_RGT_0 as P. split.
  - change (repeat (- (2 * PI), 2 * PI) (S (S n))) with ((- (2 * PI), 2 * PI) :: repeat (- (2 * PI), 2 * PI) (S n)).
    constructor; [cbn [fst snd]; lra|]. apply in_box_zeros. lra.
  - rewrite thevenot_zero by lia. now apply thevenot_beaten.
Qed.

(** ** class attributes after any sequence of constructions *)
Lemma last_valid_some P (calls : list (Z * P)) : valid_calls calls <> [] -> exists d p, last_valid calls = Some (d, p).
Proof.
  intros H. destruct (valid_calls calls) as [|c l] eqn:E; [easy|].
  assert (I : In c (valid_calls calls)) by (rewrite E; now left).
  unfold valid_calls in I. apply filter_In in I. destruct I as [I V].
  destruct (last_valid calls) as [[d p]|] eqn:L; [now exists d, p|].
  unfold last_valid in L. apply in_rev in I. pose proof (find_none _ _ L _ I) as N. cbv beta in N. congruence.
Qed.
Lemma class_c71 P (f : P -> list R -> option R) bound calls (o : instance P) :
  let cl := constructs (construct f bound) calls (Class None []) in
  In o (cl_objects cl) ->
  exists d p, last_valid calls = Some (d, p) /\ let n := Z.to_nat d in
    get_dimension cl o = Some n /\ get_domain cl o = Some (repeat (- bound, bound) n) /\
    get_optimum cl o = Some (f p (repeat 0 n)) /\ get_scheme cl o = Some (repeat 0 n).
Proof.
  intros cl I. unfold cl in *. rewrite constructs_objects in I. cbn [cl_objects app] in I.
  destruct (last_valid_some P calls) as [d [p L]].
  { intros E. rewrite E in I. destruct I. }
  exists d, p. split; [exact L|]. unfold get_dimension, get_domain, get_optimum, get_scheme. rewrite constructs_attr, L. easy.
Qed.
Lemma class_c71_own P (f : P -> list R -> option R) bound calls :
  cl_objects (constructs (construct f bound) calls (Class None [])) =
  map (fun c => Instance (snd c) (Z.to_nat (fst c)) (repeat (- bound, bound) (Z.to_nat (fst c)))) (valid_calls calls).
Proof. rewrite constructs_objects. easy. Qed.
Lemma class_c71_two d1 d2 (p1 p2 : R * R * R) : (0 <= d1)%Z -> (0 <= d2)%Z -> d1 <> d2 ->
  exists o1 o2, let cl := constructs ackley_construct [(d1, p1); (d2, p2)] (Class None []) in
    cl_objects cl = [o1; o2] /\ in_dim o1 = Z.to_nat d1 /\ get_dimension cl o1 = Some (in_dim o2) /\ in_dim o1 <> in_dim o2.
Proof.
  intros D1 D2 D. eexists; eexists. cbv zeta. unfold ackley_construct. cbn [constructs]. rewrite !construct_ok by lia. cbv zeta. cbn [fst cl_objects app].
  split; [reflexivity|]. cbn [in_dim]. split; [easy|]. split; [easy|]. lia.
Qed.

(** ** lower bounds on the declared domains *)
Ltac box := intros; repeat match goal with
  | D : in_box ?d _ |- _ => unfold in_box, d in D; cbn [repeat] in D
  | H : Forall2 _ _ _ |- _ => inversion H; clear H; subst end; cbn [fst snd] in *.
Lemma branin_c63 x1 x2 : in_box branin_domain [x1; x2] ->
  (branin x1 x2 = 5 / (4 * PI) <-> (x1 = - PI /\ x2 = 12.275) \/ (x1 = PI /\ x2 = 2.275) \/ (x1 = 3 * PI /\ x2 = 2.475)).
Proof. box. apply branin_minimisers. lra. Qed.
Lemma branin_c63_inside : Forall (fun p => in_box branin_domain [fst p; snd p]) [(- PI, 12.275); (PI, 2.275); (3 * PI, 2.475)].
Proof.
  pose proof pi_bounds.
  repeat constructor; cbn [fst snd]; lra.
Qed.
Lemma branin_c63_declared : within (/ 10 ^ 6) branin_optimum (5 / (4 * PI)) /\
  Forall (fun p => in_box branin_domain [fst p; snd p] /\ within (/ 10 ^ 6) (branin (fst p) (snd p)) branin_optimum) branin_scheme.
Proof.
  unfold within. destruct branin_declared as [A B]. split; [now rewrite Rabs_minus_sym|].
  apply Forall_forall. intros q Q. split; [|rewrite Forall_forall in B; now apply B].
  pose proof pi_bounds. destruct Q as [<-|[<-|[<-|[]]]]; repeat constructor; cbn [fst snd]; lra.
Qed.
Lemma forrester_c67 : (forall x, in_box forrester_domain [x] -> forrester_optimum - / 10 ^ 6 <= forrester x) /\
  in_box forrester_domain [forrester_scheme] /\ within (/ 10 ^ 6) (forrester forrester_scheme) forrester_optimum.
Proof.
  split; [|split].
  - intros x D. box. pose proof (forrester_lower x ltac:(lra)). unfold forrester_optimum. lra.
  - unfold forrester_scheme. repeat constructor; cbn [fst snd]; lra.
  - exact forrester_declared.
Qed.
Lemma sixhump_c68 x1 x2 : in_box sixhump_domain [x1; x2] \/ in_box mf_sixhump_domain [x1; x2] ->
  sixhump_optimum - / 10 ^ 4 / 2 <= sixhump x1 x2.
Proof.
  intros [D|D]; box; pose proof (sixhump_lower x1 x2 ltac:(lra)); unfold sixhump_optimum; lra.
Qed.
Lemma sixhump_c68_scheme : Forall (fun p => in_box sixhump_domain [fst p; snd p] /\ in_box mf_sixhump_domain [fst p; snd p] /\
  within (/ 10 ^ 4 / 2) (sixhump (fst p) (snd p)) sixhump_optimum) sixhump_scheme.
Proof.
  pose proof sixhump_declared as B. apply Forall_forall. intros q Q. rewrite Forall_forall in B. specialize (B q Q).
  destruct Q as [<-|[<-|[]]]; split; [|split; [|exact B]| |split; [|exact B]]; repeat constructor; cbn [fst snd]; lra.
Qed.
Lemma sasena_c68 : (forall x1 x2, in_box sasena_domain [x1; x2] -> sasena_optimum - 35 / 10 ^ 4 <= sasena x1 x2) /\
  in_box sasena_domain [fst sasena_scheme; snd sasena_scheme] /\
  within (/ 10 ^ 4 / 2) (sasena (fst sasena_scheme) (snd sasena_scheme)) sasena_optimum.
Proof.
  split; [|split].
  - intros x1 x2 D. box. pose proof (sasena_lower x1 x2 ltac:(lra) ltac:(lra)). unfold sasena_optimum. lra.
  - unfold sasena_scheme. repeat constructor; cbn [fst snd]; lra.
  - exact sasena_declared.
Qed.
Lemma hartman3_c69 x1 x2 x3 : in_box hartman3_domain [x1; x2; x3] -> hartman3_optimum - 2 / 100 <= hartman3 [x1; x2; x3].
Proof. box. pose proof (hartman3_lower x1 x2 x3 ltac:(lra) ltac:(lra)). unfold hartman3_optimum. lra. Qed.
Lemma hartman3_c69_scheme : in_box hartman3_domain hartman3_scheme /\
  hartman3_optimum + / 10 ^ 4 <= hartman3 hartman3_scheme <= hartman3_optimum + 1.5 / 10 ^ 4 /\
  exists x, in_box hartman3_domain x /\ hartman3 x < hartman3 hartman3_scheme /\ within (/ 10 ^ 6) (hartman3 x) hartman3_optimum.
Proof.
  destruct hartman3_declared as [A B]. split; [unfold hartman3_scheme; repeat constructor; cbn [fst snd]; lra|]. split; [lra|].
  exists [0.114614; 0.555649; 0.852547]. split; [repeat constructor; cbn [fst snd]; lra|]. split; [|exact B].
  assert (P : / 10 ^ 6 < / 10 ^ 4) by (simpl; lra). apply Rabs_le_inv in B. lra.
Qed.
Lemma hartman6_c69_scheme : in_box hartman6_domain hartman6_scheme /\
  exists v, hartman6 hartman6_scheme = Some v /\ within (/ 10 ^ 6) v hartman6_optimum.
Proof. split; [unfold hartman6_scheme; repeat constructor; cbn [fst snd]; lra|exact hartman6_declared]. Qed.

(** ** constrained Branin *)
Lemma branin1_c72 : (forall u v, in_box branin_cons_domain [u; v] -> branin1_constraint u v <= 0 -> branin1_optimum - / 10 ^ 4 <= branin_cons u v) /\
  in_box branin_cons_domain [fst branin1_scheme; snd branin1_scheme] /\
  branin1_constraint (fst branin1_scheme) (snd branin1_scheme) <= 0 /\
  within (/ 10 ^ 4) (branin_cons (fst branin1_scheme) (snd branin1_scheme)) branin1_optimum.
Proof.
  destruct branin1_declared as [A B]. split; [|split; [|split; assumption]].
  - intros u v D C. box. pose proof (branin1_lower u v ltac:(lra) ltac:(lra) C). unfold branin1_optimum. lra.
  - unfold branin1_scheme. repeat constructor; cbn [fst snd]; lra.
Qed.
Lemma branin2_c72 : in_box branin_cons_domain [fst branin2_scheme; snd branin2_scheme] /\
  0 < branin2_constraint (fst branin2_scheme) (snd branin2_scheme) /\
  branin2_optimum - 46 / 1000 < branin_cons (fst branin2_scheme) (snd branin2_scheme) < branin2_optimum - 45 / 1000 /\
  (forall u v, in_box branin_cons_domain [u; v] -> branin2_constraint u v <= 0 ->
     branin_cons (fst branin2_scheme) (snd branin2_scheme) < branin_cons u v /\ branin2_optimum - 41 / 1000 <= branin_cons u v) /\
  exists u v, in_box branin_cons_domain [u; v] /\ branin2_constraint u v <= 0 /\ branin_cons u v <= branin2_optimum + 1 / 100.
Proof.
  destruct branin2_declared as [A B].
  split; [unfold branin2_scheme; repeat constructor; cbn [fst snd]; lra|]. split; [lra|]. split; [lra|]. split.
  - intros u v D C. box. pose proof (branin2_lower u v ltac:(lra) ltac:(lra) C). unfold branin2_optimum in *. lra.
  - exists 0.94125, 0.318. destruct branin2_feasible as [F G]. split; [repeat constructor; cbn [fst snd]; lra|]. split; [exact F|].
    unfold branin2_optimum. lra.
Qed.
Lemma branin_c72 u v : 5 / (4 * PI) + 5 * u <= branin_cons u v.
Proof. exact (branin_cons_min u v). Qed.
(** ** cost ratio *)
Lemma cost_ratio_c92_cheap a b : 0 <= a -> 0 < b -> a <= b / 2 -> cost_ratio a b = Ok 0%Z.
Proof.
  intros A B H. destruct (cost_ratio_spec a b ltac:(lra)) as [k [E [D T]]]. rewrite E. f_equal.
  assert (Q0 : 0 <= a / b) by (apply Rmult_le_pos; [easy|left; now apply Rinv_0_lt_compat]).
  assert (Q1 : a / b <= 1 / 2).
  { apply Rmult_le_reg_r with b; [easy|]. unfold Rdiv at 1. rewrite Rmult_assoc, Rinv_l by lra. lra. }
  apply Rabs_le_inv in D as D'.
  assert (K : (k = 0 \/ k = 1)%Z).
  { assert (-1 < IZR k) by lra. assert (IZR k < 2) by lra. apply lt_IZR in H0. apply lt_IZR in H1. lia. }
  destruct K as [->| ->]; [easy|]. exfalso.
  assert (F : Rabs (1 - a / b) = / 2) by (rewrite Rabs_pos_eq; lra).
  apply T in F. destruct F as [j J]. lia.
Qed.
Lemma cost_ratio_c92_default : cost_ratio 1 0.2 = Ok 5%Z /\ cost_ratio 1 0.1 = Ok 10%Z.
Proof.
  split; unfold cost_ratio; destruct (Req_EM_T _ 0) as [Z|_]; try lra; apply f_equal.
  - replace (1 / 0.2) with (IZR 5) by lra. apply (Zrnd_IZR ZnearestE).
  - replace (1 / 0.1) with (IZR 10) by lra. apply (Zrnd_IZR ZnearestE).
Qed.
Lemma cost_ratio_c92_zero a : cost_ratio a 0 = Raise ZeroDivisionError.
Proof. unfold cost_ratio. now destruct (Req_EM_T 0 0). Qed.
Lemma park_b_positive x1 x2 x3 x4 : in_box park_domain [x1; x2; x3; x4] -> 2 / 3 <= park_b_hf x1 x2 x3 x4.
Proof.
  box. unfold park_b_hf. assert (E : 1 <= exp (x1 + x2)).
  { rewrite <- exp_0. apply exp_le_compat. lra. }
  assert (S : sin x3 <= x3). { destruct (Req_dec x3 0) as [Z|Z]; [rewrite Z, sin_0; lra|]. left. apply sin_lt_x. lra. }
  assert (0 <= sin x3). { apply sin_ge_0; [lra|]. pose proof PI2_3_2. lra. }
  nra.
Qed.
Lemma ackley_n2_c65 : exists x1 x2, ackley_n2_optimum = Numbers [x1; x2] /\ ackley_n2_scheme = Number (ackley_n2 x1 x2) /\
  in_box ackley_n2_domain [x1; x2] /\ forall y1 y2, ackley_n2 x1 x2 <= ackley_n2 y1 y2.
Proof.
  exists 0, 0. assert (E : ackley_n2 0 0 = -200) by now apply ackley_n2_min.
  split; [reflexivity|]. split; [now rewrite E|]. split; [repeat constructor; cbn [fst snd]; lra|].
  intros y1 y2. rewrite E. apply ackley_n2_min.
Qed.
Lemma inside_c66 : in_box booth_domain [fst booth_scheme; snd booth_scheme] /\
  in_box bohachevsky_domain [fst bohachevsky_scheme; snd bohachevsky_scheme] /\
  in_box himmelblau_domain [3; 2] /\ himmelblau_hf 3 2 = 0.
Proof.
  unfold booth_scheme, bohachevsky_scheme, himmelblau_hf. repeat split; repeat constructor; cbn [fst snd]; lra.
Qed.
Lemma ackley_c71 calls o : let cl := constructs ackley_construct calls (Class None []) in
  In o (cl_objects cl) ->
  exists d a b c, last_valid calls = Some (d, (a, b, c)) /\ let n := Z.to_nat d in
    get_dimension cl o = Some n /\ get_domain cl o = Some (repeat (-32, 32) n) /\
    get_optimum cl o = Some (ackley a b c (repeat 0 n)) /\ get_scheme cl o = Some (repeat 0 n).
Proof.
  intros cl I. destruct (class_c71 _ _ _ calls o I) as [d [[[a b] c] [L H]]]. exists d, a, b, c. split; [exact L|].
  replace (-32) with (- (32)) by lra. exact H.
Qed.
Lemma thevenot_c71 calls o : let cl := constructs thevenot_construct calls (Class None []) in
  In o (cl_objects cl) ->
  exists d m beta, last_valid calls = Some (d, (m, beta)) /\ let n := Z.to_nat d in
    get_dimension cl o = Some n /\ get_domain cl o = Some (repeat (- (2 * PI), 2 * PI) n) /\
    get_optimum cl o = Some (Some (thevenot m beta (repeat 0 n))) /\ get_scheme cl o = Some (repeat 0 n).
Proof.
  intros cl I. destruct (class_c71 _ _ _ calls o I) as [d [[m beta] [L H]]]. exists d, m, beta. split; [exact L|exact H].
Qed.
Lemma own_c71 calls calls' :
  cl_objects (constructs ackley_construct calls (Class None [])) =
    map (fun c => Instance (snd c) (Z.to_nat (fst c)) (repeat (-32, 32) (Z.to_nat (fst c)))) (valid_calls calls) /\
  cl_objects (constructs thevenot_construct calls' (Class None [])) =
    map (fun c => Instance (snd c) (Z.to_nat (fst c)) (repeat (- (2 * PI), 2 * PI) (Z.to_nat (fst c)))) (valid_calls calls').
Proof.
  split; [|apply class_c71_own]. replace (-32) with (- (32)) by lra. apply class_c71_own.
Qed.
Lemma negative_c71 d p q cl cl' : (d < 0)%Z ->
  ackley_construct d p cl = (cl, Raise AssertionError) /\ thevenot_construct d q cl' = (cl', Raise AssertionError).
Proof. intros D. split; now apply construct_negative. Qed.
Lemma park_c93 x1 x2 x3 x4 :
  park_a_lf x1 x2 x3 x4 = option_map (fun h => (1 + sin x1 / 10) * h - 2 * x1 + x2 ^ 2 + x3 ^ 2 + 0.5) (park_a_hf x1 x2 x3 x4) /\
  (park_b_lf x1 x2 x3 x4 < park_b_hf x1 x2 x3 x4 <-> park_b_hf x1 x2 x3 x4 < 5).
Proof. split; [apply park_a_fidelity|]. unfold park_b_lf. lra. Qed.
Lemma mfarray_c73 A (d : list (list A)) : mfarray_size d = map (@length A) d /\ mfarray_n_levels d = length d /\
  mfarray_hf d = match d with [] => Raise IndexError | h :: _ => Ok h end.
Proof. destruct (mfarray_size_spec A d) as [E N]. split; [exact E|]. split; [exact N|]. now destruct d. Qed.
