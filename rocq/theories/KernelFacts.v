(** Facts about the RBF kernel and the bases. *)
From Coq Require Import Reals Lra.
From Verif Require Import Fl.
From mathcomp Require Import all_ssreflect all_algebra.
From Verif Require Import RStruct LinAlg LinSpec LinAlgFacts Kernel.
Set Implicit Arguments.
Unset Strict Implicit.
Unset Printing Implicit Defensive.
Import GRing.Theory.
Local Open Scope ring_scope.

Lemma RplusE x y : Rplus x y = x + y. Proof. by []. Qed.
Lemma RmultE x y : Rmult x y = x * y. Proof. by []. Qed.
Lemma RoppE x : Ropp x = - x. Proof. by []. Qed.
Lemma RminusE x y : Rminus x y = x - y. Proof. by []. Qed.

Lemma powE (x : R) i : pow x i = x ^+ i.
Proof. elim: i => [|i IH] //=; by rewrite exprS IH. Qed.
(** go to the operations of the standard library, for [ring], [lra] *)
Ltac toR := rewrite -?powE -?RmultE -?RminusE -?RplusE -?RoppE /=;
  repeat match goal with
  | |- context [GRing.one ?r] => change (GRing.one r) with R1
  | |- context [GRing.zero ?r] => change (GRing.zero r) with R0
  end;
  match goal with |- @eq _ ?x ?y => change (@eq R x y) | _ => idtac end.

(** ** positive semidefiniteness of exp of a Gram matrix *)
Section Gram.
Variables (n d : nat) (a : 'I_n -> 'I_d -> R).
Definition gram i j : R := \sum_k a i k * a j k.
Definition dsum (f : 'I_n -> 'I_n -> R) (c : 'I_n -> R) : R := \sum_i \sum_j c i * c j * f i j.

Lemma dsum1 c : dsum (fun _ _ => 1) c = (\sum_i c i) * (\sum_i c i).
Proof.
rewrite /dsum mulr_suml; apply: eq_bigr => i _. rewrite mulr_sumr. by apply: eq_bigr => j _; rewrite mulr1.
Qed.
Lemma gram_pow_ge0 t c : (0 <= dsum (fun i j => gram i j ^+ t) c)%Re.
Proof.
elim: t c => [|t IH] c; first by rewrite /= dsum1; exact: Rle_0_sqr.
have -> : dsum (fun i j => gram i j ^+ t.+1) c =
          \sum_k dsum (fun i j => gram i j ^+ t) (fun i => c i * a i k).
  rewrite /dsum exchange_big /=. apply/esym.
  rewrite exchange_big /= [RHS]exchange_big /=; apply: eq_bigr => i _.
  rewrite exchange_big /=; apply: eq_bigr => j _.
  rewrite exprS {1}/gram mulr_suml mulr_sumr; apply: eq_bigr => k _.
  rewrite !mulrA; congr (_ * _). by rewrite -!mulrA; congr (_ * _); rewrite mulrCA.
by apply: sumR_ge0 => k; exact: IH.
Qed.

(** convergence of finite sums *)
Lemma cv_sum (I : finType) (u : I -> nat -> R) (l : I -> R) :
  (forall i, Un_cv (u i) (l i)) -> Un_cv (fun N => \sum_i u i N) (\sum_i l i).
Proof.
move=> H. rewrite /index_enum; elim: (locked_with _ _) => [|i s IH].
  rewrite big_nil => e He; exists O => k _. by rewrite big_nil /R_dist Rminus_diag_eq // Rabs_R0.
rewrite big_cons => e He.
have [N HN] := CV_plus _ _ _ _ (H i) IH e He.
exists N => k Hk. rewrite big_cons. exact: HN.
Qed.
Lemma cv_scal c u l : Un_cv u l -> Un_cv (fun N => c * u N) (c * l).
Proof.
move=> H. apply: (CV_mult (fun _ => c) u) => //. move=> e He; exists O => k _. by rewrite /R_dist Rminus_diag_eq // Rabs_R0.
Qed.
Definition expN (N : nat) (x : R) : R := sum_f_R0 (fun i => (/ INR (Factorial.fact i) * x ^ i)%Re) N.
Lemma expN_cv x : Un_cv (fun N => expN N x) (exp x).
Proof. rewrite /exp; case: (exist_exp x) => l Hl /=. exact: Hl. Qed.
Lemma dsum_expN N c : (0 <= dsum (fun i j => expN N (gram i j)) c)%Re.
Proof.
have D t : dsum (fun i j => (/ INR (Factorial.fact t) * gram i j ^ t)%Re) c =
           Rinv (INR (Factorial.fact t)) * dsum (fun i j => gram i j ^+ t) c.
  rewrite /dsum mulr_sumr; apply: eq_bigr => i _. rewrite mulr_sumr; apply: eq_bigr => j _.
  rewrite RmultE powE mulrCA. by [].
have P t : (0 <= dsum (fun i j => (/ INR (Factorial.fact t) * gram i j ^ t)%Re) c)%Re.
  rewrite D; apply: Rmult_le_pos; last exact: gram_pow_ge0.
  apply: Rlt_le; apply: Rinv_0_lt_compat; exact: INR_fact_lt_0.
elim: N => [|N IH]; first exact: P.
have -> : dsum (fun i j => expN N.+1 (gram i j)) c =
  dsum (fun i j => expN N (gram i j)) c + dsum (fun i j => (/ INR (Factorial.fact N.+1) * gram i j ^ N.+1)%Re) c.
  rewrite /dsum -big_split; apply: eq_bigr => i _ /=. rewrite -big_split; apply: eq_bigr => j _.
  exact: (mulrDr (c i * c j) (expN N (gram i j))).
by apply: Rplus_le_le_0_compat => //; exact: P.
Qed.
Lemma dsum_exp c : (0 <= dsum (fun i j => exp (gram i j)) c)%Re.
Proof.
have H : Un_cv (fun N => dsum (fun i j => expN N (gram i j)) c) (dsum (fun i j => exp (gram i j)) c).
  rewrite /dsum. apply: (cv_sum (u := fun i N => \sum_j c i * c j * expN N (gram i j))) => i.
  apply: (cv_sum (u := fun j N => c i * c j * expN N (gram i j))) => j. apply: cv_scal. exact: expN_cv.
apply: Rnot_lt_le => Hn.
have [N HN] := H (- dsum (fun i j => exp (gram i j)) c)%Re ltac:(lra).
have := HN N (le_n _). have := dsum_expN N c. rewrite /R_dist.
set x := dsum _ c; set y := dsum _ c in Hn * => Hx.
rewrite Rabs_right; lra.
Qed.
End Gram.

(** ** the RBF kernel *)
Lemma pow10_pos d (theta : 'rV[R]_d) : positive_params (pow10 theta).
Proof. by move=> k; rewrite mxE; exact: exp_pos. Qed.

Lemma rbf_distE d (w x y : 'rV[R]_d) : (forall k, (0 <= w 0%R k)%Re) -> rbf_dist w x y = wdist w x y.
Proof.
move=> Hw; rewrite /rbf_dist /wdist.
have -> : \sum_k Rmult (Rmult (sqrt (w 0 k)) (x 0 k)) (Rmult (sqrt (w 0 k)) (y 0 k)) = \sum_k w 0 k * (x 0 k * y 0 k).
  apply: eq_bigr => k _.
  rewrite -[w 0 k in RHS](sqrt_sqrt _ (Hw k)). toR. ring.
rewrite RminusE RplusE RmultE -big_split /= mulr_sumr -sumrB. apply: eq_bigr => k _.
toR. ring.
Qed.
Lemma wdist_ge0 d (w x y : 'rV[R]_d) : (forall k, (0 <= w 0%R k)%Re) -> (0 <= wdist w x y)%Re.
Proof.
move=> Hw; apply: sumR_ge0 => k. apply: Rmult_le_pos => //. rewrite -powE /=. nra.
Qed.
Lemma wdist_sym d (w x y : 'rV[R]_d) : wdist w x y = wdist w y x.
Proof. by apply: eq_bigr => k _; rewrite -[x 0 k - _]opprB sqrrN. Qed.
Lemma wdist_self d (w x : 'rV[R]_d) : wdist w x x = 0.
Proof. by rewrite /wdist big1 // => k _; rewrite subrr expr0n mulr0. Qed.

(** the kernel without jitter *)
Definition kpure d n m (w : 'rV[R]_d) (X : 'M[R]_(n, d)) (Y : 'M[R]_(m, d)) : 'M[R]_(n, m) :=
  \matrix_(i, j) exp (Ropp (wdist w (row i X) (row j Y))).
Lemma kernelE d n m (k : rbf d) (X : 'M[R]_(n, d)) (Y : 'M[R]_(m, d)) : positive_params (rbf_param k) ->
  get_kernel_matrix k X Y = kpure (rbf_param k) X Y + jitter *: eye n m.
Proof.
move=> H; rewrite /get_kernel_matrix /kpure; congr (_ + _); apply/matrixP => i j; rewrite !mxE.
rewrite rbf_distE // => l; apply: Rlt_le; exact: H.
Qed.
Lemma kernel_callE d n m (k : rbf d) (X : 'M[R]_(n, d)) (Y : 'M[R]_(m, d)) theta :
  kernel_call k X Y theta = get_kernel_matrix (set_params k theta) X Y.
Proof. by []. Qed.
Lemma eyeE n : eye n n = 1%:M.
Proof. by apply/matrixP => i j; rewrite !mxE (inj_eq val_inj); case: (i == j). Qed.
Lemma jitter_pos : (0 < jitter)%Re.
Proof. rewrite /jitter. apply: Rinv_0_lt_compat. apply: pow_lt. lra. Qed.

Lemma kpure_sym d n (w : 'rV[R]_d) (X : 'M[R]_(n, d)) : (kpure w X X)^T = kpure w X X.
Proof. by apply/matrixP => i j; rewrite !mxE wdist_sym. Qed.
Lemma kpure_semi d n (w : 'rV[R]_d) (X : 'M[R]_(n, d)) : positive_params w -> possemi (kpure w X X).
Proof.
move=> Hw; split; first exact: kpure_sym.
move=> c.
pose a (i : 'I_n) (k : 'I_d) : R := sqrt 2 * (sqrt (w 0 k) * X i k).
pose e (i : 'I_n) : R := exp (Ropp (\sum_k w 0 k * X i k ^+ 2)).
have -> : qf (kpure w X X) c = dsum (fun i j => exp (gram a i j)) (fun i => c i 0 * e i).
  rewrite /qf mxE /dsum exchange_big /=; apply: eq_bigr => j _.
  rewrite mxE mulr_suml; apply: eq_bigr => i _.
  rewrite !mxE.
  have -> : exp (Ropp (wdist w (row i X) (row j X))) = e i * e j * exp (gram a i j).
    have -> : Ropp (wdist w (row i X) (row j X)) =
       Rplus (Rplus (Ropp (\sum_k w 0 k * X i k ^+ 2)) (Ropp (\sum_k w 0 k * X j k ^+ 2))) (gram a i j).
      rewrite !RoppE !RplusE /wdist /gram -!sumrN -!big_split /=; apply: eq_bigr => k _.
      rewrite !mxE /a. have S := sqrt_sqrt _ (Rlt_le _ _ (Hw k)). have S2 := sqrt_sqrt 2 ltac:(lra).
      move: (w 0 k) (sqrt (w 0 k)) S (sqrt 2) S2 (X i k) (X j k) => wk s S t S2 x y.
      have -> : t * (s * x) * (t * (s * y)) = Rmult (Rmult (Rmult t t) (Rmult s s)) (Rmult x y) by toR; ring.
      rewrite S S2. toR. ring.
    by rewrite !exp_plus.
  toR. ring.
exact: dsum_exp.
Qed.

Lemma kernel_self d n (k : rbf d) (X : 'M[R]_(n, d)) : positive_params (rbf_param k) ->
  get_kernel_matrix k X X = kpure (rbf_param k) X X + jitter%:M.
Proof. by move=> H; rewrite kernelE // eyeE scalemx1. Qed.
Lemma kernel_posdef d n (k : rbf d) (X : 'M[R]_(n, d)) s : positive_params (rbf_param k) -> (0 <= s)%Re ->
  posdef (get_kernel_matrix k X X + s%:M).
Proof.
move=> H Hs; rewrite kernel_self //; apply: pos_add; last exact: semi_scalar.
apply: semi_pos; [exact: kpure_semi|exact: jitter_pos].
Qed.

(** ** bases *)
Lemma upper_pairs_mem d i j : ((i, j) \in upper_pairs d) = (i <= j < d)%N.
Proof.
apply/flatten_mapP/idP.
  case=> i'; rewrite mem_iota add0n => /andP [_ Hi] /mapP [j']; rewrite mem_iota => /andP [H1 H2] [-> ->].
  by rewrite H1 /=; move: H2; rewrite subnKC // ltnW.
case/andP=> H1 H2; exists i; first by rewrite mem_iota /= add0n (leq_ltn_trans H1).
apply/mapP; exists j => //; rewrite mem_iota H1 subnKC //. exact: leq_trans (ltnW H2).
Qed.
Lemma upper_pairs_uniq d : uniq (upper_pairs d).
Proof.
rewrite /upper_pairs; have: uniq (iota 0 d) by exact: iota_uniq.
elim: (iota 0 d) => //= i s IH /andP [Hi Hs]; rewrite cat_uniq IH // andbT map_inj_uniq ?iota_uniq => [|? ? []] //=.
apply/hasPn => -[a b] /flatten_mapP [i' Hi'] /mapP [j' _ [-> _]].
by apply/mapP => -[j'' _ [E _]]; move: Hi; rewrite -E Hi'.
Qed.
Lemma size_upper_pairs d : size (upper_pairs d) = ((d * d.+1) %/ 2)%N.
Proof.
rewrite /upper_pairs size_flatten /shape -map_comp sumnE big_map.
rewrite (eq_bigr (fun i => d - i)%N) => [|i _]; last by rewrite /= size_map size_iota.
have -> : iota 0 d = index_iota 0 d by rewrite /index_iota subn0.
rewrite big_mkord.
have H : forall m, (2 * (\sum_(i < m) (m - i)) = m * m.+1)%N.
  elim=> [|m IHm]; first by rewrite big_ord0.
  rewrite big_ord_recl subn0 mulnDr; under eq_bigr => i _ do rewrite lift0 subSS.
  rewrite IHm. by rewrite -!mulnDl mulnC -[(2 + m)%N]/(m.+2).
by rewrite -H mulKn.
Qed.
Lemma quad_blocks_spec {T} (mul : T -> T -> T) (x0 : T) (x : seq T) :
  quad_blocks mul x = [seq mul (nth x0 x ij.1) (nth x0 x ij.2) | ij <- upper_pairs (size x)].
Proof.
rewrite /upper_pairs map_flatten -map_comp.
elim: x => //= xk x IH; rewrite IH -!map_comp /=; congr (_ :: _ ++ _).
  rewrite (iotaDl 1 0) -map_comp. apply: (@eq_from_nth _ (mul x0 x0)); first by rewrite !size_map size_iota.
  move=> i; rewrite size_map => Hi. rewrite (nth_map x0) // (nth_map 0%N) ?size_iota // nth_iota //.
rewrite (iotaDl 1 0) -map_comp; congr flatten; apply: eq_map => i /=.
rewrite subSS (iotaDl 1 i) -!map_comp. by [].
Qed.
Theorem quadratic_spec {T} (one x0 : T) (mul : T -> T -> T) (x : seq T) :
  size (quadratic_row one mul x) = (((size x + 1) * (size x + 2)) %/ 2)%N /\
  quadratic_row one mul x = one :: x ++ [seq mul (nth x0 x ij.1) (nth x0 x ij.2) | ij <- upper_pairs (size x)].
Proof.
split; last by rewrite /quadratic_row (quad_blocks_spec mul x0).
rewrite /quadratic_row /= size_cat (quad_blocks_spec mul x0) size_map size_upper_pairs.
set d := size x. rewrite addn1 addn2 -addSn.
have -> : (d.+1 * d.+2 = d.+1 * 2 + d * d.+1)%N by rewrite -[in LHS]addn2 mulnDr addnC [(_ * d)%N]mulnC.
by rewrite divnMDl.
Qed.

Lemma size_row_seq d (x : 'rV[R]_d) : size (row_seq x) = d.
Proof. by rewrite size_map size_enum_ord. Qed.
Lemma row_seq_K p (s : seq R) : size s = p -> row_seq (seq_row p s) = s.
Proof.
move=> E; apply: (@eq_from_nth _ 0); first by rewrite size_row_seq.
move=> i; rewrite size_row_seq => Hi. rewrite (nth_map (Ordinal Hi)) ?size_enum_ord //.
by rewrite mxE; congr nth; rewrite nth_enum_ord.
Qed.
Lemma row_regr d p n (phi : 'rV[R]_d -> 'rV[R]_p) (X : 'M[R]_(n, d)) i : row i (regr_matrix phi X) = phi (row i X).
Proof. by apply/matrixP => a b; rewrite !mxE ord1. Qed.
Lemma bases_rows d n (X : 'M[R]_(n, d)) i : let x := row_seq (row i X) in
  row_seq (row i (regr_matrix (@Ordinary d) X)) = [:: 1] /\
  row_seq (row i (regr_matrix (@Linear d) X)) = 1 :: x /\
  row_seq (row i (regr_matrix (@Quadratic d) X)) =
    1 :: x ++ [seq Rmult (nth 0 x ij.1) (nth 0 x ij.2) | ij <- upper_pairs d].
Proof.
move=> x; rewrite !row_regr; split; first by rewrite row_seq_K.
split; first by rewrite row_seq_K //= size_row_seq.
have [S Q] := quadratic_spec 1 0 Rmult x.
rewrite row_seq_K; last by rewrite S size_row_seq.
by rewrite Q size_row_seq.
Qed.
Lemma kernel_entry d n m (theta : 'rV[R]_d) (X : 'M[R]_(n, d)) (Y : 'M[R]_(m, d)) i j :
  get_kernel_matrix (rbf_new theta) X Y i j =
  Rplus (exp (Ropp (\sum_k Rmult (Rpower 10 (theta 0 k)) (Rmult (Rminus (X i k) (Y j k)) (Rminus (X i k) (Y j k))))))
    (if (i : nat) == (j : nat) then Rinv (10 ^ 10) else 0).
Proof.
rewrite kernelE; last exact: pow10_pos. rewrite !mxE /=. rewrite -RplusE; congr Rplus.
  congr (exp (Ropp _)); apply: eq_bigr => k _; rewrite !mxE expr2. by [].
by case: (_ == _); rewrite ?mulr1 ?mulr0.
Qed.
Lemma kernel_correlation d n (theta : 'rV[R]_d) (X : 'M[R]_(n, d)) :
  let K := get_kernel_matrix (rbf_new theta) X X in
  K^T = K /\ (forall i, K i i = Rplus 1 (Rinv (10 ^ 10))) /\ (forall i j, i != j -> (0 < K i j <= 1)%Re).
Proof.
move=> K; split; first by have [] := @kernel_posdef _ _ (rbf_new theta) X R0 (pow10_pos theta) (Rle_refl _); rewrite -scalemx1 scale0r addr0.
have P i j : (0 <= \sum_k Rmult (Rpower 10 (theta 0%R k)) (Rmult (Rminus (X i k) (X j k)) (Rminus (X i k) (X j k))))%Re.
  apply: sumR_ge0 => k; apply: Rmult_le_pos; [apply: Rlt_le; exact: exp_pos|exact: Rle_0_sqr].
split=> [i|i j Hij].
  rewrite /K kernel_entry eqxx; congr Rplus. rewrite big1 ?RoppE ?oppr0 ?exp_0 // => k _. toR; ring.
rewrite /K kernel_entry (inj_eq val_inj) (negbTE Hij) Rplus_0_r; split; first exact: exp_pos.
rewrite -exp_0. have [H|<-] := P i j; last by rewrite Ropp_0; exact: Rle_refl.
apply: Rlt_le; apply: exp_increasing. lra.
Qed.
Lemma kernel_translation d n m (theta c : 'rV[R]_d) (X : 'M[R]_(n, d)) (Y : 'M[R]_(m, d)) :
  get_kernel_matrix (rbf_new theta) (\matrix_(i, k) Rplus (X i k) (c 0 k)) (\matrix_(i, k) Rplus (Y i k) (c 0 k)) =
  get_kernel_matrix (rbf_new theta) X Y.
Proof.
apply/matrixP => i j; rewrite !kernel_entry; congr (Rplus (exp (Ropp _)) _). apply: eq_bigr => k _; rewrite !mxE.
congr Rmult; toR; ring.
Qed.
Lemma kernel_cholesky d n (theta : 'rV[R]_d) (X : 'M[R]_(n, d)) s : (0 <= s)%Re ->
  let A := get_kernel_matrix (rbf_new theta) X X + s%:M in
  posdef A /\ exists L, chol A = Ok L /\ L *m L^T = A /\ is_trig_mx L /\ forall i, (0 < L i i)%Re.
Proof.
move=> Hs A; have PA : posdef A by apply: kernel_posdef => //; exact: pow10_pos.
split=> //; have [L E] := chol_pos PA; exists L; have [H [_ [P T]]] := chol_ok PA.1 E. by [].
Qed.
Lemma pairs_once d : (forall i j, ((i, j) \in upper_pairs d) = (i <= j < d)%N) /\ uniq (upper_pairs d) /\
  (1 + d + size (upper_pairs d) = ((d + 1) * (d + 2)) %/ 2)%N.
Proof.
split; first by move=> i j; exact: upper_pairs_mem. split; first exact: upper_pairs_uniq.
rewrite size_upper_pairs addn1 addn2.
have -> : (d.+1 * d.+2 = d.+1 * 2 + d * d.+1)%N by rewrite -[in LHS]addn2 mulnDr addnC [(_ * d)%N]mulnC.
by rewrite divnMDl.
Qed.
Lemma pairs_sorted d : sorted (fun a b : nat * nat => (a.1 < b.1)%N || ((a.1 == b.1) && (a.2 < b.2)%N)) (upper_pairs d).
Proof.
rewrite sorted_pairwise => [|[a b] [c e] [f g] /= /orP H1 /orP H2]; last first.
  case: H1 => [H1|/andP [/eqP H1 H1']]; case: H2 => [H2|/andP [/eqP H2 H2']].
  - by rewrite (ltn_trans H1 H2).
  - by rewrite -H2 H1.
  - by rewrite H1 H2.
  - by rewrite H1 H2 eqxx (ltn_trans H1' H2') orbT.
rewrite /upper_pairs. have : sorted ltn (iota 0 d) by exact: iota_ltn_sorted.
rewrite sorted_pairwise; last exact: ltn_trans.
elim: (iota 0 d) => //= i s IH /andP [/allP Hi Hs]; rewrite pairwise_cat IH // andbT; apply/andP; split.
  apply/allrelP => -[a b] [c e] /mapP [j _ [-> _]] /flatten_mapP [i' Hi'] /mapP [j' _ [-> _]] /=.
  have -> : (i < i')%N by exact: Hi. by [].
rewrite pairwise_map. have : sorted ltn (iota i (d - i)) by exact: iota_ltn_sorted.
rewrite sorted_pairwise; last exact: ltn_trans. apply: sub_pairwise => a b /= H. by rewrite eqxx H orbT.
Qed.
Lemma kernel_call_history d n m (k : rbf d) (history : seq 'rV[R]_d) (X : 'M[R]_(n, d)) (Y : 'M[R]_(m, d)) (p : 'rV[R]_d) :
  let k' := foldl (@set_params d) k history in
  kernel_call k' X Y p = get_kernel_matrix (set_params k' p) X Y /\
  get_kernel_matrix (set_params k' p) X Y = get_kernel_matrix (rbf_new p) X Y.
Proof. by split. Qed.
Lemma kernel_jitter d n m (theta : 'rV[R]_d) (X : 'M[R]_(n, d)) (Y : 'M[R]_(m, d)) i j i' j' :
  row i X = row i' X -> row j Y = row j' Y -> (i : nat) = j -> (i' : nat) <> j' ->
  get_kernel_matrix (rbf_new theta) X Y i j = Rplus (get_kernel_matrix (rbf_new theta) X Y i' j') (Rinv (10 ^ 10)).
Proof.
move=> /matrixP EX /matrixP EY E N; rewrite !kernel_entry E eqxx. move/eqP/negbTE: N => ->; rewrite Rplus_0_r.
congr (Rplus (exp (Ropp _)) _); apply: eq_bigr => k _. have := EX 0 k; have := EY 0 k; by rewrite !mxE => -> ->.
Qed.
