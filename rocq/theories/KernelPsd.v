(** The exact kernel matrix of points given as lists is positive semidefinite. *)
From Coq Require Import Reals Lra Lia.
From Coq Require Import List.
From Verif Require Import Fl Spec NpList KernelFlSpec.
From mathcomp Require Import all_ssreflect all_algebra.
From Verif Require Import RStruct LinSpec LinAlgFacts KernelFacts RSum RDep.
Set Implicit Arguments.
Unset Strict Implicit.
Unset Printing Implicit Defensive.
Import GRing.Theory.
Local Open Scope ring_scope.

Definition lrow d (x : list b64) : 'rV[R]_d := \row_k Spec.val (List.nth k x f0).
Lemma wdist64E (w x y : list b64) : length x = length w -> length y = length w ->
  wdist64 w x y = wdist (lrow (length w) w) (lrow (length w) x) (lrow (length w) y).
Proof.
elim: w x y => [|wk w IH] [|xk x] [|yk y] //= Hx Hy; first by rewrite /wdist big_ord0.
rewrite /wdist big_ord_recl IH; [|by case: Hx|by case: Hy]. rewrite !mxE /=.
change (Rplus ?a ?b) with (a + b); congr (_ + _); first by toR; ring.
by apply: eq_bigr => k _; rewrite !mxE.
Qed.
Lemma kernel_psd n d (w : NpList.row) (X : NpList.mat) x : length w = d -> Forall (fun v => (0 < Spec.val v)%Re) w ->
  (forall i, (i < n)%coq_nat -> length (List.nth i X nil) = d) ->
  (0 <= quad n (fun i j => exp (Ropp (wdist64 w (List.nth i X nil) (List.nth j X nil)))) x)%Re.
Proof.
move=> Lw Fw LX.
pose Xm : 'M[R]_(n, length w) := \matrix_(i, k) Spec.val (List.nth k (List.nth i X nil) f0).
have Pw : positive_params (lrow (length w) w).
  move=> k; rewrite mxE. move/Forall_forall: Fw => H; apply: H; apply: nth_In; exact/ltP.
have [_ P] := @kpure_semi _ n _ Xm Pw.
have := P (\col_i x i); rewrite /qf mxE /quad rsE => H.
suff -> : \sum_(i < n) rs n (fun j => (x i * x j * exp (- wdist64 w (List.nth i X nil) (List.nth j X nil)))%Re) =
  \sum_j ((\col_i x i)^T *m kpure (lrow (length w) w) Xm Xm) 0 j * (\col_i x i) j 0 by [].
rewrite (eq_bigr (fun i : 'I_n => \sum_(j < n) Rmult (Rmult (x i) (x j)) (exp (Ropp (wdist64 w (List.nth i X nil) (List.nth j X nil)))))); last by move=> i _; rewrite rsE.
rewrite exchange_big /=; apply: eq_bigr => j _. rewrite !mxE mulr_suml; apply: eq_bigr => i _. rewrite !mxE.
have E (k : 'I_n) : row k Xm = lrow (length w) (List.nth k X nil) by apply/rowP => q; rewrite !mxE.
rewrite !E -wdist64E; last 2 first.
- by rewrite LX ?Lw //; apply/ltP.
- by rewrite LX ?Lw //; apply/ltP.
toR. ring.
Qed.
