(** The RBF kernel of models/kernels.py in binary64.  The elementary operations and [np.sqrt] are correctly
    rounded.  [np.sum], [np.dot] and [np.exp] belong to NumPy and the libraries under it: the model takes
    them as arguments, and the relations below say what is assumed about the first two. *)
From Coq Require Import ZArith Bool List Permutation.
From Flocq Require Import IEEE754.BinarySingleNaN.
From Verif Require Import Fl NpList.
Import ListNotations.

Definition fopp (x : b64) : b64 := Bopp x.
Definition fsqrt (x : b64) : b64 := Bsqrt mode_NE x.
Definition ffma (x y z : b64) : b64 := Bfma mode_NE x y z.

(** [s] is a sum of [l], the additions being done in some order (NumPy adds pairwise in blocks) *)
Inductive sum_of : list b64 -> b64 -> Prop :=
| sum_nil : sum_of [] f0
| sum_one x : sum_of [x] x
| sum_add l l1 l2 s1 s2 : l1 <> [] -> l2 <> [] -> Permutation l (l1 ++ l2) ->
    sum_of l1 s1 -> sum_of l2 s2 -> sum_of l (fadd s1 s2).
(** [s] is a sum of the products of [l], in some order, with or without fused multiply-add *)
Inductive dot_of : list (b64 * b64) -> b64 -> Prop :=
| dot_nil : dot_of [] f0
| dot_one a b : dot_of [(a, b)] (fmul a b)
| dot_add l l1 l2 s1 s2 : l1 <> [] -> l2 <> [] -> Permutation l (l1 ++ l2) ->
    dot_of l1 s1 -> dot_of l2 s2 -> dot_of l (fadd s1 s2)
| dot_fma l l1 a b s : Permutation l ((a, b) :: l1) -> dot_of l1 s -> dot_of l (ffma a b s).

(** [10 ** -10] *)
Definition jitter64 : b64 := fdiv f1 (fz (10 ^ 10)).

Section Kernel.
Variables (np_sum : list b64 -> b64) (np_dot : list (b64 * b64) -> b64) (np_exp : b64 -> b64).
(** 129-130 [X_sq], [Y_sq] (and 164-165), one row *)
Definition square_sum (param x : row) : b64 := np_sum (map2 (fun xk wk => fmul (fmul xk xk) wk) x param).
(** 131 (and 166): [np.sqrt(param) * X], one row *)
Definition weighted (param x : row) : row := map2 (fun wk xk => fmul (fsqrt wk) xk) param x.
(** 131 (and 166): [XY], one entry *)
Definition cross (param x y : row) : b64 := np_dot (combine (weighted param x) (weighted param y)).
(** 132 (and 167): [X_sq + Y_sq - 2 * XY], one entry *)
Definition dist64 (param x y : row) : b64 :=
  fsub (fadd (square_sum param x) (square_sum param y)) (fmul (fz 2) (cross param x y)).
(** 134 (and 169): entry ([i], [j]) of the returned matrix *)
Definition kernel64 (param : row) (X Y : mat) (i j : nat) : b64 :=
  fadd (np_exp (fopp (dist64 param (nth i X []) (nth j Y [])))) (fmul (if Nat.eqb i j then f1 else f0) jitter64).
(** gaussian_process.py 232-234, 275-278: [kernel(X, X, param) + np.eye(n) * noise_sigma**2], entry ([i], [j]).
    The square is taken to be the correctly rounded product. *)
Definition covariance64 (param : row) (sigma : b64) (X : mat) (i j : nat) : b64 :=
  fadd (kernel64 param X X i j) (fmul (if Nat.eqb i j then f1 else f0) (fmul sigma sigma)).
End Kernel.
(** gaussian_process.py 314-331 [normalize_input], one row *)
Definition normalize64 (b : box) (x : row) : row :=
  map2 (fun lh xk => fdiv (fsub xk (fst lh)) (fsub (snd lh) (fst lh))) b x.
