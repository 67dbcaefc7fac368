(** C99-C101: the RBF kernel, the covariance matrix and its Cholesky factorisation in binary64. *)
From Coq Require Import ZArith Bool List Reals Lra Lia Psatz.
From Flocq Require Import Core IEEE754.BinarySingleNaN.
From Verif Require Import Fl Spec NpList KernelFl KernelFlSpec CholFl.
From Verif Require Import FlFacts FlMag FlErr KernelFlFacts CholFlFacts KernelFlMain KernelFlRef KernelFlWit KernelFlThms.
Import ListNotations.
Local Open Scope R_scope.

(** the assumptions about NumPy can be met *)
Example numpy_contracts : exists np_sum np_dot np_exp,
  (forall l, sum_of l (np_sum l)) /\ (forall l, dot_of l (np_dot l)) /\ exp_ok np_exp.
Proof. exact contracts. Qed.

(** ** C99: the kernel matrix *)
(** every entry is finite and close to exp(-sum_k w_k (x_k - y_k)^2), plus 10^-10 where the indices agree *)
Theorem C99_entry : forall np_sum np_dot np_exp,
  (forall l, sum_of l (np_sum l)) -> (forall l, dot_of l (np_dot l)) -> exp_ok np_exp ->
  forall (d : nat) (W : R) (w : row) (X Y : mat) (i j : nat), (1 <= d)%nat -> 1 <= W -> entry_units d W * / 2 ^ 53 <= / 10 ^ 9 ->
  param_row d W w -> scaled_row d (nth i X []) -> scaled_row d (nth j Y []) ->
  isfin (kernel64 np_sum np_dot np_exp w X Y i j) = true /\
  Rabs (val (kernel64 np_sum np_dot np_exp w X Y i j) -
        (exp (- wdist64 w (nth i X []) (nth j Y [])) + if Nat.eqb i j then / 10 ^ 10 else 0)) <= entry_units d W * / 2 ^ 53.
Proof. exact entry_c99. Qed.
Print Assumptions C99_entry.
Example C99_entry_parameters : entry_units 10 10000 * / 2 ^ 53 <= / 10 ^ 9 /\ param_row 2 1000 [fz 1000; f1] /\ scaled_row 2 [f1; f0].
Proof. exact entry_example. Qed.
(** the computed covariance matrix is positive definite, repeated points included *)
Theorem C99_positive_definite : forall np_sum np_dot np_exp,
  (forall l, sum_of l (np_sum l)) -> (forall l, dot_of l (np_dot l)) -> exp_ok np_exp ->
  forall (d : nat) (W : R) (w : row) (sigma : b64) (X : mat), (1 <= d)%nat -> 1 <= W -> param_row d W w ->
  isfin sigma = true -> Rabs (val sigma) <= 2 ^ 400 -> X <> [] -> Forall (scaled_row d) X -> safe_size (length X) d W ->
  forall x : nat -> R, (exists i, (i < length X)%nat /\ x i <> 0) ->
  0 < lower_form (length X) (covariance64 np_sum np_dot np_exp w sigma X) x.
Proof. exact covariance_posdef. Qed.
Print Assumptions C99_positive_definite.
(** 15 points in two dimensions with the default search bounds, 600 points with parameters up to 1 *)
Example C99_sizes : safe_size 34 1 1000 /\ safe_size 15 2 1000 /\ safe_size 600 2 1.
Proof. exact sizes_example. Qed.
Example C99_data : Forall (scaled_row 2) [[f1; f0]; [f1; f0]; [f0; f0]] /\ isfin f0 = true /\ Rabs (val f0) <= 2 ^ 400.
Proof. exact data_example. Qed.

(** ** C100: the factorisation *)
(** [np.linalg.cholesky] does not raise; the factor is finite, has a positive diagonal and reproduces the matrix *)
Theorem C100_factored : forall np_sum np_dot np_exp,
  (forall l, sum_of l (np_sum l)) -> (forall l, dot_of l (np_dot l)) -> exp_ok np_exp ->
  forall (d : nat) (W : R) (w : row) (sigma : b64) (X : mat), (1 <= d)%nat -> 1 <= W -> param_row d W w ->
  isfin sigma = true -> Rabs (val sigma) <= 2 ^ 400 -> X <> [] -> Forall (scaled_row d) X -> safe_size (length X) d W ->
  forall r, cholesky64 (length X) (covariance64 np_sum np_dot np_exp w sigma X) r ->
  exists L, r = Ok L /\ (forall i j, (j <= i < length X)%nat -> isfin (L i j) = true) /\ (forall j, (j < length X)%nat -> 0 < val (L j j)) /\
    forall i j, (j <= i < length X)%nat ->
      Rabs (total (S j) (fun k => val (L i k) * val (L j k)) - val (covariance64 np_sum np_dot np_exp w sigma X i j)) <= (1 + val (fmul sigma sigma)) * / 10000000000.
Proof. exact covariance_factored. Qed.
Print Assumptions C100_factored.
(** a call always has an outcome *)
Theorem C100_outcome : forall n A, exists r, cholesky64 n A r.
Proof. exact cholesky64_total. Qed.
Print Assumptions C100_outcome.
(** without a limit on the length-scale parameter the claims fail: for the parameter 2^24 and two points of [0, 1]
    the entry between the two points exceeds both diagonal entries, and the factorisation raises *)
Theorem C99_positive_definite_refuted : forall np_sum np_dot np_exp,
  (forall l, sum_of l (np_sum l)) -> (forall l, dot_of l (np_dot l)) -> exp_ok np_exp ->
  exists (w : row) (X : mat), param_row 1 (2 ^ 24) w /\ Forall (scaled_row 1) X /\ length X = 2%nat /\
    (exists x : nat -> R, x 0%nat <> 0 /\ lower_form 2 (covariance64 np_sum np_dot np_exp w f0 X) x < 0) /\
    val (covariance64 np_sum np_dot np_exp w f0 X 0 0) + / 10 ^ 9 < val (covariance64 np_sum np_dot np_exp w f0 X 1 0) /\
    val (covariance64 np_sum np_dot np_exp w f0 X 1 1) + / 10 ^ 9 < val (covariance64 np_sum np_dot np_exp w f0 X 1 0).
Proof. exact posdef_refuted. Qed.
Print Assumptions C99_positive_definite_refuted.
Theorem C100_factored_refuted : forall np_sum np_dot np_exp,
  (forall l, sum_of l (np_sum l)) -> (forall l, dot_of l (np_dot l)) -> exp_ok np_exp ->
  exists (w : row) (X : mat), param_row 1 (2 ^ 24) w /\ Forall (scaled_row 1) X /\ length X = 2%nat /\
    (exists r, cholesky64 2 (covariance64 np_sum np_dot np_exp w f0 X) r) /\
    forall r, cholesky64 2 (covariance64 np_sum np_dot np_exp w f0 X) r -> r = Raise LinAlgError.
Proof. exact factored_refuted. Qed.
Print Assumptions C100_factored_refuted.

(** ** C101: normalised inputs *)
(** points of the design space are mapped into [0, 1] exactly, the bounds to 0 and 1 *)
Theorem C101_unit_interval : forall (b : box) (x : row),
  Forall (fun lh => isfin (fst lh) = true /\ isfin (snd lh) = true /\ val (fst lh) < val (snd lh) /\ isfin (fsub (snd lh) (fst lh)) = true) b ->
  Forall2 (fun lh v => isfin v = true /\ val (fst lh) <= val v <= val (snd lh)) b x ->
  length (normalize64 b x) = length b /\ Forall (fun v => isfin v = true /\ 0 <= val v <= 1) (normalize64 b x).
Proof. exact normalize_row. Qed.
Print Assumptions C101_unit_interval.
Theorem C101_bounds : forall b : box,
  Forall (fun lh => isfin (fst lh) = true /\ isfin (snd lh) = true /\ val (fst lh) < val (snd lh) /\ isfin (fsub (snd lh) (fst lh)) = true) b ->
  map val (normalize64 b (map fst b)) = map (fun _ => 0) b /\ map val (normalize64 b (map snd b)) = map (fun _ => 1) b.
Proof. exact normalize_bounds. Qed.
Print Assumptions C101_bounds.
(** the order of the coordinates is kept *)
Theorem C101_monotone : forall (b : box) (x y : row),
  Forall (fun lh => isfin (fst lh) = true /\ isfin (snd lh) = true /\ val (fst lh) < val (snd lh) /\ isfin (fsub (snd lh) (fst lh)) = true) b ->
  Forall2 (fun lh v => isfin v = true /\ val (fst lh) <= val v <= val (snd lh)) b x ->
  Forall2 (fun lh v => isfin v = true /\ val (fst lh) <= val v <= val (snd lh)) b y ->
  Forall2 (fun u v => val u <= val v) x y -> Forall2 (fun u v => val u <= val v) (normalize64 b x) (normalize64 b y).
Proof. exact normalize_monotone. Qed.
Print Assumptions C101_monotone.
(** any training set inside the design space can be factored *)
Theorem C101_training_set : forall np_sum np_dot np_exp,
  (forall l, sum_of l (np_sum l)) -> (forall l, dot_of l (np_dot l)) -> exp_ok np_exp ->
  forall (b : box) (W : R) (w : row) (sigma : b64) (X : mat), b <> [] -> 1 <= W -> param_row (length b) W w ->
  isfin sigma = true -> Rabs (val sigma) <= 2 ^ 400 -> X <> [] -> safe_size (length X) (length b) W ->
  Forall (fun lh => isfin (fst lh) = true /\ isfin (snd lh) = true /\ val (fst lh) < val (snd lh) /\ isfin (fsub (snd lh) (fst lh)) = true) b ->
  Forall (Forall2 (fun lh v => isfin v = true /\ val (fst lh) <= val v <= val (snd lh)) b) X ->
  forall r, cholesky64 (length X) (covariance64 np_sum np_dot np_exp w sigma (map (normalize64 b) X)) r -> exists L, r = Ok L.
Proof. exact training_set. Qed.
Print Assumptions C101_training_set.
Example C101_box : let b := [(fz (-5), fz 10); (f0, fz 15)] : box in
  Forall (fun lh => isfin (fst lh) = true /\ isfin (snd lh) = true /\ val (fst lh) < val (snd lh) /\ isfin (fsub (snd lh) (fst lh)) = true) b /\
  Forall2 (fun lh v => isfin v = true /\ val (fst lh) <= val v <= val (snd lh)) b [fz 3; fz 7].
Proof. exact box_example. Qed.
