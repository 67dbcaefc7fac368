(** C104, C105: the responses scaled by a Gaussian process, in binary64 (Model: OutputFl.v; vocabulary: OutputFlSpec.v). *)
From Coq Require Import ZArith Bool List Reals.
From Verif Require Import Fl Spec KernelFl KernelFlWit OutputFl OutputFlSpec OutputFlThms.
Import ListNotations.
Local Open Scope R_scope.

(** ** C104: responses that do not differ, or are not finite *)
(** one sample: whatever its response, the scaled response is NaN *)
Theorem C104_single : forall np_sum, (forall l, sum_of l (np_sum l)) -> forall y, isfin y = true -> normalize_output64 np_sum [y] = [fnan].
Proof. exact out_single. Qed.
Print Assumptions C104_single.
(** two equal responses (the sum may overflow): NaN *)
Theorem C104_pair : forall np_sum, (forall l, sum_of l (np_sum l)) -> forall y, isfin y = true -> normalize_output64 np_sum [y; y] = [fnan; fnan].
Proof. exact out_pair. Qed.
Print Assumptions C104_pair.
(** any number of equal responses: all are scaled to NaN, or all to the same number next to 1 or -1 *)
Theorem C104_constant : forall np_sum, (forall l, sum_of l (np_sum l)) -> forall (c : b64) (k : nat),
  isfin c = true -> / 2 ^ 400 <= Rabs (val c) <= 2 ^ 400 -> (0 < k)%nat -> INR k <= 2 ^ 20 ->
  exists v, normalize_output64 np_sum (repeat c k) = repeat v k /\ (v = fnan \/ isfin v = true /\ Rabs (Rabs (val v) - 1) <= / 2 ^ 30).
Proof. exact out_constant. Qed.
Print Assumptions C104_constant.
(** equal responses need not give NaN: three copies of 0.1 have a computed mean above 0.1 and are scaled to -1 *)
Theorem C104_constant_refuted : forall np_sum, (forall l, sum_of l (np_sum l)) ->
  exists y : b64, isfin y = true /\ normalize_output64 np_sum [y; y; y] = [fz (-1); fz (-1); fz (-1)] /\ val y < val (mean64 np_sum [y; y; y]).
Proof. exact constant_refuted. Qed.
Print Assumptions C104_constant_refuted.
(** one infinite or NaN response turns all scaled responses into NaN *)
Theorem C104_poison : forall np_sum, (forall l, sum_of l (np_sum l)) -> forall Y : list b64, INR (length Y) <= 2 ^ 20 ->
  (exists y, In y Y /\ isfin y = false) -> normalize_output64 np_sum Y = map (fun _ => fnan) Y.
Proof. exact out_poison. Qed.
Print Assumptions C104_poison.

(** ** C105: responses that differ by at least 2^-400 *)
(** the scaled responses are finite and bounded by the square root of their number *)
Theorem C105_scaled : forall np_sum, (forall l, sum_of l (np_sum l)) -> forall (M : R) (Y : list b64), M <= 2 ^ 400 -> responses M Y -> spread Y ->
  isfin (mean64 np_sum Y) = true /\ isfin (std64 np_sum Y) = true /\ 0 < val (std64 np_sum Y) /\
  Forall (fun v => isfin v = true /\ Rabs (val v) <= sqrt (INR (length Y)) * (1 + / 2 ^ 30)) (normalize_output64 np_sum Y).
Proof. exact out_scaled. Qed.
Print Assumptions C105_scaled.
(** the mean of their squares is 1, up to 2^-29 *)
Theorem C105_second_moment : forall np_sum, (forall l, sum_of l (np_sum l)) -> forall (M : R) (Y : list b64), M <= 2 ^ 400 -> responses M Y -> spread Y ->
  Rabs (mean_real (map (fun v => val v ^ 2) (normalize_output64 np_sum Y)) - 1) <= / 2 ^ 29.
Proof. exact out_moment. Qed.
Print Assumptions C105_second_moment.
(** their order is that of the responses *)
Theorem C105_monotone : forall np_sum, (forall l, sum_of l (np_sum l)) -> forall (M : R) (Y : list b64), M <= 2 ^ 400 -> responses M Y -> spread Y ->
  forall i j, (i < length Y)%nat -> (j < length Y)%nat -> val (nth i Y f0) <= val (nth j Y f0) ->
  val (nth i (normalize_output64 np_sum Y) f0) <= val (nth j (normalize_output64 np_sum Y) f0).
Proof. exact out_monotone. Qed.
Print Assumptions C105_monotone.
(** undoing the scaling, as a prediction does, gives back the responses *)
Theorem C105_restored : forall np_sum, (forall l, sum_of l (np_sum l)) -> forall (M : R) (Y : list b64), M <= 2 ^ 400 -> responses M Y -> spread Y ->
  forall i, (i < length Y)%nat -> let z := restored64 np_sum Y (nth i (normalize_output64 np_sum Y) f0) in
  isfin z = true /\ Rabs (val z - val (nth i Y f0)) <= / 2 ^ 50 * M.
Proof. exact out_restored. Qed.
Print Assumptions C105_restored.
(** the accuracy of the mean, for any responses, and of the standard deviation *)
Theorem C105_mean : forall np_sum, (forall l, sum_of l (np_sum l)) -> forall (M : R) (Y : list b64), M <= 2 ^ 400 -> responses M Y ->
  isfin (mean64 np_sum Y) = true /\ Rabs (val (mean64 np_sum Y) - mean_real (map val Y)) <= (INR (length Y) + 2) * / 2 ^ 53 * M + / 2 ^ 1075.
Proof. exact out_mean. Qed.
Print Assumptions C105_mean.
Theorem C105_std : forall np_sum, (forall l, sum_of l (np_sum l)) -> forall (M : R) (Y : list b64), M <= 2 ^ 400 -> responses M Y -> spread Y ->
  Rabs (val (std64 np_sum Y) - std_real (map val Y)) <= / 2 ^ 31 * std_real (map val Y) + (INR (length Y) + 3) * / 2 ^ 53 * M.
Proof. exact out_std. Qed.
Print Assumptions C105_std.
(** responses that differ by less can fail: 0 and 2^-600 are scaled to minus and plus infinity *)
Theorem C105_scaled_refuted : forall np_sum, (forall l, sum_of l (np_sum l)) ->
  exists y z : b64, isfin y = true /\ isfin z = true /\ val y < val z /\ normalize_output64 np_sum [y; z] = [fninf; finf].
Proof. exact tiny_refuted. Qed.
Print Assumptions C105_scaled_refuted.
Example C105_data : responses 10 [fz 3; fz (-7); fz 10] /\ spread [fz 3; fz (-7); fz 10] /\ 10 <= 2 ^ 400.
Proof. exact responses_example. Qed.
(** sums from the right meet the assumption about [np.sum] *)
Example C105_sum : forall l, sum_of l (plain_sum l).
Proof. exact plain_sum_ok. Qed.
