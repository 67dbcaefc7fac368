(** C132: when acquisition values are NaN or infinite in binary64, and C133: how accurate the finite ones are. *)
From Coq Require Import ZArith Bool List Reals.
From Verif Require Import Fl Spec NpList KernelFl Normal AcqSpec CholFl OutputFl TrainFl TrainFlSpec AcqFl AcqFlSpec.
From Verif Require Import AcqFlMain AcqFlMulti AcqFlErr AcqFlErrMore AcqFlWit.
Import ListNotations.
Local Open Scope R_scope.

Section C132.
Variables (cdf pdf : b64 -> b64) (np_prod : list b64 -> b64).

(** Expected improvement of finite samples is finite exactly where the mean and the deviation are, and NaN where one of
    them is, where the mean is +inf, and where the mean is -inf and the deviation infinite. *)
Theorem C132_ei predict y x mu sd : normal_kind cdf pdf -> y <> [] -> Forall moderate_finite y -> predict x = Ok (mu, sd) -> predicted mu sd ->
  exists V, ei_eval64 cdf pdf predict y x = Ok V /\ forall j m s, nth_error mu j = Some m -> nth_error sd j = Some s ->
  exists v, nth_error V j = Some v /\ (isfin v = true <-> isfin m = true /\ isfin s = true) /\
    (isnan v = true <-> isnan m = true \/ isnan s = true \/ m = finf \/ (m = fninf /\ s = finf)).
Proof. exact (fun K => ei_table cdf pdf K predict y x mu sd). Qed.
(** The probability of improvement is NaN where the mean or the deviation is or both are infinite, otherwise between -1 and 0. *)
Theorem C132_pi predict y x mu sd : normal_kind cdf pdf -> y <> [] -> Forall moderate_finite y -> predict x = Ok (mu, sd) -> predicted mu sd ->
  exists V, pi_eval64 cdf predict y x = Ok V /\ forall j m s, nth_error mu j = Some m -> nth_error sd j = Some s ->
  exists v, nth_error V j = Some v /\ (isnan v = true <-> isnan m = true \/ isnan s = true \/ (isfin m = false /\ isfin s = false)) /\
    (isnan v = false -> isfin v = true /\ -1 <= val v <= 0).
Proof. exact (fun K => pi_table cdf pdf K predict y x mu sd). Qed.
(** The lower confidence bound, also that of the multi-fidelity acquisition. *)
Theorem C132_lcb predict k0 k1 x mu sd : moderate_finite k0 -> moderate_finite k1 -> 0 < val k0 -> 0 < val k1 -> predict x = Ok (mu, sd) -> predicted mu sd ->
  exists V, lcb_eval64 predict k0 k1 x = Ok V /\ forall j m s, nth_error mu j = Some m -> nth_error sd j = Some s ->
  exists v, nth_error V j = Some v /\ (isfin v = true <-> isfin m = true /\ isfin s = true) /\
    (isnan v = true <-> isnan m = true \/ isnan s = true \/ (m = finf /\ s = finf)).
Proof. exact (lcb_table predict k0 k1 x mu sd). Qed.
Theorem C132_vflcb_high s k0 k1 cr x h l : u_predict_std s x = Ok h -> u_predict_lf_std s x = Ok l ->
  vflcb_eval64 s k0 k1 cr 0 x = lcb_eval64 (u_predict_std s) k0 k1 x.
Proof. exact (vflcb_high s k0 k1 cr x h l). Qed.
Theorem C132_vflcb_low s k0 k1 cr x mu sd mul sdl : u_predict_std s x = Ok (mu, sd) -> u_predict_lf_std s x = Ok (mul, sdl) -> 
  moderate_finite k0 -> moderate_finite k1 -> 0 < val k0 -> 0 < val k1 -> predicted mu (map (fun t => fmul t cr) sdl) ->
  exists V, vflcb_eval64 s k0 k1 cr 1 x = Ok V /\ forall j m t, nth_error mu j = Some m -> nth_error sdl j = Some t ->
  exists v, nth_error V j = Some v /\ (isfin v = true <-> isfin m = true /\ isfin (fmul t cr) = true) /\
    (isnan v = true <-> isnan m = true \/ isnan (fmul t cr) = true \/ (m = finf /\ fmul t cr = finf)).
Proof. exact (vflcb_low s k0 k1 cr x mu sd mul sdl). Qed.

(** Constrained expected improvement is finite if all models answer with finite numbers; one constraint model that
    answers with NaN (or with two infinities) makes the value NaN whatever the others say. *)
Theorem C132_cei_finite obj y cons x p ps : normal_kind cdf pdf -> (forall l, prod_of l (np_prod l)) -> y <> [] -> Forall moderate_finite y ->
  answer x obj p -> Forall2 (answer x) cons ps ->
  Forall (fun q => moderate_finite (fst q) /\ moderate_finite (snd q) /\ 0 <= val (snd q)) (p :: ps) ->
  exists v, cei_eval64 cdf pdf np_prod obj y cons x = Ok v /\ isfin v = true.
Proof. exact (fun K => cei_finite cdf pdf np_prod K obj y cons x p ps). Qed.
Theorem C132_cei_poisoned obj y cons x p ps q : normal_kind cdf pdf -> (forall l, prod_of l (np_prod l)) -> y <> [] ->
  answer x obj p -> Forall2 (answer x) cons ps -> In q ps -> moderate (fst q) -> moderate (snd q) -> deviation (snd q) ->
  isnan (fst q) = true \/ isnan (snd q) = true \/ (isfin (fst q) = false /\ isfin (snd q) = false) ->
  exists v, cei_eval64 cdf pdf np_prod obj y cons x = Ok v /\ isnan v = true.
Proof. exact (fun K => cei_poisoned cdf pdf np_prod K obj y cons x p ps q). Qed.

(** The variable-fidelity expected improvement is zero where the deviation of the fidelity asked for is below machine
    epsilon, even where the mean is NaN, and follows the table of expected improvement elsewhere. *)
Theorem C132_vfei_high s fmin x mu sd : normal_kind cdf pdf -> u_hierarchical s = true -> moderate_finite fmin -> u_predict_std s x = Ok (mu, sd) -> predicted mu sd ->
  exists V, vfei_eval64 cdf pdf s fmin 0 x = Ok V /\ forall j m t, nth_error mu j = Some m -> nth_error sd j = Some t ->
  exists v, nth_error V j = Some v /\ (flt t eps64 = true -> isfin v = true /\ val v = 0) /\
    (flt t eps64 = false -> (isfin v = true <-> isfin m = true /\ isfin t = true) /\ (isnan v = true <-> isnan m = true \/ isnan t = true \/ m = finf \/ (m = fninf /\ t = finf))).
Proof. exact (fun K => vfei_high cdf pdf K s fmin x mu sd). Qed.
Theorem C132_vfei_low s fmin x mu sd mul sdl beta : normal_kind cdf pdf -> u_hierarchical s = true -> moderate_finite fmin ->
  u_predict_std s x = Ok (mu, sd) -> u_predict_lf_std s x = Ok (mul, sdl) -> u_beta s = Ok beta -> predicted mu sd ->
  exists V, vfei_eval64 cdf pdf s fmin 1 x = Ok V /\ forall j m t tl, nth_error mu j = Some m -> nth_error sd j = Some t -> nth_error sdl j = Some tl ->
  exists v, nth_error V j = Some v /\ (flt (fmul beta tl) eps64 = true -> isfin v = true /\ val v = 0) /\
    (flt (fmul beta tl) eps64 = false -> (isfin v = true <-> isfin m = true /\ isfin t = true) /\ (isnan v = true <-> isnan m = true \/ isnan t = true \/ m = finf \/ (m = fninf /\ t = finf))).
Proof. exact (fun K => vfei_low cdf pdf K s fmin x mu sd mul sdl beta). Qed.

(** Augmented expected improvement: for the high fidelity as above.  For the low fidelity finite predictions give finite
    values where the deviation is at least machine epsilon, zero where it is below and the means differ by 2^-600 or the
    deviation is that large, and NaN where the means are equal and the deviation zero. *)
Theorem C132_aei_high s cr x mu sd V : normal_kind cdf pdf -> steady s -> u_predict_std s x = Ok (mu, sd) -> predicted mu sd -> length mu = length x ->
  aei_eval64 cdf pdf s cr 0 x = Ok V -> forall j m t, nth_error mu j = Some m -> nth_error sd j = Some t ->
  exists v, nth_error V j = Some v /\ (flt t eps64 = true -> isfin v = true /\ val v = 0) /\
    (flt t eps64 = false -> (isfin v = true <-> isfin m = true /\ isfin t = true) /\ (isnan v = true <-> isnan m = true \/ isnan t = true \/ m = finf \/ (m = fninf /\ t = finf))).
Proof. exact (fun K => aei_high cdf pdf K s cr x mu sd V). Qed.
Theorem C132_aei_low s cr x mu sd mul sdl V : normal_kind cdf pdf -> steady s -> moderate_finite cr -> u_predict_std s x = Ok (mu, sd) -> u_predict_lf_std s x = Ok (mul, sdl) ->
  predicted_finite mu sd -> predicted_finite mul sdl -> aei_eval64 cdf pdf s cr 1 x = Ok V ->
  forall j m t ml tl, nth_error mu j = Some m -> nth_error sd j = Some t -> nth_error mul j = Some ml -> nth_error sdl j = Some tl ->
  exists v, nth_error V j = Some v /\ (flt t eps64 = false -> isfin v = true) /\
    (flt t eps64 = true -> / 2 ^ 600 <= Rabs (val m - val ml) \/ / 2 ^ 600 <= val t -> isfin v = true /\ val v = 0) /\
    (val m = val ml -> val t = 0 -> isnan v = true).
Proof. exact (fun K => aei_low cdf pdf K s cr x mu sd mul sdl V). Qed.

(** Extended probability of improvement: finite for the high fidelity; for the low fidelity finite where the deviation is
    at least machine epsilon, NaN where the means are equal and the deviation is zero. *)
Theorem C132_epi_high s fmin cr x mu sd V : normal_kind cdf pdf -> crowds np_prod s -> moderate_finite fmin -> u_predict_std s x = Ok (mu, sd) -> predicted_finite mu sd ->
  epi_eval64 cdf np_prod s fmin cr 0 x = Ok V -> Forall (Forall (fun v => isfin v = true)) V.
Proof. exact (fun K => epi_high cdf pdf np_prod K s fmin cr x mu sd V). Qed.
Theorem C132_epi_low s fmin cr x mu sd mul sdl V : normal_kind cdf pdf -> crowds np_prod s -> moderate_finite fmin -> moderate_finite cr ->
  u_predict_std s x = Ok (mu, sd) -> u_predict_lf_std s x = Ok (mul, sdl) ->
  predicted_finite mu sd -> predicted_finite mul sdl -> epi_eval64 cdf np_prod s fmin cr 1 x = Ok V ->
  forall j m t ml tl, nth_error mu j = Some m -> nth_error sd j = Some t -> nth_error mul j = Some ml -> nth_error sdl j = Some tl ->
  exists vs, nth_error V j = Some vs /\ (flt t eps64 = false -> Forall (fun v => isfin v = true) vs) /\
    (val m = val ml -> val t = 0 -> Forall (fun v => isnan v = true) vs).
Proof. exact (fun K => epi_low cdf pdf np_prod K s fmin cr x mu sd mul sdl V). Qed.

(** A NaN among the samples makes every value NaN. *)
Theorem C132_sample predict y x : normal_kind cdf pdf -> (exists w, In w y /\ isnan w = true) ->
  (forall V, ei_eval64 cdf pdf predict y x = Ok V -> Forall (eq fnan) V) /\ (forall V, pi_eval64 cdf predict y x = Ok V -> Forall (eq fnan) V).
Proof. exact (fun K H => conj (fun V => ei_sample cdf pdf K predict y x V H) (fun V => pi_sample cdf pdf K predict y x V H)). Qed.
(** After training on responses with a standard deviation of zero or NaN (C127) all three give NaN everywhere. *)
Theorem C132_ruined np_sum np_dot np_exp np_log np_pow10 np_cholesky np_solve basis p bounds o X Y s o' y k0 k1 x :
  normal_kind cdf pdf -> (forall l, dot_of l (np_dot l)) -> solve_keeps np_solve -> (0 < p)%nat -> X <> [] -> length Y = length X -> useless (std64 np_sum Y) ->
  train64 np_sum np_dot np_exp np_log np_pow10 np_cholesky np_solve basis p bounds o X Y s = (o', Ok tt) ->
  let predict := predict_std64 np_sum np_dot np_exp np_solve basis p bounds o' in
  (forall V, ei_eval64 cdf pdf predict y x = Ok V -> Forall (eq fnan) V) /\
  (forall V, pi_eval64 cdf predict y x = Ok V -> Forall (eq fnan) V) /\
  (forall V, lcb_eval64 predict k0 k1 x = Ok V -> Forall (eq fnan) V).
Proof. exact (fun K => ruined cdf pdf K np_sum np_dot np_exp np_log np_pow10 np_cholesky np_solve basis p bounds o X Y s o' y k0 k1 x). Qed.
End C132.
Print Assumptions C132_ei.
Print Assumptions C132_pi.
Print Assumptions C132_lcb.
Print Assumptions C132_vflcb_high.
Print Assumptions C132_vflcb_low.
Print Assumptions C132_cei_finite.
Print Assumptions C132_cei_poisoned.
Print Assumptions C132_vfei_high.
Print Assumptions C132_vfei_low.
Print Assumptions C132_aei_high.
Print Assumptions C132_aei_low.
Print Assumptions C132_epi_high.
Print Assumptions C132_epi_low.
Print Assumptions C132_sample.
Print Assumptions C132_ruined.

(** The assumptions can be met together (by functions less exact than SciPy's). *)
Example C132_contracts : exists cdf pdf np_prod, normal_kind cdf pdf /\ normal_near (/ 2) cdf pdf /\ cdf_ordered cdf /\ forall l, prod_of l (np_prod l).
Proof. exists plain_cdf, plain_pdf, plain_prod. exact (conj plain_kind (conj plain_near (conj plain_ordered plain_prod_ok))). Qed.
(** predictions of every kind *)
Example C132_example : let predict := (fun _ => Ok ([f1; fnan; finf; fninf; f1], [half64; f1; f1; f1; finf])) : predictor64 in
  match ei_eval64 plain_cdf plain_pdf predict [f1] [] with
  | Ok V => map (fun v => (isfin v, isnan v)) V = [(true, false); (false, true); (false, true); (false, false); (false, false)]
  | Raise _ => False
  end.
Proof. reflexivity. Qed.
Example C132_example_meets : predicted [f1; fnan; finf; fninf; f1] [half64; f1; f1; f1; finf] /\ Forall moderate_finite [f1].
Proof. exact (conj mix_predicted (Forall_cons _ one_moderate (Forall_nil _))). Qed.
(** a surrogate that meets the hypotheses of the multi-fidelity statements, with a positive deviation and with none *)
Example C132_surrogate : let s := small_surrogate f1 half64 half64 f1 in
  steady s /\ crowds plain_prod s /\ u_hierarchical s = true /\
  match aei_eval64 plain_cdf plain_pdf s f1 1 [[f0]] with Ok V => map isfin V = [true] | Raise _ => False end /\
  match epi_eval64 plain_cdf plain_prod s f1 f1 1 [[f0]] with Ok V => map (map isfin) V = [[true]] | Raise _ => False end /\
  exists mu sd, u_predict_std s [[f0]] = Ok (mu, sd) /\ predicted_finite mu sd.
Proof.
  cbv zeta. split; [exact (small_steady _ _ _ _ one_moderate)|]. split; [exact (small_crowds _ _ _ _)|]. split; [reflexivity|]. split; [reflexivity|].
  split; [reflexivity|]. do 2 eexists. split; [reflexivity|]. apply (flat_finite f1 half64 [[f0]] one_moderate half_moderate). exact (proj1 (proj2 unit_half)).
Qed.
Example C132_equal : match aei_eval64 plain_cdf plain_pdf (small_surrogate f1 f0 f1 f1) f1 1 [[f0]] with Ok V => map isnan V = [true] | Raise _ => False end.
Proof. reflexivity. Qed.
(** The condition on the distance of the means is needed: means 2^-1074 apart and no deviation give NaN as well. *)
Example C132_overflow : let m := fbin 1 (-1074) in feq m f0 = false /\
  match aei_eval64 plain_cdf plain_pdf (small_surrogate m f0 f0 f1) f1 1 [[f0]] with Ok V => map isnan V = [true] | Raise _ => False end.
Proof. split; reflexivity. Qed.

Section C133.
Variables (cdf pdf : b64 -> b64) (np_prod : list b64 -> b64) (e : R).

(** Expected improvement computed for finite predictions is within 5e-10 plus a rounding error of the exact one of the
    predicted distribution; [e] is the error of norm.cdf and norm.pdf. *)
Theorem C133_ei predict y x mu sd : normal_kind cdf pdf -> 0 <= e -> normal_near e cdf pdf ->
  y <> [] -> Forall moderate_finite y -> predict x = Ok (mu, sd) -> predicted_finite mu sd ->
  exists V fmin, ei_eval64 cdf pdf predict y x = Ok V /\ least64 y fmin /\
  forall j m s, nth_error mu j = Some m -> nth_error sd j = Some s -> exists v w, nth_error V j = Some v /\ isfin v = true /\
    expected_improvement (val fmin) (val m) (val s) w /\
    Rabs (val v + w) <= / 10 ^ 9 / 2 + (/ 2 ^ 48 + e) * (Rabs (val fmin - val m) + val s).
Proof. exact (fun K E N => ei_near cdf pdf e K E N predict y x mu sd). Qed.
(** A candidate that is preferred is at most that much worse. *)
Theorem C133_choice predict y x mu sd V i j mi si vi mj sj vj wi wj fmin : normal_kind cdf pdf -> 0 <= e -> normal_near e cdf pdf ->
  Forall moderate_finite y -> predict x = Ok (mu, sd) -> predicted_finite mu sd ->
  ei_eval64 cdf pdf predict y x = Ok V -> least64 y fmin ->
  nth_error mu i = Some mi -> nth_error sd i = Some si -> nth_error V i = Some vi ->
  nth_error mu j = Some mj -> nth_error sd j = Some sj -> nth_error V j = Some vj ->
  expected_improvement (val fmin) (val mi) (val si) wi -> expected_improvement (val fmin) (val mj) (val sj) wj -> fle vi vj = true ->
  wj <= wi + / 10 ^ 9 + (/ 2 ^ 48 + e) * (Rabs (val fmin - val mi) + val si + (Rabs (val fmin - val mj) + val sj)).
Proof. exact (fun K E N => ei_choice cdf pdf e K E N predict y x mu sd V i j mi si vi mj sj vj wi wj fmin). Qed.
(** The probability of improvement, of the distribution whose deviation is 1e-9 larger. *)
Theorem C133_pi predict y x mu sd : normal_kind cdf pdf -> normal_near e cdf pdf ->
  y <> [] -> Forall moderate_finite y -> predict x = Ok (mu, sd) -> predicted_finite mu sd ->
  exists V fmin, pi_eval64 cdf predict y x = Ok V /\ least64 y fmin /\
  forall j m s, nth_error mu j = Some m -> nth_error sd j = Some s -> exists v p, nth_error V j = Some v /\ isfin v = true /\
    prob_below (val m) (val s + / 10 ^ 9) (val fmin) p /\ Rabs (val v + p) <= / 2 ^ 48 + e.
Proof. exact (fun K N => pi_near cdf pdf e K N predict y x mu sd). Qed.
Theorem C133_lcb predict k0 k1 x mu sd : moderate_finite k0 -> moderate_finite k1 -> predict x = Ok (mu, sd) -> predicted_finite mu sd ->
  exists V, lcb_eval64 predict k0 k1 x = Ok V /\ forall j m s, nth_error mu j = Some m -> nth_error sd j = Some s ->
  exists v, nth_error V j = Some v /\ isfin v = true /\
    Rabs (val v - (val k0 * val m - val k1 * val s)) <= / 2 ^ 51 * (Rabs (val k0 * val m) + Rabs (val k1 * val s)) + / 2 ^ 1000.
Proof. exact (lcb_near predict k0 k1 x mu sd). Qed.
(** Constrained expected improvement: the product with the probabilities that the constraints are at most zero. *)
Theorem C133_cei obj y cons x p ps : normal_kind cdf pdf -> 0 <= e -> normal_near e cdf pdf -> (forall l, prod_of l (np_prod l)) ->
  y <> [] -> Forall moderate_finite y -> answer x obj p -> Forall2 (answer x) cons ps ->
  Forall (fun q => moderate_finite (fst q) /\ moderate_finite (snd q) /\ 0 <= val (snd q)) (p :: ps) ->
  exists v fmin w qs, cei_eval64 cdf pdf np_prod obj y cons x = Ok v /\ isfin v = true /\ least64 y fmin /\
    expected_improvement (val fmin) (val (fst p)) (val (snd p)) w /\
    Forall2 (fun q pr => prob_below (val (fst q)) (val (snd q) + / 10 ^ 9) 0 pr) ps qs /\
    let b := / 10 ^ 9 / 2 + (/ 2 ^ 48 + e) * (Rabs (val fmin - val (fst p)) + val (snd p)) in
    Rabs (val v + w * fold_right Rmult 1 qs) <= b + (w + b) * INR (length ps + 1) * (/ 2 ^ 48 + e).
Proof. exact (fun K E N => cei_near cdf pdf np_prod e K E N obj y cons x p ps). Qed.
(** The multi-fidelity acquisitions for the high fidelity, where the deviation is at least machine epsilon. *)
Theorem C133_vfei s fmin x mu sd V : normal_kind cdf pdf -> 0 <= e -> normal_near e cdf pdf ->
  u_hierarchical s = true -> moderate_finite fmin -> u_predict_std s x = Ok (mu, sd) -> predicted_finite mu sd -> vfei_eval64 cdf pdf s fmin 0 x = Ok V ->
  forall j m t, nth_error mu j = Some m -> nth_error sd j = Some t -> flt t eps64 = false -> exists v w, nth_error V j = Some v /\ isfin v = true /\
  expected_improvement (val fmin) (val m) (val t) w /\ Rabs (val v + w) <= / 10 ^ 8 / 2 + (/ 2 ^ 48 + e) * (Rabs (val fmin - val m) + val t).
Proof. exact (fun K E N => vfei_near cdf pdf e K E N s fmin x mu sd V). Qed.
Theorem C133_aei s cr x mu sd V xb fm : normal_kind cdf pdf -> 0 <= e -> normal_near e cdf pdf ->
  u_predict_std s x = Ok (mu, sd) -> predicted_finite mu sd -> length mu = length x -> effective_best64 s = Ok xb -> u_predict s [xb] = Ok [fm] -> moderate_finite fm ->
  aei_eval64 cdf pdf s cr 0 x = Ok V ->
  forall j m t, nth_error mu j = Some m -> nth_error sd j = Some t -> flt t eps64 = false -> exists v w, nth_error V j = Some v /\ isfin v = true /\
  expected_improvement (val fm) (val m) (val t) w /\ Rabs (val v + w) <= (/ 2 ^ 48 + e) * (Rabs (val fm - val m) + val t).
Proof. exact (fun K E N => aei_near cdf pdf e K E N s cr x mu sd V xb fm). Qed.

(** Order without error: a lower mean and a larger deviation never have a larger lower confidence bound, and a lower mean
    with the same deviation never a larger value of the probability of improvement. *)
Theorem C133_lcb_order predict k0 k1 x mu sd V i j mi si vi mj sj vj : moderate_finite k0 -> moderate_finite k1 -> 0 <= val k0 -> 0 <= val k1 -> predict x = Ok (mu, sd) -> predicted_finite mu sd ->
  lcb_eval64 predict k0 k1 x = Ok V ->
  nth_error mu i = Some mi -> nth_error sd i = Some si -> nth_error V i = Some vi ->
  nth_error mu j = Some mj -> nth_error sd j = Some sj -> nth_error V j = Some vj ->
  val mi <= val mj -> val sj <= val si -> fle vi vj = true.
Proof. exact (lcb_order predict k0 k1 x mu sd V i j mi si vi mj sj vj). Qed.
Theorem C133_pi_order predict y x mu sd V i j mi si vi mj sj vj : normal_kind cdf pdf -> cdf_ordered cdf -> Forall moderate_finite y -> predict x = Ok (mu, sd) -> predicted_finite mu sd ->
  pi_eval64 cdf predict y x = Ok V ->
  nth_error mu i = Some mi -> nth_error sd i = Some si -> nth_error V i = Some vi ->
  nth_error mu j = Some mj -> nth_error sd j = Some sj -> nth_error V j = Some vj ->
  val mi <= val mj -> val si = val sj -> fle vi vj = true.
Proof. exact (fun K => pi_order cdf pdf K predict y x mu sd V i j mi si vi mj sj vj). Qed.
End C133.
Print Assumptions C133_ei.
Print Assumptions C133_choice.
Print Assumptions C133_pi.
Print Assumptions C133_lcb.
Print Assumptions C133_cei.
Print Assumptions C133_vfei.
Print Assumptions C133_aei.
Print Assumptions C133_lcb_order.
Print Assumptions C133_pi_order.

(** constant models at two points, one constraint *)
Example C133_example : let x := [[f0]; [f1]] in
  match ei_eval64 plain_cdf plain_pdf (flat_model half64 f1) [f1; f0] x with Ok V => map isfin V = [true; true] | Raise _ => False end /\
  predicted_finite (map (fun _ => half64) x) (map (fun _ => f1) x) /\ Forall moderate_finite [f1; f0].
Proof.
  cbv zeta. split; [reflexivity|]. split; [|exact (Forall_cons _ one_moderate (Forall_cons _ zero_moderate (Forall_nil _)))].
  apply (flat_finite half64 f1 _ half_moderate one_moderate). exact (proj1 (proj2 unit_f1)).
Qed.
Example C133_cei_example : let x := [[f0]] in
  match cei_eval64 plain_cdf plain_pdf plain_prod (flat_model half64 f1) [f1; f0] [flat_model f1 half64] x with Ok v => isfin v = true | Raise _ => False end /\
  answer x (flat_model half64 f1) (half64, f1) /\ Forall2 (answer x) [flat_model f1 half64] [(f1, half64)].
Proof. cbv zeta. split; [reflexivity|]. split; [reflexivity|]. constructor; [reflexivity|constructor]. Qed.
Example C133_vfei_example : let s := small_surrogate f1 half64 half64 f1 in flt half64 eps64 = false /\
  match vfei_eval64 plain_cdf plain_pdf s f1 0 [[f0]] with Ok V => map isfin V = [true] | Raise _ => False end /\
  match aei_eval64 plain_cdf plain_pdf s f1 0 [[f0]] with Ok V => map isfin V = [true] | Raise _ => False end /\
  match effective_best64 s with Ok xb => map (feq f0) xb = [true] | Raise _ => False end.
Proof. cbv zeta. split; [reflexivity|]. split; [reflexivity|]. split; [reflexivity|reflexivity]. Qed.
