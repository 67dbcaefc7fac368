(** Theorems about objectives that rank points alike (C122), in binary64. *)
From Coq Require Import ZArith Reals Bool List Lia.
From Verif Require Import Fl FlFacts NpList Spec Samplers SamplersSpec EA EASpec EAFacts PSOFacts DEFacts RankSpec RankFacts RankEx Properties_EA.
Import ListNotations.

(** ** C122 PSO and DE use the objective only through comparisons *)
(** With the same draws, an objective whose responses are transformed by a function that keeps comparisons (and a
    stopping value transformed with it) is called with the same populations in the same order, gives the same
    locations, and the values are the transformed ones. *)
Theorem C122_pso : forall D h, increasing_on D h -> forall cfg b func rng stop tr res, responses_in D func -> stop_in D stop ->
  pso_run cfg b func rng stop = (tr, res) ->
  exists res', pso_run cfg b (transformed h func) rng (option_map h stop) = (map (fun c => (fst c, then_apply h (snd c))) tr, res') /\
  match res with Ok out => exists out', res' = Ok out' /\ same_search h (length tr) out out' | Raise e => res' = Raise e end.
Proof. exact pso_rank. Qed.
Print Assumptions C122_pso.
Theorem C122_de : forall D h, increasing_on D h -> forall cfg b func rng stop tr res, responses_in D func -> stop_in D stop ->
  de_run cfg b func rng stop = (tr, res) ->
  exists res', de_run cfg b (transformed h func) rng (option_map h stop) = (map (fun c => (fst c, then_apply h (snd c))) tr, res') /\
  match res with Ok out => exists out', res' = Ok out' /\ same_search h (length tr) out out' | Raise e => res' = Raise e end.
Proof. exact de_rank. Qed.
Print Assumptions C122_de.
(** Multiplying by a power of two 2^k, k >= 0, keeps comparisons as long as nothing overflows. *)
Theorem C122_power_of_two : forall k e, (0 <= k)%Z -> (k + e < 1024)%Z -> (k < 1024)%Z -> increasing_on (size_le e) (fmul (fbin 1 k)).
Proof. exact scale_increasing. Qed.
Print Assumptions C122_power_of_two.
Example C122_ok : increasing_on (size_le 1000) (fmul (fbin 1 3)) /\ responses_in (size_le 1000) (const_func f1) /\ stop_in (size_le 1000) (Some f0) /\
  exists tr out, pso_run ex_pso ex_box (const_func f1) ex_pso_draws (Some f0) = (tr, Ok out).
Proof.
  split; [apply scale_increasing; lia|]. split; [exact (const_in 1000 ltac:(lia))|]. split.
  - intros t [= <-]. exact (zero_in 1000).
  - apply pso_returns; try exact ex_pso_ok; try (simpl; lia). apply const_func_ok.
Qed.
(** Adding a constant need not: rounding can make different responses equal, and the run returns another
    location. *)
Theorem C122_constant_refuted : exists cfg b func rng c tr out tr' out', pso_draws_ok cfg b rng /\ box_ok b /\ isfin c = true /\
  pso_run cfg b func rng None = (tr, Ok out) /\ pso_run cfg b (transformed (fadd c) func) rng None = (tr', Ok out') /\
  o_location out <> o_location out'.
Proof. exact shift_changes. Qed.
Print Assumptions C122_constant_refuted.
