(** Theorems about adding samples to the low-fidelity model of Co-Kriging (C125).
    [lgp_update_model] (CKGrow.v) is one call of update_model with the search it runs; [grown o bs] is the object
    after the calls [bs], whose exceptions are caught; [held] are the samples an object holds, in order. *)
From Coq Require Import Reals Lra.
From Verif Require Import Fl.
From mathcomp Require Import all_ssreflect all_algebra.
From Verif Require Import RStruct LinAlg LinSpec Kernel Krig GP GPSpec GPMain MF CoKrig MFSpec CoKrigMain GPState GPStateSpec GPStateFacts CKState CKStateSpec CKStateFacts CKStateEx CKGrow CKGrowSpec CKGrowFacts.
Set Implicit Arguments.
Unset Strict Implicit.
Unset Printing Implicit Defensive.
Import GRing.Theory.
Local Open Scope ring_scope.

(** ** C125 adding samples to the low-fidelity model *)

(** no sample is lost, reordered or counted wrongly, whatever calls failed *)
Theorem C125_samples : forall d n (o : attrs d 1) (X : 'M[R]_(n, d)) (Y : 'cV[R]_n) s bs,
  let g := grown (lgp_train_attrs o X Y s).1 bs in
  held g = points X Y ++ flatten [seq points_of b | b <- bs] /\ lgp_num_samples g = Ok (size (held g)).
Proof. exact grown_holds. Qed.
Print Assumptions C125_samples.
(** With a given noise the last call of a sequence does what one training on all samples does to the object as it
    was before the first training: it succeeds or raises alike, and when it succeeds the objects are the same. *)
Theorem C125_once : forall d n (o : attrs d 1) (X : 'M[R]_(n, d)) (Y : 'cV[R]_n) s v bs b, a_noise o = Some v ->
  let g := grown (lgp_train_attrs o X Y s).1 bs in
  exists n' (X' : 'M[R]_(n', d)) (Y' : 'cV[R]_n'),
    points X' Y' = points X Y ++ flatten [seq points_of b' | b' <- bs] ++ points_of b /\
    (lgp_update_model g b).2 = (lgp_train_attrs o X' Y' (b_search b)).2 /\
    ((lgp_update_model g b).2 = Ok tt -> (lgp_update_model g b).1 = (lgp_train_attrs o X' Y' (b_search b)).1).
Proof. exact grown_trained. Qed.
Print Assumptions C125_once.
Example C125_ok : a_noise (attrs_new 1 1 (Some R0) 0) = Some R0 /\
  (lgp_update_model (grown (gx_o (Some R0)) [::]) (gx_b (gx_search 1))).2 = Ok tt.
Proof. exact (conj erefl (gx_update_ok (Some R0) 1)). Qed.
(** A noise to be learned is learned by the first successful training only, and kept by all further calls. *)
Theorem C125_learned : forall d n (o : attrs d 1) (X : 'M[R]_(n, d)) (Y : 'cV[R]_n) s bs, a_noise o = None ->
  (lgp_train_attrs o X Y s).2 = Ok tt ->
  exists h, result_of s (a_restart o) h /\ a_noise (grown (lgp_train_attrs o X Y s).1 bs) = Some (h_sigma h).
Proof. exact grown_learned. Qed.
Print Assumptions C125_learned.
Example C125_learned_ok : a_noise (attrs_new 1 1 None 0) = None /\ (lgp_train_attrs (attrs_new 1 1 None 0) fx_X fx_Y (gx_search 1)).2 = Ok tt.
Proof. exact (conj erefl (gx_o_ok None)). Qed.
(** so the same samples and the same search give another noise than one training on all samples *)
Theorem C125_learned_refuted : exists n (X : 'M[R]_(n, 1)) (Y : 'cV[R]_n) s (b : batch 1),
  let o := attrs_new 1 1 None 0 in
  let first := lgp_train_attrs o X Y s in
  let grown := lgp_update_model first.1 b in
  let once := lgp_train_attrs o (col_mx X (b_x b)) (col_mx Y (b_y b)) (b_search b) in
  first.2 = Ok tt /\ grown.2 = Ok tt /\ once.2 = Ok tt /\ held grown.1 = held once.1 /\ a_noise grown.1 = Some 1%Re /\ a_noise once.1 = Some 2%Re.
Proof. exact learned_refuted. Qed.
Print Assumptions C125_learned_refuted.
(** A failed update keeps the new samples without a model for them: predictions raise ValueError. *)
Theorem C125_failed : forall d n (o : attrs d 1) (X : 'M[R]_(n, d)) (Y : 'cV[R]_n) s b e m (Xq : 'M[R]_(m, d)),
  let t := lgp_train_attrs o X Y s in
  t.2 = Ok tt -> (0 < b_n b)%N -> (lgp_update_model t.1 b).2 = Raise e ->
  e = UnboundLocalError /\ lgp_predict_attrs (lgp_update_model t.1 b).1 Xq = Raise ValueError /\
  lgp_predict_std_attrs (lgp_update_model t.1 b).1 Xq = Raise ValueError.
Proof. exact failed_update. Qed.
Print Assumptions C125_failed.
Example C125_failed_ok : (lgp_train_attrs (attrs_new 1 1 (Some R0) 0) fx_X fx_Y (gx_search 1)).2 = Ok tt /\
  (0 < b_n (gx_b fx_nothing))%N /\ (lgp_update_model (gx_o (Some R0)) (gx_b fx_nothing)).2 = Raise UnboundLocalError.
Proof. exact (conj (gx_o_ok _) (conj isT (gx_update_fails _))). Qed.
(** and repeating the call adds the samples a second time *)
Theorem C125_retry_refuted : exists (o : attrs 1 1) (b : batch 1) s,
  let failed := lgp_update_model o b in
  let again := lgp_update_model failed.1 (Batch (b_x b) (b_y b) s) in
  let once := lgp_update_model o (Batch (b_x b) (b_y b) s) in
  failed.2 = Raise UnboundLocalError /\ again.2 = Ok tt /\ once.2 = Ok tt /\
  lgp_num_samples once.1 = Ok 3%N /\ lgp_num_samples again.1 = Ok 4%N.
Proof. exact retry_refuted. Qed.
Print Assumptions C125_retry_refuted.
(** before the first training there is nothing to add to *)
Theorem C125_untrained : forall d noise r (b : batch d),
  lgp_update_model (attrs_new d 1 noise r) b = (attrs_new d 1 noise r, Raise AttributeError) /\
  lgp_num_samples (attrs_new d 1 noise r) = Raise AttributeError.
Proof. exact (fun d noise r b => conj erefl erefl). Qed.
Print Assumptions C125_untrained.
