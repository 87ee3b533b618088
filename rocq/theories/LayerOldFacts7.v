(** Lemmas: the gates of gates/qoperator.py return the documented matrices. *)
From Coq Require Import List ZArith Reals Lra Lia ZifyBool Bool Arith Setoid Morphisms String.
From Verif Require Import PyBase Scalar CInst BigSum Index Tensor TensorFacts Spec SpecFacts QMath QTN QOperator ExpandFacts ExpandFacts2 GateSpec QGates GateCalls GateFacts GateFacts2 GateProofs RunSpec MPSSpec
  LayerSpec QLayers LayerFacts1 LayerFacts2 LayerFacts3 LayerFacts4 MPSFacts4 LayerOldSpec QLayerOld LayerOldFacts2 LayerOldFacts3.
Import ListNotations.
Local Close Scope R_scope.
Local Open Scope nat_scope.

Lemma fold_kron_ops : forall ts fs, Forall2 (fun t f => is_op (SC := C_scalar) (fst f) t (snd f)) ts fs -> forall m A,
  fold_left kron ts (op_tensor m A) = op_tensor (m + list_sum (map fst fs)) (fun r c => Cmul (A (firstn m r) (firstn m c)) (kron_ops fs (skipn m r) (skipn m c))).
Proof.
  intros ts fs H. induction H as [|t [k B] ts fs Ht H IH]; intros m A.
  - cbn. rewrite Nat.add_0_r. apply op_tensor_ext. intros r c Hr Hc. rewrite !firstn_all2 by (rewrite (bits_length m); auto). destruct (A r c). apply C_eq; cbn; ring.
  - apply is_op_eq in Ht. cbn [fst snd] in Ht. subst t. cbn [fold_left map fst]. rewrite (kron_op (SC := C_scalar)), IH.
    change (list_sum (k :: map fst fs)) with (k + list_sum (map fst fs)). rewrite Nat.add_assoc. apply op_tensor_ext. intros r c Hr Hc.
    rewrite !firstn_firstn. replace (Nat.min m (m + k)) with m by lia. rewrite !skipn_firstn_comm. replace (m + k - m) with k by lia.
    cbn [kron_ops]. rewrite !skipn_skipn'. 
    destruct (A (firstn m r) (firstn m c)), (B (firstn k (skipn m r)) (firstn k (skipn m c))), (kron_ops fs (skipn (m + k) r) (skipn (m + k) c)). apply C_eq; cbn; ring.
Qed.
Lemma multi_kron_ops : forall ts fs, fs <> [] -> Forall2 (fun t f => is_op (SC := C_scalar) (fst f) t (snd f)) ts fs -> gives (multi_kron ts) (list_sum (map fst fs)) (kron_ops fs).
Proof.
  intros ts fs Hn H. destruct H as [|t [k B] ts fs Ht H]; [congruence|]. apply is_op_eq in Ht. cbn [fst snd] in Ht. subst t. cbn [multi_kron].
  rewrite (fold_kron_ops _ _ H). apply gives_tensor.
Qed.
Lemma lift_0 : forall A, op_eq (SC := C_scalar) 1 (lift A [0]) A.
Proof.
  intros A r c Hr Hc. cbn in Hr, Hc. unfold lift. destruct Hr as [<-|[<-|[]]], Hc as [<-|[<-|[]]]; cbn; match goal with |- _ = ?z => destruct z end; apply C_eq; cbn; ring.
Qed.
Lemma U_of_one : forall t c A, In (c, A) (one_qubit_calls 1 0 t 0 0) -> gives (U_of c) 1 A.
Proof.
  intros t c A H. destruct (one_qubit_matrix 1 0 t 0%R 0%R c A ltac:(lia) H) as (o & u & -> & U & I). exists u. split; [exact U|].
  apply (is_op_ext 1 u (lift A [0])); [exact I|apply lift_0].
Qed.
Lemma U_of_ctrl : forall n c t k A, good_wires n [c; t] -> In (k, A) (controlled_calls n c t 0 0 0) -> gives (U_of k) n (ctrl [c] (lift A [t])).
Proof.
  intros n c t k A W H. destruct (gw2 n c t W) as (Hc & Ht & Hn). destruct (controlled_matrix n c t 0%R 0%R 0%R k A Hc Ht Hn H) as (o & u & -> & U & I). now exists u.
Qed.
Lemma U_of_two : forall t k P, In (k, P) (rotation2_calls 2 0 1 t) -> gives (U_of k) 2 (rpp_op P 2 t 0 1).
Proof.
  intros t k P H. destruct (rotation2_matrix 2 0 1 t k P ltac:(lia) ltac:(lia) ltac:(lia) H) as (o & u & -> & U & I & _). now exists u.
Qed.
Lemma class_gates_documented : documented class_gates.
Proof.
  constructor.
  - intros t. apply (U_of_one t). cbn. tauto.
  - intros t. apply (U_of_one t). cbn. tauto.
  - intros t. apply (U_of_one t). cbn. tauto.
  - apply (U_of_one 0%R). cbn. tauto.
  - exact multi_kron_ops.
  - intros n c t W. apply U_of_ctrl; [exact W|]. cbn. tauto.
  - intros n c t W. apply U_of_ctrl; [exact W|]. cbn. tauto.
  - intros t. apply U_of_two. cbn. tauto.
  - intros t. apply U_of_two. cbn. tauto.
  - intros t. apply U_of_two. cbn. tauto.
Qed.
