(** Property of the functions of layers/qlayer.py (C56).  Specification used in the statements: LayerOldSpec.v.  [run_old G c] is the call c
    when the gate functions that the layers call are those of G; [documented G] says that each of them returns the matrix of its gate. *)
From Coq Require Import List ZArith Reals Lra Lia Bool Arith String.
From Verif Require Import PyBase Scalar CInst Tensor Spec GateSpec RunSpec LayerSpec LayerOldSpec QLayerOld LayerOldFacts6 LayerOldFacts7.
Import ListNotations.
Local Close Scope R_scope.
Local Open Scope nat_scope.

(** C56: a valid call returns the matrix of the documented gates, one after the other *)
Theorem C56_layer_function_matrix : forall G c, documented G -> old_valid c ->
  exists u, run_old G c = Ok u /\ is_op (old_qubits c) u (gs_op (old_qubits c) (old_gates c)).
Proof. exact old_valid_gives. Qed.
Print Assumptions C56_layer_function_matrix.
(** C56: any other call raises ValueError *)
Theorem C56_layer_function_rejects : forall G c, documented G -> ~ old_valid c -> run_old G c = Err ValueError.
Proof. exact old_invalid_raises. Qed.
Print Assumptions C56_layer_function_rejects.
(** C56: the gate classes and multi_kron compute the documented matrices *)
Theorem C56_class_gates : documented class_gates.
Proof. exact class_gates_documented. Qed.
Print Assumptions C56_class_gates.

Example C56_case : documented class_gates /\ old_valid (oc_strong_entangle_layer 3 (repeat PI 12) "XZ") /\
  old_gates (oc_ring_of_cnot2 4 false) = [gi_cnot 3 1; gi_cnot 2 0; gi_cnot 1 3; gi_cnot 0 2] /\
  old_gates (oc_nearest_neighbor_cz 5 true) = [gi_cz 0 1; gi_cz 2 3; gi_cz 1 2; gi_cz 3 4] /\
  old_gates (oc_RxxLayer 4 [1; 2; 3]%R) = [gi_rxx 1 0 1; gi_rxx 2 2 3; gi_rxx 3 1 2].
Proof.
  split; [exact class_gates_documented|]. split; [|repeat split; reflexivity]. split; [lia|]. exists 2%Z. split; reflexivity.
Qed.
Example C56_reject_case : ~ old_valid (oc_basic_entangle_layer 3 (repeat PI 9) "XZ") /\ ~ old_valid (oc_HLayer 0).
Proof. split; [|cbn; lia]. intros (_ & w & [= <-] & L). cbn in L. lia. Qed.
