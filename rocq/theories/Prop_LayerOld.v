(** Property of the functions of layers/qlayer.py (C53).  Specification used in the statements: LayerOldSpec.v.  [run_old cir_class c] is
    the call c, the gates being reached through the class qgate.Circuit as in the code. *)
From Coq Require Import List ZArith Reals Lra Lia Bool Arith String.
From Verif Require Import PyBase Scalar CInst Tensor LayerOldSpec QLayerOld LayerOldFacts.
Import ListNotations.
Local Close Scope R_scope.
Local Open Scope nat_scope.

(** C53, refuted: no call returns a matrix, whatever the arguments *)
Theorem C53_no_call_returns_refuted : forall c u, run_old cir_class c <> Ok u.
Proof. exact old_never_returns. Qed.
Print Assumptions C53_no_call_returns_refuted.

(** C53: a call with valid arguments raises AttributeError if the layer is made of CNOT or CZ gates only, TypeError otherwise *)
Theorem C53_valid_call_raises : forall c, old_valid c -> run_old cir_class c = Err (if only_controlled c then AttributeError else TypeError).
Proof. exact old_valid_raises. Qed.
Print Assumptions C53_valid_call_raises.
Example C53_case : old_valid (oc_ring_of_cnot 5 true) /\ old_valid (oc_basic_entangle_layer 3 (repeat PI 9) "YZY") /\ old_valid (oc_RxxLayer 4 [1; 2; 3]%R).
Proof. split; [cbn; lia|]. split; [|cbn; lia]. split; [lia|]. exists 3%Z. split; reflexivity. Qed.
