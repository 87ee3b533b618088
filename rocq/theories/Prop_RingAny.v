(** Properties of the rings of cnots and of BasicEntangleLayer on any list of wires (C73).
    Specification: RingAnySpec.v, LayerAnySpec.v; RingAnyCalls.v lists the constructor calls. *)
From Coq Require Import List ZArith QArith Reals Lra Lia Bool Arith.
From Verif Require Import PyBase Scalar CInst BigSum Index Tensor Spec SpecFacts QMath QTN QOperator GateSpec QGates GateCalls RunSpec MPSSpec
  LayerSpec QLayers LayerCalls LayerAnySpec LayerAnyCalls RingAnySpec RingAnyCalls RingAny.
Import ListNotations.
Local Close Scope Q_scope.
Local Close Scope R_scope.
Local Open Scope nat_scope.

(** the matrix is the product of the cnots of consecutive wires when each of them names two different qubits of the register, and ValueError otherwise *)
Theorem C73_ring : forall k n zs, 2 <= length zs -> length zs <= n ->
  exists o, ring_build k n zs = Ok o /\
    (Forall (good_pair n) (pairs (step_of k) zs) -> exists u, layer_U o = Ok u /\ is_op n u (gs_op n (ring_seq k zs))) /\
    (Exists (fun p => ~ good_pair n p) (pairs (step_of k) zs) -> layer_U o = Err ValueError).
Proof. exact ring_any. Qed.
Print Assumptions C73_ring.
(** qubit 0 twice: accepted in a ring of step one, refused in a ring of step two; a negative wire is refused *)
Example C73_ring_case : Forall (good_pair 4) (pairs 1 [0; 1; 0; 2]%Z) /\ ring_seq RK [0; 1; 0; 2]%Z = [gi_cnot 0 1; gi_cnot 1 0; gi_cnot 0 2; gi_cnot 2 0] /\
  ring_seq RKdag [0; 1; 0; 2]%Z = [gi_cnot 2 0; gi_cnot 0 2; gi_cnot 1 0; gi_cnot 0 1] /\
  Exists (fun p => ~ good_pair 4 p) (pairs 2 [0; 1; 0; 2]%Z) /\ Exists (fun p => ~ good_pair 4 p) (pairs 1 [0; 1; -1]%Z) /\ Exists (fun p => ~ good_pair 4 p) (pairs 1 [0; 0; 1]%Z).
Proof.
  split. { cbn. repeat (apply Forall_cons; [unfold good_pair; cbn [fst snd]; lia|]). constructor. } split; [reflexivity|]. split; [reflexivity|].
  split; [left; unfold good_pair; cbn; lia|]. split; [right; left; unfold good_pair; cbn; lia|left; unfold good_pair; cbn; lia].
Qed.

(** the inverse ring has the adjoint matrix, also when a qubit is listed more than once *)
Theorem C73_undo : forall k n zs, k <> RK2 -> 2 <= length zs -> length zs <= n -> Forall (good_pair n) (pairs 1 zs) ->
  exists o od u ud, ring_build k n zs = Ok o /\ layer_dagger o = Ok (Some od) /\ layer_U o = Ok u /\ layer_U od = Ok ud /\ is_op n ud (adj_op (op_of u)).
Proof. exact ring_any_undo. Qed.
Print Assumptions C73_undo.
Example C73_undo_case : RKdag <> RK2 /\ Forall (good_pair 5) (pairs 1 [4; 1; 4; 0]%Z).
Proof. split; [discriminate|]. cbn. repeat (apply Forall_cons; [unfold good_pair; cbn [fst snd]; lia|]). constructor. Qed.

(** contraction and the matrix product form exist for the wires 0, ..., n-1 in this order only *)
Theorem C73_tensor_forms_refused : forall k n zs, k <> RK2 -> 2 <= length zs -> length zs <= n -> zs <> map Z.of_nat (seq 0 n) ->
  exists o, ring_build k n zs = Ok o /\ (forall t b, layer_TN_contract o t b = Err ValueError) /\ (forall svd m, layer_TN_operation svd o m = Err ValueError).
Proof. exact ring_any_TN. Qed.
Print Assumptions C73_tensor_forms_refused.
Example C73_tensor_forms_refused_case : [1; 2; 0]%Z <> map Z.of_nat (seq 0 3) /\ [0; 1]%Z <> map Z.of_nat (seq 0 3) /\ [0; 1; -1]%Z <> map Z.of_nat (seq 0 3).
Proof. repeat split; discriminate. Qed.

(** BasicEntangleLayer: each repetition is the layer of YZY rotations with the next angles, then the ring *)
Theorem C73_entangle : forall n zs ps rep, 2 <= length zs -> length zs <= n -> 1 <= rep -> length ps = 3 * length zs * rep ->
  exists o, basic_build n zs ps rep = Ok o /\
    (Forall (good_pair n) (pairs 1 zs) -> exists u, layer_U o = Ok u /\ is_op n u (entangle_op n rep zs ps)) /\
    (Exists (fun p => ~ good_pair n p) (pairs 1 zs) -> layer_U o = Err ValueError).
Proof. exact basic_any. Qed.
Print Assumptions C73_entangle.
(** qubit 0 listed first and third: only the third rotation is applied to it, all four cnots act *)
Example C73_entangle_case : let zs := [0; 1; 0; 2]%Z in let ps := map INR (seq 0 24) in length ps = 3 * length zs * 2 /\ Forall (good_pair 4) (pairs 1 zs) /\
  last_gate (map (qubit 4) zs) (sg_gates (sg_rot KYZY ps) 4) 0 = sg_gate (sg_rot KYZY ps) 2.
Proof. cbv zeta. split; [reflexivity|]. split; [|reflexivity]. cbn. repeat (apply Forall_cons; [unfold good_pair; cbn [fst snd]; lia|]). apply Forall_nil. Qed.
