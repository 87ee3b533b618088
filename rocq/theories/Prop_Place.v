(** C64: circuits moved to other wires.  Specifications used in the statements: Spec.v, GateSpec.v, LayerSpec.v, CircuitSpec.v, MPSSpec.v,
    PlaceSpec.v.  The circuit cs is on the wires 0, ..., k-1 of a register of k = length ws qubits; [map (move ws) cs] is the same list of
    operations on the wires ws of a register of n qubits. *)
From Coq Require Import List ZArith Reals Lia Bool Arith.
From Verif Require Import PyBase Scalar CInst Tensor Spec QMath QTN QOperator GateSpec QGates GateCalls RunSpec MPSSpec LayerSpec QLayers LayerCalls
  CircuitSpec QCircuit MPSFacts7 MPSCases CircuitFacts1 CircuitCases PlaceSpec PlaceFacts.
Import ListNotations.
Local Close Scope R_scope.
Local Open Scope nat_scope.

(** the matrix of the moved circuit acts on the wires ws as the matrix of the small one, and as the identity on the others *)
Theorem C64_matrix : forall n ws cs, 0 < n -> ws <> [] -> good_wires n ws -> Forall (ci_ok (length ws)) cs -> exists c u c' u',
  circuit_of (length ws) cs = Ok c /\ cU c true = Ok u /\ circuit_of n (map (move ws) cs) = Ok c' /\ cU c' true = Ok u' /\
  is_op n u' (lift (op_of u) ws).
Proof. exact place_matrix. Qed.
Print Assumptions C64_matrix.
Example C64_matrix_case : good_wires 5 [4; 0; 2] /\ Forall (ci_ok (length [4; 0; 2])) demo. Proof. split; [gw|exact demo_ok]. Qed.
(** if ws is a permutation of all wires: the same entries, with the bits of the row and of the column renamed *)
Theorem C64_renaming : forall n ws cs, 0 < n -> good_wires n ws -> length ws = n -> Forall (ci_ok n) cs -> exists c u c' u',
  circuit_of n cs = Ok c /\ cU c true = Ok u /\ circuit_of n (map (move ws) cs) = Ok c' /\ cU c' true = Ok u' /\
  forall r s, In r (bits n) -> In s (bits n) -> tget u' [bval r; bval s] = tget u [bval (rd r ws); bval (rd s ws)].
Proof. exact place_rename. Qed.
Print Assumptions C64_renaming.
Example C64_renaming_case : good_wires 3 [2; 0; 1] /\ length [2; 0; 1] = 3 /\ Forall (ci_ok 3) demo /\ rd [1; 0; 0] [2; 0; 1] = [0; 1; 0].
Proof. split; [gw|]. split; [reflexivity|]. split; [exact demo_ok|reflexivity]. Qed.
(** the same of the state the contraction ends with *)
Theorem C64_contract : forall n ws cs s, ws <> [] -> good_wires n ws -> Forall (ci_ok (length ws)) cs -> forallb (ci_con n) (map (move ws) cs) = true ->
  shape s = repeat 2 n -> wf s -> exists c u c' s',
  circuit_of (length ws) cs = Ok c /\ cU c true = Ok u /\ circuit_of n (map (move ws) cs) = Ok c' /\ TN_contract_evolution c' s false = Ok s' /\
  is_state n (repeat 2 n) s' (apply_on (op_of u) ws (amp s)).
Proof. exact place_contract. Qed.
Print Assumptions C64_contract.
Example C64_contract_case : let cs := [CL (li_rot KXZ [2; 1] [1; 2; 3; 4]%R); CG (gi_toffoli 0 2 1); CG (gi_cu3 1 2 3 2 0)] in
  good_wires 5 [4; 0; 2] /\ Forall (ci_ok (length [4; 0; 2])) cs /\ forallb (ci_con 5) (map (move [4; 0; 2]) cs) = true.
Proof. split; [gw|]. split; [|reflexivity]. repeat (apply Forall_cons; [ciok|]). apply Forall_nil. Qed.
(** the same of the matrix product state *)
Theorem C64_mps : forall svd n ws cs l psi, exact_svd svd -> ws <> [] -> good_wires n ws -> Forall (ci_ok (length ws)) cs ->
  forallb (ci_TN n) (map (move ws) cs) = true -> is_mps n l psi -> nonzero n psi -> exists c u c' l',
  circuit_of (length ws) cs = Ok c /\ cU c true = Ok u /\ circuit_of n (map (move ws) cs) = Ok c' /\ TN_evolution svd c' l = Ok l' /\
  is_mps n l' (apply_on (op_of u) ws psi).
Proof. exact place_mps. Qed.
Print Assumptions C64_mps.
Example C64_mps_case : let cs := [CG (gi_H 1); CG (gi_cnot 0 1)] in exact_svd triv_svd /\ good_wires 3 [2; 0] /\ Forall (ci_ok (length [2; 0])) cs /\
  forallb (ci_TN 3) (map (move [2; 0]) cs) = true /\ is_mps 3 ghz_mps ghz /\ nonzero 3 ghz.
Proof.
  destruct backends_case as (A & _ & _ & _ & D & E). split; [exact A|]. split; [gw|]. split; [|split; [reflexivity|auto]].
  constructor; [ciok|]. constructor; [ciok|constructor].
Qed.
