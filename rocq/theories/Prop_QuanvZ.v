(** C86: the observables listed by the function Zmeasure of quanv.py.  Specifications used in the statements: Spec.v, CircuitSpec.v,
    MPSSpec.v (exact_svd), MeasSpec.v (zmean, vector_shape). *)
From Coq Require Import List ZArith QArith Reals Lra Lia Bool Arith.
From Verif Require Import PyBase Scalar CInst BigSum Index Tensor Spec SpecFacts GateSpec RunSpec LayerSpec MPSSpec CircuitSpec QMath QMathC QTN QOperator QGates GateCalls QLayers LayerCalls
  QCircuit CircuitFacts1 CircuitCases MPSFacts7 MPSCases MeasSpec MeasCases QQuanv QQuanv2 QuanvZ.
Import ListNotations.
Local Close Scope Q_scope.
Local Close Scope R_scope.
Local Open Scope nat_scope.

(** Z on each qubit in turn; measure() and QuanConv2D use the same list *)
Theorem C86_same_lists : forall c, exists Ms, circuit_Zmeasure c = Ok Ms /\ Zmeasure (Z.of_nat (c_N c)) INone = Ok Ms /\ qc_Zmeasure (c_N c) = Ok Ms /\
  length Ms = c_N c /\ forall i M, nth_error Ms i = Some M -> is_op (c_N c) M (lift Z_op [i]).
Proof. exact same_lists. Qed.
Print Assumptions C86_same_lists.
(** the expectation values of the list are the means of Z in the final state, and are what measure() reports for the final state *)
Theorem C86_expectations : forall svd n cs t psi TN, exact_svd svd -> 0 < n -> Forall (ci_ok n) cs -> is_state n [1; 2 ^ n] t psi ->
  (TN = true -> nonzero n psi /\ forallb (ci_TN n) cs = true) ->
  exists c Ms, circuit_of n cs = Ok c /\ circuit_Zmeasure c = Ok Ms /\
    mmap (fun M => cir_expectation svd c t M TN) Ms = Ok (map (zmean n (act n (cs_op n cs) psi)) (seq 0 n)) /\
    forall s u, is_state n s u (act n (cs_op n cs) psi) -> wf u -> vector_shape n s ->
      measure (Z.of_nat n) u INone = mmap (fun M => cir_expectation svd c t M TN) Ms.
Proof. exact listed_expectations. Qed.
Print Assumptions C86_expectations.
Example C86_case : exact_svd triv_svd /\ Forall (ci_ok 3) demo /\ forallb (ci_TN 3) demo = true /\ is_state 3 [1; 2 ^ 3] (mkT [1; 8] (map ghz (bits 3))) ghz /\ nonzero 3 ghz /\
  vector_shape 3 [8].
Proof.
  split; [exact some_exact_svd|]. split; [exact demo_ok|]. split; [reflexivity|].
  split; [exact (proj1 (proj2 (proj2 (proj2 backends_case))))|]. split; [exact ghz_nonzero|]. apply (vector_shape_1 3). lia.
Qed.
