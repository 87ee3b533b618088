(** Properties of values computed from a matrix product state whose small singular values are dropped (C55).  Specifications used in the
    statements: Spec.v, MeasSpec.v (zmean, norm2), TruncSpec.v (true_svd, cut_count), TruncRunSpec.v (ci_moves), CircuitSpec.v (expect). *)
From Coq Require Import List ZArith QArith Reals Lra Lia Bool Arith.
From Verif Require Import PyBase Scalar CInst BigSum Index Tensor Spec SpecFacts QMath QMathC QTN QOperator GateSpec QGates GateCalls RunSpec CircuitSpec QCircuit CircuitCases
  MPSSpec MeasSpec TruncSpec SVDExist5 TruncRunSpec TruncRun9 TruncRun10.
Import ListNotations.
Local Close Scope Q_scope.
Local Close Scope R_scope.
Local Open Scope nat_scope.

(** C55: the expectation value of an observable that lengthens no vector by more than a factor B.  With the default TN=True the value is
    within B e (2 + e) of the one given by the matrices, e being the bound of C54 on the distance of the states. *)
Theorem C55_expectation_error_bound : forall svd n cs t (psi : @qstate C_scalar) m M B, true_svd svd -> 0 < n -> Forall (ci_ok n) cs -> forallb (ci_TN n) cs = true ->
  is_state n [1; 2 ^ n] t psi -> norm2 n psi = 1%R -> (INR (cut_count n (n - 1)) <= 10 ^ 14)%R -> (INR (ci_moves cs) <= 2 * 10 ^ 6)%R ->
  is_op n m M -> (0 <= B)%R -> (forall h, norm2 n (act n M h) <= B * B * norm2 n h)%R ->
  exists c v, circuit_of n cs = Ok c /\ cir_expectation svd c t m true = Ok v /\
    (let e := (sqrt (INR (cut_count n (n - 1))) + 8 * INR (ci_moves cs)) * / 10 ^ 8 in Rabs (v - expect n cs psi M) <= B * (e * (2 + e)))%R.
Proof. exact expectation_true. Qed.
Print Assumptions C55_expectation_error_bound.
Example C55_expectation_case : is_op 3 (op_tensor 3 (lift Z_op [1])) (lift Z_op [1]) /\ (forall h, norm2 3 (act 3 (lift Z_op [1%nat]) h) <= 1 * 1 * norm2 3 h)%R.
Proof. exact Z3_bound. Qed.

(** C55: the Z measurement of every qubit of the evolved state *)
Theorem C55_measure_error_bound : forall svd n cs t (psi : @qstate C_scalar), true_svd svd -> 0 < n -> Forall (ci_ok n) cs -> forallb (ci_TN n) cs = true ->
  is_state n [1; 2 ^ n] t psi -> norm2 n psi = 1%R -> (INR (cut_count n (n - 1)) <= 10 ^ 14)%R -> (INR (ci_moves cs) <= 2 * 10 ^ 6)%R ->
  exists c l l' t' vs, circuit_of n cs = Ok c /\ StateVec2MPS svd t n = Ok l /\ TN_evolution svd c l = Ok l' /\ MPS2StateVec l' = Ok t' /\
    measure (Z.of_nat n) t' INone = Ok vs /\ length vs = n /\
    forall i, i < n -> (let e := (sqrt (INR (cut_count n (n - 1))) + 8 * INR (ci_moves cs)) * / 10 ^ 8 in
      Rabs (nth i vs 0 - zmean n (act n (cs_op n cs) psi) i) <= e * (2 + e))%R.
Proof. exact measure_true. Qed.
Print Assumptions C55_measure_error_bound.
Example C55_case : (exists svd : @tensor C_scalar -> _, true_svd svd) /\ Forall (ci_ok 3) demo /\ forallb (ci_TN 3) demo = true /\
  is_state 3 [1; 2 ^ 3] (mkT [1; 8] (map zero3 (bits 3))) zero3 /\ norm2 3 zero3 = 1%R /\
  (INR (cut_count 3 (3 - 1)) <= 10 ^ 14)%R /\ 0 < ci_moves demo /\ (INR (ci_moves demo) <= 2 * 10 ^ 6)%R.
Proof. exact circuit_true_case. Qed.
