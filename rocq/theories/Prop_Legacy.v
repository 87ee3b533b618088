(** Properties of the older class qgate.Circuit (C40).  Specifications used in the statements: Spec.v, GateSpec.v, CircuitSpec.v, MeasSpec.v,
    LegacySpec.v.  [l_calls (LCircuit n) gs] are the method calls gs on a new object; a call returns the object and the exception, if any. *)
From Coq Require Import List ZArith QArith Reals Lra Lia Bool Arith.
From Coq Require Import Strings.String.
From Verif Require Import PyBase Scalar CInst BigSum Index Tensor Spec SpecFacts QMath QTN QOperator GateSpec QGates GateCalls RunSpec LayerSpec QLayers LayerCalls CircuitSpec QCircuit
  PTSpec QMathC MeasSpec MeasFacts LegacySpec QGateLegacy LegacyFacts LegacyCases.
Import ListNotations.
Local Close Scope Q_scope.
Local Close Scope R_scope.
Local Open Scope nat_scope.

(** C40: the same matrix as the newer class, in both orders of multiplication *)
Theorem C40_agrees : forall n gs, 0 < n -> Forall (gi_ok n) gs -> forallb legacy_call gs = true ->
  exists c cc u u', l_calls (LCircuit (Z.of_nat n)) gs = Some (c, None) /\ l_gates c = flat_map legacy_entry gs /\ circuit_of n (map CG gs) = Ok cc /\
    l_U c = Ok u /\ cU cc true = Ok u /\ l_product c false = Ok u' /\ cU cc false = Ok u' /\ is_op n u (cs_op n (map CG gs)).
Proof. exact legacy_agrees. Qed.
Print Assumptions C40_agrees.
Example C40_case : Forall (gi_ok 3) legacy_demo /\ forallb legacy_call legacy_demo = true.
Proof. exact legacy_demo_ok. Qed.
(** refuted for a second qubit 0: it is taken for "the next one" *)
Theorem C40_second_zero_refuted : forall n c a t, l_N c = Z.of_nat n -> a + 1 < n ->
  l_call c (gi_rxx t a 0) = l_call c (gi_rxx t a (a + 1)) /\ l_call c (gi_ryy t a 0) = l_call c (gi_ryy t a (a + 1)) /\ l_call c (gi_rzz t a 0) = l_call c (gi_rzz t a (a + 1)).
Proof. exact legacy_second_same. Qed.
Print Assumptions C40_second_zero_refuted.
Example C40_second_zero_case : l_N (LCircuit 4) = Z.of_nat 4 /\ 1 + 1 < 4.
Proof. split; [reflexivity|lia]. Qed.
Theorem C40_second_zero_differs_refuted : exists c u, l_call (LCircuit 3) (gi_rxx PI 1 0) = Some (c, None) /\ l_U c = Ok u /\
  is_op 3 u (gi_op 3 (gi_rxx PI 1 2)) /\ ~ is_op 3 u (gi_op 3 (gi_rxx PI 1 0)).
Proof. exact legacy_second_differs. Qed.
Print Assumptions C40_second_zero_differs_refuted.
Theorem C40_second_zero_last : forall n c t, l_N c = Z.of_nat n -> 0 < n ->
  exists c', l_call c (gi_rxx t (n - 1) 0) = Some (c', Some ValueError) /\ l_u c' = l_u c /\ List.length (l_gates c') = List.length (l_gates c) + 1.
Proof. exact legacy_second_zero_last. Qed.
Print Assumptions C40_second_zero_last.
Example C40_second_zero_last_case : exists c', l_call (LCircuit 2) (gi_rxx 1 1 0) = Some (c', Some ValueError) /\ List.length (l_gates c') = 1.
Proof. destruct (legacy_second_zero_last 2 (LCircuit 2) 1 eq_refl ltac:(lia)) as (c' & E & _ & F). exists c'. split; [exact E|exact F]. Qed.
(** bad qubits: refused without a trace, except that a control equal to n_qubits or to the target leaves an entry in gate_list *)
Theorem C40_bad_single : forall name m phi c q, (q < 0 \/ l_N c <= q)%Z -> l_single name m phi c q = (c, Some AssertionError).
Proof. exact legacy_bad_single. Qed.
Print Assumptions C40_bad_single.
Theorem C40_bad_control : forall name m c a b, (l_N c < a \/ b < 0 \/ l_N c <= b)%Z -> l_ctrl name m c a b = (c, Some AssertionError).
Proof. exact legacy_bad_control. Qed.
Print Assumptions C40_bad_control.
Example C40_bad_control_case : (l_N (LCircuit 3) <= 3 /\ l_N (LCircuit 3) < 4 /\ -1 < 0)%Z.
Proof. cbn. lia. Qed.
Theorem C40_failed_call_recorded_refuted : forall name m c a b, (a = l_N c \/ a = b)%Z -> (0 <= b < l_N c)%Z ->
  l_ctrl name m c a b = (mkL (l_N c) (l_gates c ++ [(name, [a; b], None)]) (l_u c), Some ValueError).
Proof. exact legacy_recorded. Qed.
Print Assumptions C40_failed_call_recorded_refuted.
Example C40_failed_call_case : (3 = l_N (LCircuit 3) /\ 0 <= 1 < l_N (LCircuit 3))%Z.
Proof. cbn. lia. Qed.
(** a negative control counts from the end; naming the target that way is not noticed and gives a matrix that is not unitary *)
Theorem C40_negative_control : forall n c k t, l_N c = Z.of_nat n -> 1 <= k <= n -> t < n -> t <> n - k ->
  exists c', l_ctrl "cnot"%string l_x c (- Z.of_nat k) (Z.of_nat t) = (c', None) /\ l_u c' = l_u c ++ [op_tensor n (gi_op n (gi_cnot (n - k) t))].
Proof. exact legacy_negative_cnot. Qed.
Print Assumptions C40_negative_control.
Example C40_negative_control_case : 1 <= 2 <= 3 /\ 0 < 3 /\ 0 <> 3 - 2.
Proof. lia. Qed.
Theorem C40_negative_same_refuted : exists c u, l_ctrl "cnot"%string l_x (LCircuit 2) (-1) 1 = (c, None) /\ l_U c = Ok u /\ shape u = [4; 4] /\ ~ unitary 2 (op_of u).
Proof. exact legacy_not_unitary. Qed.
Print Assumptions C40_negative_same_refuted.
(** measure of a density matrix: no check of the trace, otherwise as qmath.measure *)
Theorem C40_measure : forall n t A, is_op n t A -> l_measure t n = Ok (map (zmean_rho n A) (seq 0 n)).
Proof. exact legacy_measure. Qed.
Print Assumptions C40_measure.
Theorem C40_measure_agrees : forall n t A, 0 < n -> is_op n t A -> (Cabs (Csub (trace_op n A) (RtoC 1)) <= 1 / 10000)%R -> l_measure t n = measure (Z.of_nat n) t INone.
Proof. exact legacy_measure_agrees. Qed.
Print Assumptions C40_measure_agrees.
Example C40_measure_case : is_op 3 (op_tensor 3 (outer (ket [0; 1; 1]%nat))) (outer (ket [0; 1; 1]%nat)) /\
  (Cabs (Csub (trace_op 3 (outer (ket [0; 1; 1]%nat))) (RtoC 1)) <= 1 / 10000)%R.
Proof.
  split; [apply is_op_tensor|]. replace (Csub _ _) with (RtoC 0); [rewrite Cabs_0; lra|]. ceq; cbn; ring.
Qed.
