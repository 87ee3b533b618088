(** C88: gradient descent with the parameter-shift gradient.  Specifications used in the statements: Spec.v, GateSpec.v, LayerSpec.v, CircuitSpec.v, MPSSpec.v, MeasSpec.v,
    GradSpec.v, ObsSpec.v, SmoothSpec.v. *)
From Coq Require Import List ZArith Reals Lra Lia Bool Arith.
From Verif Require Import PyBase Scalar CInst Tensor Spec SpecFacts QMath QTN QOperator GateSpec QGates GateCalls GateFacts4 RunSpec MPSSpec LayerSpec QLayers LayerCalls
  CircuitSpec QCircuit MPSFacts7 MPSCases CircuitFacts1 CircuitProofs CircuitCases MeasSpec GradSpec QGradient ObsSpec ObsProofs SmoothSpec SmoothProofs DescentProofs DescentRun GradDemo.
Import ListNotations.
Local Close Scope R_scope.
Local Open Scope nat_scope.

(** without cu3 the returned list predicts the change of the value up to an error quadratic in the change of the angles *)
Theorem C88_prediction : forall svd n cs u v t psi m M lo hi TN, exact_svd svd -> 0 < n -> Forall (ci_ok n) cs -> forallb two_term cs = true -> length u = length (cs_angles cs) -> length v = length (cs_angles cs) ->
  existsb matrix_only cs = true \/ (forallb (ci_TN n) cs = true /\ nonzero n psi) -> is_state n [1; 2 ^ n] t psi -> is_op n m M -> values_in n lo hi M -> (TN = true -> nonzero n psi /\ forallb (ci_TN n) cs = true) ->
  exists c d g x y, circuit_of n (cs_with cs u) = Ok c /\ cal_params_grad svd t m c = Ok (g, c) /\ cir_expectation svd c t m TN = Ok x /\
    circuit_of n (cs_with cs v) = Ok d /\ cir_expectation svd d t m TN = Ok y /\ length g = length u /\
    (Rabs (y - x - predicted g u v) <= (hi - lo) / 2 * norm2 n psi * total_change u v * total_change u v)%R.
Proof. exact prediction. Qed.
Print Assumptions C88_prediction.
(** a step of gradient descent with learning rate e lowers the value by at least this much *)
Theorem C88_descent : forall svd n cs u e t psi m M lo hi TN, exact_svd svd -> 0 < n -> Forall (ci_ok n) cs -> forallb two_term cs = true -> length u = length (cs_angles cs) ->
  existsb matrix_only cs = true \/ (forallb (ci_TN n) cs = true /\ nonzero n psi) -> is_state n [1; 2 ^ n] t psi -> is_op n m M -> values_in n lo hi M -> (TN = true -> nonzero n psi /\ forallb (ci_TN n) cs = true) -> (0 <= e)%R ->
  exists c d g x y, circuit_of n (cs_with cs u) = Ok c /\ cal_params_grad svd t m c = Ok (g, c) /\ cir_expectation svd c t m TN = Ok x /\
    circuit_of n (cs_with cs (descend e u g)) = Ok d /\ cir_expectation svd d t m TN = Ok y /\ length g = length u /\
    (y <= x - e * (1 - e * ((hi - lo) / 2 * norm2 n psi * INR (length u))) * sum_sq g)%R.
Proof. exact descent. Qed.
Print Assumptions C88_descent.
(** so with a small learning rate the value goes down, strictly unless the returned list is zero *)
Theorem C88_decrease : forall svd n cs u e t psi m M lo hi TN, exact_svd svd -> 0 < n -> Forall (ci_ok n) cs -> forallb two_term cs = true -> length u = length (cs_angles cs) ->
  existsb matrix_only cs = true \/ (forallb (ci_TN n) cs = true /\ nonzero n psi) -> is_state n [1; 2 ^ n] t psi -> is_op n m M -> values_in n lo hi M -> (TN = true -> nonzero n psi /\ forallb (ci_TN n) cs = true) ->
  (0 < e)%R -> (e * ((hi - lo) / 2 * norm2 n psi * INR (length u)) < 1)%R ->
  exists c d g x y, circuit_of n (cs_with cs u) = Ok c /\ cal_params_grad svd t m c = Ok (g, c) /\ cir_expectation svd c t m TN = Ok x /\
    circuit_of n (cs_with cs (descend e u g)) = Ok d /\ cir_expectation svd d t m TN = Ok y /\ length g = length u /\
    (y <= x)%R /\ ((exists k, k < length u /\ nth k g 0%R <> 0%R) -> (y < x)%R).
Proof. exact decrease. Qed.
Print Assumptions C88_decrease.
Example C88_case : exact_svd triv_svd /\ Forall (ci_ok 3) demo_shift /\ forallb two_term demo_shift = true /\ forallb (ci_TN 3) demo_shift = true /\ nonzero 3 ghz /\ is_op 3 (op_tensor 3 (lift Z_op [1])) (lift Z_op [1]) /\
  values_in 3 (-1) 1 (lift Z_op [1]) /\ 0 < length (cs_angles demo_shift) /\ exists e, (0 < e)%R /\ (e * ((1 - -1) / 2 * norm2 3 ghz * INR (length (cs_angles demo_shift))) < 1)%R.
Proof.
  destruct backends_case as (A & _ & _ & _ & E & _). split; [assumption|]. split; [exact demo_shift_ok|]. split; [reflexivity|]. split; [reflexivity|]. split; [assumption|]. split; [apply is_op_tensor|]. split; [|split; [cbn; lia|]].
  - apply unitary_values. apply lift_unitary; [gw|]. apply Z_unitary.
  - set (q := ((1 - -1) / 2 * norm2 3 ghz * INR (length (cs_angles demo_shift)))%R). clearbody q. exists (/ (1 + Rabs q))%R. pose proof (Rabs_pos q) as P. pose proof (Rle_abs q) as Q.
    split; [apply Rinv_0_lt_compat; lra|]. apply (Rmult_lt_reg_l (1 + Rabs q)); [lra|]. rewrite <- Rmult_assoc, Rinv_r by lra. lra.
Qed.
(** T steps of descent: at one of the angles visited the sum of the squares of the returned list is at most proportional to 1 / T; C88_case meets the hypotheses *)
Theorem C88_many_steps : forall svd n cs u e t psi m M lo hi T, exact_svd svd -> 0 < n -> Forall (ci_ok n) cs -> forallb two_term cs = true -> length u = length (cs_angles cs) ->
  existsb matrix_only cs = true \/ (forallb (ci_TN n) cs = true /\ nonzero n psi) -> is_state n [1; 2 ^ n] t psi -> is_op n m M -> values_in n lo hi M -> (0 <= e)%R -> 0 < T ->
  exists gs, length gs = T /\
    (forall i, i < T -> exists c, circuit_of n (cs_with cs (after_steps e u gs i)) = Ok c /\ cal_params_grad svd t m c = Ok (nth i gs [], c)) /\
    exists i, i < T /\ (INR T * (e * (1 - e * ((hi - lo) / 2 * norm2 n psi * INR (length u))) * sum_sq (nth i gs [])) <= (hi - lo) * norm2 n psi)%R.
Proof. exact many_steps. Qed.
Print Assumptions C88_many_steps.
