(** C87: how much results change with the angles.  Specifications used in the statements: Spec.v, GateSpec.v, LayerSpec.v, CircuitSpec.v, MPSSpec.v, MeasSpec.v,
    ObsSpec.v, SmoothSpec.v. *)
From Coq Require Import List ZArith Reals Lra Lia Bool Arith.
From Verif Require Import PyBase Scalar CInst Tensor Spec SpecFacts QMath QTN QOperator GateSpec QGates GateCalls GateFacts4 RunSpec MPSSpec LayerSpec QLayers LayerCalls
  CircuitSpec QCircuit MPSFacts7 MPSCases CircuitFacts1 CircuitProofs CircuitCases MeasSpec QGradient ObsSpec ObsProofs SmoothSpec SmoothProofs SmoothCases.
Import ListNotations.
Local Close Scope R_scope.
Local Open Scope nat_scope.

(** the same circuit with two lists of angles: the values differ by at most half the width of the observable's range times the sum of the changes, cu3 included *)
Theorem C87_value_change : forall svd n cs u v t psi m M lo hi TN, exact_svd svd -> 0 < n -> Forall (ci_ok n) cs -> length u = length (cs_angles cs) -> length v = length (cs_angles cs) ->
  is_state n [1; 2 ^ n] t psi -> is_op n m M -> values_in n lo hi M -> (TN = true -> nonzero n psi /\ forallb (ci_TN n) cs = true) ->
  exists c d x y, circuit_of n (cs_with cs u) = Ok c /\ cir_expectation svd c t m TN = Ok x /\ circuit_of n (cs_with cs v) = Ok d /\ cir_expectation svd d t m TN = Ok y /\
    (Rabs (x - y) <= (hi - lo) / 2 * norm2 n psi * total_change u v)%R.
Proof. exact value_change. Qed.
Print Assumptions C87_value_change.
(** and so does every entry of what the parameter-shift routine returns *)
Theorem C87_gradient_change : forall svd n cs u v t psi m M lo hi, exact_svd svd -> 0 < n -> Forall (ci_ok n) cs -> length u = length (cs_angles cs) -> length v = length (cs_angles cs) ->
  existsb matrix_only cs = true \/ (forallb (ci_TN n) cs = true /\ nonzero n psi) -> is_state n [1; 2 ^ n] t psi -> is_op n m M -> values_in n lo hi M ->
  exists c d g h, circuit_of n (cs_with cs u) = Ok c /\ cal_params_grad svd t m c = Ok (g, c) /\ circuit_of n (cs_with cs v) = Ok d /\ cal_params_grad svd t m d = Ok (h, d) /\
    length g = length u /\ length h = length u /\ forall k, k < length u -> (Rabs (nth k g 0 - nth k h 0) <= (hi - lo) / 2 * norm2 n psi * total_change u v)%R.
Proof. exact gradient_change. Qed.
Print Assumptions C87_gradient_change.
Example C87_case : exact_svd triv_svd /\ Forall (ci_ok 3) demo /\ forallb (ci_TN 3) demo = true /\ nonzero 3 ghz /\ is_op 3 (op_tensor 3 (lift Z_op [1])) (lift Z_op [1]) /\
  values_in 3 (-1) 1 (lift Z_op [1]) /\ length (map (Rplus 1) (cs_angles demo)) = length (cs_angles demo) /\ 0 < length (cs_angles demo).
Proof.
  destruct backends_case as (A & B & D & _ & E & _). repeat (split; [assumption|]). split; [apply is_op_tensor|]. split; [|split; [apply map_length|cbn; lia]].
  apply unitary_values. apply lift_unitary; [gw|]. apply Z_unitary.
Qed.
(** no smaller constant will do: rx on |0>, measured with Z, whose range is from -1 to 1, comes as close to the bound as one likes *)
Theorem C87_sharp : forall svd t m k, exact_svd svd -> is_state 1 [1; 2] t (zero_state 1) -> is_op 1 m (lift Z_op [0]) -> (k < 1)%R ->
  exists a b c d x y, a <> b /\ circuit_of 1 [CG (gi_rx a 0)] = Ok c /\ cir_expectation svd c t m true = Ok x /\ circuit_of 1 [CG (gi_rx b 0)] = Ok d /\ cir_expectation svd d t m true = Ok y /\
    (k * ((1 - -1) / 2 * norm2 1 (zero_state 1) * Rabs (a - b)) < Rabs (x - y))%R.
Proof. exact sharp_change. Qed.
Print Assumptions C87_sharp.
Example C87_sharp_case : is_state 1 [1; 2] (mkT [1; 2] [RtoC 1; RtoC 0]) (zero_state 1) /\ is_op 1 (op_tensor 1 (lift Z_op [0])) (lift Z_op [0]) /\ values_in 1 (-1) 1 (lift Z_op [0]).
Proof.
  split; [|split; [apply is_op_tensor|apply unitary_values; apply lift_unitary; [gw|exact GateFacts4.Z_unitary]]].
  split; [reflexivity|]. split; [reflexivity|]. intros b Hb. cbn in Hb. repeat (destruct Hb as [<-|Hb]; [reflexivity|]). destruct Hb.
Qed.
