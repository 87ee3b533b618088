(** C70: results as functions of the observable and of the length of the state.  Specifications used in the statements: Spec.v, GateSpec.v, LayerSpec.v, CircuitSpec.v,
    MPSSpec.v, MeasSpec.v, ObsSpec.v. *)
From Coq Require Import List ZArith Reals Lra Lia Bool Arith.
From Verif Require Import PyBase Scalar CInst Tensor Spec SpecFacts QMath QTN QOperator GateSpec QGates GateCalls GateFacts4 RunSpec MPSSpec LayerSpec QLayers LayerCalls
  CircuitSpec QCircuit MPSFacts7 MPSCases CircuitFacts1 CircuitProofs CircuitCases MeasSpec QGradient ObsSpec ObsProofs.
Import ListNotations.
Local Close Scope R_scope.
Local Open Scope nat_scope.

(** a real combination of two observables gives the same combination of the two values *)
Theorem C70_linear : forall svd n cs t psi m1 m2 m A B a b TN, exact_svd svd -> 0 < n -> Forall (ci_ok n) cs -> is_state n [1; 2 ^ n] t psi ->
  is_op n m1 A -> is_op n m2 B -> is_op n m (mix a A b B) -> (TN = true -> nonzero n psi /\ forallb (ci_TN n) cs = true) ->
  exists c x y, circuit_of n cs = Ok c /\ cir_expectation svd c t m1 TN = Ok x /\ cir_expectation svd c t m2 TN = Ok y /\ cir_expectation svd c t m TN = Ok (a * x + b * y)%R.
Proof. exact linear_value. Qed.
Print Assumptions C70_linear.
Example C70_case : exact_svd triv_svd /\ Forall (ci_ok 3) demo /\ forallb (ci_TN 3) demo = true /\ nonzero 3 ghz /\
  is_op 3 (op_tensor 3 (mix 2 (lift Z_op [0]) (-3) (lift X_op [1]))) (mix 2 (lift Z_op [0]) (-3) (lift X_op [1])).
Proof. destruct backends_case as (A & B & D & _ & E & _). repeat (split; [assumption|]). apply is_op_tensor. Qed.
(** and of the two gradients *)
Theorem C70_linear_gradient : forall svd n cs t psi m1 m2 m A B a b, exact_svd svd -> 0 < n -> Forall (ci_ok n) cs -> is_state n [1; 2 ^ n] t psi ->
  is_op n m1 A -> is_op n m2 B -> is_op n m (mix a A b B) -> existsb matrix_only cs = true \/ (forallb (ci_TN n) cs = true /\ nonzero n psi) ->
  exists c g1 g2, circuit_of n cs = Ok c /\ length g1 = length (cs_angles cs) /\ length g2 = length (cs_angles cs) /\
    cal_params_grad svd t m1 c = Ok (g1, c) /\ cal_params_grad svd t m2 c = Ok (g2, c) /\ cal_params_grad svd t m c = Ok (map (fun p => a * fst p + b * snd p)%R (combine g1 g2), c).
Proof. exact linear_gradient. Qed.
Print Assumptions C70_linear_gradient.
(** the conjugate transpose of an observable gives the same value *)
Theorem C70_adjoint : forall svd n cs t psi m m' M TN, exact_svd svd -> 0 < n -> Forall (ci_ok n) cs -> is_state n [1; 2 ^ n] t psi ->
  is_op n m M -> is_op n m' (adj_op M) -> (TN = true -> nonzero n psi /\ forallb (ci_TN n) cs = true) ->
  exists c x, circuit_of n cs = Ok c /\ cir_expectation svd c t m TN = Ok x /\ cir_expectation svd c t m' TN = Ok x.
Proof. exact adjoint_observable. Qed.
Print Assumptions C70_adjoint.
(** no circuit moves the value outside the range of the observable *)
Theorem C70_range : forall svd n cs t psi m M lo hi TN, exact_svd svd -> 0 < n -> Forall (ci_ok n) cs -> is_state n [1; 2 ^ n] t psi -> is_op n m M -> values_in n lo hi M ->
  (TN = true -> nonzero n psi /\ forallb (ci_TN n) cs = true) ->
  exists c x, circuit_of n cs = Ok c /\ cir_expectation svd c t m TN = Ok x /\ (lo * norm2 n psi <= x <= hi * norm2 n psi)%R.
Proof. exact value_range. Qed.
Print Assumptions C70_range.
Example C70_range_case : values_in 3 (-1) 1 (lift Z_op [1]).
Proof. apply unitary_values. apply lift_unitary; [gw|exact GateFacts4.Z_unitary]. Qed.
(** nor an entry of the gradient beyond half its width *)
Theorem C70_gradient_range : forall svd n cs t psi m M lo hi, exact_svd svd -> 0 < n -> Forall (ci_ok n) cs -> is_state n [1; 2 ^ n] t psi -> is_op n m M -> values_in n lo hi M ->
  existsb matrix_only cs = true \/ (forallb (ci_TN n) cs = true /\ nonzero n psi) ->
  exists c g, circuit_of n cs = Ok c /\ cal_params_grad svd t m c = Ok (g, c) /\ length g = length (cs_angles cs) /\ Forall (fun x => Rabs x <= (hi - lo) / 2 * norm2 n psi)%R g.
Proof. exact gradient_range. Qed.
Print Assumptions C70_gradient_range.
(** every unitary observable, the Pauli operators among them, has the range from -1 to 1 *)
Theorem C70_unitary_range : forall n M, unitary n M -> values_in n (-1) 1 M.
Proof. exact unitary_values. Qed.
Print Assumptions C70_unitary_range.
(** the identity as observable gives the squared length of the input state *)
Theorem C70_identity : forall svd n cs t psi m TN, exact_svd svd -> 0 < n -> Forall (ci_ok n) cs -> is_state n [1; 2 ^ n] t psi -> is_op n m id_op ->
  (TN = true -> nonzero n psi /\ forallb (ci_TN n) cs = true) -> exists c, circuit_of n cs = Ok c /\ cir_expectation svd c t m TN = Ok (norm2 n psi).
Proof. exact identity_value. Qed.
Print Assumptions C70_identity.
(** states that are not normalised: a factor z multiplies values and gradients by the square of its modulus *)
Theorem C70_scaled : forall svd n cs t t' psi z m M TN, exact_svd svd -> 0 < n -> Forall (ci_ok n) cs -> is_state n [1; 2 ^ n] t psi -> is_state n [1; 2 ^ n] t' (fun b => Cmul z (psi b)) -> z <> RtoC 0 ->
  is_op n m M -> (TN = true -> nonzero n psi /\ forallb (ci_TN n) cs = true) ->
  exists c x, circuit_of n cs = Ok c /\ cir_expectation svd c t m TN = Ok x /\ cir_expectation svd c t' m TN = Ok (Cnorm2 z * x)%R.
Proof. exact scaled_value. Qed.
Print Assumptions C70_scaled.
Theorem C70_scaled_gradient : forall svd n cs t t' psi z m M, exact_svd svd -> 0 < n -> Forall (ci_ok n) cs -> is_state n [1; 2 ^ n] t psi -> is_state n [1; 2 ^ n] t' (fun b => Cmul z (psi b)) -> z <> RtoC 0 ->
  is_op n m M -> existsb matrix_only cs = true \/ (forallb (ci_TN n) cs = true /\ nonzero n psi) ->
  exists c g, circuit_of n cs = Ok c /\ length g = length (cs_angles cs) /\ cal_params_grad svd t m c = Ok (g, c) /\ cal_params_grad svd t' m c = Ok (map (Rmult (Cnorm2 z)) g, c).
Proof. exact scaled_gradient. Qed.
Print Assumptions C70_scaled_gradient.
