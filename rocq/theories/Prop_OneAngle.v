(** C69: results as functions of one angle.  Specifications used in the statements: Spec.v, GateSpec.v, LayerSpec.v, CircuitSpec.v, GradSpec.v, MPSSpec.v, OneAngleSpec.v. *)
From Coq Require Import List ZArith Reals Lra Lia Bool Arith.
From Verif Require Import PyBase Scalar CInst Tensor Spec SpecFacts QMath QTN QOperator GateSpec QGates GateCalls RunSpec MPSSpec LayerSpec QLayers LayerCalls
  CircuitSpec QCircuit MPSFacts7 MPSCases CircuitFacts1 CircuitProofs CircuitCases GradSpec QGradient OneAngleSpec OneAngleProofs.
Import ListNotations.
Local Close Scope R_scope.
Local Open Scope nat_scope.

(** Whatever the rest of the circuit, cir_expectation as a function of one angle of an operation other than cu3 is the sinusoid through its values at 0, pi/2 and pi;
    its least and greatest values over all angles are attained and follow from these three values *)
Theorem C69_three_points : forall svd n cs1 c cs2 i t psi m M TN, exact_svd svd -> 0 < n -> Forall (ci_ok n) (cs1 ++ c :: cs2) -> i < length (ci_angles c) -> two_term c = true ->
  is_state n [1; 2 ^ n] t psi -> is_op n m M -> (TN = true -> nonzero n psi /\ forallb (ci_TN n) (cs1 ++ c :: cs2) = true) ->
  exists E, (forall x, exists d, circuit_of n (one_angle cs1 c cs2 i x) = Ok d /\ cir_expectation svd d t m TN = Ok (E x)) /\ sinusoid E /\
    (exists x0, E x0 = (middle E - amplitude E)%R /\ forall x, (E x0 <= E x)%R) /\ (exists x1, E x1 = (middle E + amplitude E)%R /\ forall x, (E x <= E x1)%R).
Proof. exact three_points. Qed.
Print Assumptions C69_three_points.
Definition some_layer : ci := CL (li_rot KXZ [0; 2] [1; 2; 3; 4]%R).
Example C69_case : let cs := [CG (gi_ry 1 2); CG (gi_cu3 1 2 3 0 1)] ++ some_layer :: [CG (gi_cnot 2 0)] in Forall (ci_ok 3) cs /\ forallb (ci_TN 3) cs = true /\
  two_term some_layer = true /\ 3 < length (ci_angles some_layer) /\ is_op 3 (eye 8) id_op /\ nonzero 3 ghz.
Proof.
  cbv zeta. split; [unfold some_layer; cbn [app]; repeat (apply Forall_cons; [ciok|]); apply Forall_nil|]. split; [reflexivity|]. split; [reflexivity|]. split; [cbn; lia|].
  split; [exact eye8_op|exact ghz_nonzero].
Qed.
Theorem C69_period : forall svd n cs1 c cs2 i t psi m M TN x, exact_svd svd -> 0 < n -> Forall (ci_ok n) (cs1 ++ c :: cs2) -> i < length (ci_angles c) -> two_term c = true ->
  is_state n [1; 2 ^ n] t psi -> is_op n m M -> (TN = true -> nonzero n psi /\ forallb (ci_TN n) (cs1 ++ c :: cs2) = true) ->
  exists d d' e, circuit_of n (one_angle cs1 c cs2 i x) = Ok d /\ circuit_of n (one_angle cs1 c cs2 i (x + 2 * PI)) = Ok d' /\
    cir_expectation svd d t m TN = Ok e /\ cir_expectation svd d' t m TN = Ok e.
Proof. exact angle_period. Qed.
Print Assumptions C69_period.

(** every angle of every operation, those of cu3 included: period 4 pi, and the derivative is a fixed combination of four values *)
Theorem C69_four_values : forall svd n cs1 c cs2 i t psi m M TN, exact_svd svd -> 0 < n -> Forall (ci_ok n) (cs1 ++ c :: cs2) -> i < length (ci_angles c) ->
  is_state n [1; 2 ^ n] t psi -> is_op n m M -> (TN = true -> nonzero n psi /\ forallb (ci_TN n) (cs1 ++ c :: cs2) = true) ->
  exists E, (forall x, exists d, circuit_of n (one_angle cs1 c cs2 i x) = Ok d /\ cir_expectation svd d t m TN = Ok (E x)) /\
    forall x, E (x + 4 * PI)%R = E x /\ derivable_pt_lim E x (four_term E x).
Proof. exact four_points. Qed.
Print Assumptions C69_four_values.
Example C69_four_case : let cs := [CG (gi_H 2)] ++ CG (gi_cu3 1 2 3 2 0) :: [CG (gi_rzz 1 0 1)] in Forall (ci_ok 3) cs /\ 1 < length (ci_angles (CG (gi_cu3 1 2 3 2 0))).
Proof. cbv zeta. split; [cbn [app]; repeat (apply Forall_cons; [ciok|]); apply Forall_nil|cbn; lia]. Qed.

(** the entry of cal_params_grad for that angle, as a function of the angle: it is the derivative, its own derivative is half the change over pi,
    it is bounded by the amplitude, and it is 0 where cir_expectation is least *)
Theorem C69_gradient : forall svd n cs1 c cs2 i t psi m M, exact_svd svd -> 0 < n -> Forall (ci_ok n) (cs1 ++ c :: cs2) -> i < length (ci_angles c) -> two_term c = true ->
  existsb matrix_only (cs1 ++ c :: cs2) = true \/ (forallb (ci_TN n) (cs1 ++ c :: cs2) = true /\ nonzero n psi) -> is_state n [1; 2 ^ n] t psi -> is_op n m M ->
  exists E G, (forall x, exists d, circuit_of n (one_angle cs1 c cs2 i x) = Ok d /\ cir_expectation svd d t m false = Ok (E x)) /\
    (forall x, exists d g, circuit_of n (one_angle cs1 c cs2 i x) = Ok d /\ cal_params_grad svd t m d = Ok (g, d) /\ nth_error g (length (cs_angles cs1) + i) = Some (G x)) /\
    sinusoid E /\ (forall x, derivable_pt_lim E x (G x) /\ derivable_pt_lim G x ((E (x + PI) - E x) / 2)%R /\ (Rabs (G x) <= amplitude E)%R) /\
    (forall x0, (forall x, (E x0 <= E x)%R) -> G x0 = 0%R).
Proof. exact angle_gradient. Qed.
Print Assumptions C69_gradient.
