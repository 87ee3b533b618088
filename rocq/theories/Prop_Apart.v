(** C66: operations elsewhere.  C67: factors of modulus one.  Specifications used in the statements: Spec.v, GateSpec.v, LayerSpec.v,
    CircuitSpec.v, MPSSpec.v, PTSpec.v, MeasSpec.v, PlaceSpec.v, ApartSpec.v; [evolve_rho u t] (RhoCalls.v) is u @ t @ dag(u). *)
From Coq Require Import List ZArith Reals Lra Lia Bool Arith.
From Verif Require Import PyBase Scalar CInst Tensor Spec SpecFacts QMath QTN QOperator GateSpec QGates GateCalls RunSpec MPSSpec LayerSpec QLayers LayerCalls
  CircuitSpec QCircuit MPSFacts7 MPSCases CircuitFacts1 CircuitCases PTSpec MeasSpec QMathC MeasCases PlaceSpec ApartSpec QGradient RhoCalls ApartFacts ApartProofs PhaseProofs.
Import ListNotations.
Local Close Scope R_scope.
Local Open Scope nat_scope.

(** C66: a circuit on traced-out qubits does not change what partial_trace returns *)
Theorem C66_traced_out : forall n ts cs t A, 0 < n -> good_wires n ts -> Forall (ci_ok n) cs -> within ts cs -> is_op n t A -> (Cabs (Csub (trace_op n A) (RtoC 1)) <= 1 / 10000)%R ->
  exists c u t' r, circuit_of n cs = Ok c /\ cU c true = Ok u /\ evolve_rho u t = Ok t' /\ partial_trace t' n (map Z.of_nat ts) = Ok r /\ partial_trace t n (map Z.of_nat ts) = Ok r.
Proof. exact traced_out. Qed.
Print Assumptions C66_traced_out.
Example C66_traced_case : good_wires 5 [4; 0; 2] /\ Forall (ci_ok 5) (map (move [4; 0; 2]) demo) /\ within [4; 0; 2] (map (move [4; 0; 2]) demo) /\
  (Cabs (Csub (trace_op 3 (outer bell_psi)) (RtoC 1)) <= 1 / 10000)%R.
Proof.
  split; [gw|]. split; [|split].
  - unfold demo. cbn [map move move_gate move_layer]. repeat (apply Forall_cons; [ciok|]). apply Forall_nil.
  - intros c w Hc. unfold demo in Hc. cbn [map move move_gate move_layer In] in Hc. intuition (subst c; cbn in *; lia).
  - destruct bell_ok as (_ & _ & _ & _ & N). rewrite MeasFacts.trace_outer, N. replace (Csub _ _) with (RtoC 0) by (apply C_eq; cbn; ring). rewrite MeasFacts.Cabs_0. lra.
Qed.
(** a circuit on the kept qubits: evolving and tracing can be exchanged *)
Theorem C66_kept : forall n ts cs t A, good_wires n ts -> length ts < n -> Forall (ci_ok (n - length ts)) cs -> is_op n t A -> (Cabs (Csub (trace_op n A) (RtoC 1)) <= 1 / 10000)%R ->
  exists c u c' u' t' r r', circuit_of (n - length ts) cs = Ok c /\ cU c true = Ok u /\ circuit_of n (map (move (kept n ts)) cs) = Ok c' /\ cU c' true = Ok u' /\
    evolve_rho u' t = Ok t' /\ partial_trace t n (map Z.of_nat ts) = Ok r /\ partial_trace t' n (map Z.of_nat ts) = Ok r' /\ evolve_rho u r = Ok r'.
Proof. exact kept_evolves. Qed.
Print Assumptions C66_kept.
Example C66_kept_case : good_wires 5 [3; 0] /\ length [3; 0] < 5 /\ Forall (ci_ok (5 - length [3; 0])) demo /\ kept 5 [3; 0] = [1; 2; 4].
Proof. split; [gw|]. split; [cbn; lia|]. split; [exact demo_ok|reflexivity]. Qed.
(** measured values of qubits the circuit does not touch *)
Theorem C66_measure : forall n cs t psi qs, 0 < n -> Forall (ci_ok n) cs -> is_state n [2 ^ n; 1] t psi -> qs <> [] -> (forall q, In q qs -> q < n) -> apart qs cs ->
  exists c u t', circuit_of n cs = Ok c /\ cU c true = Ok u /\ matmul u t = Ok t' /\
    measure (Z.of_nat n) t' (IList (map Z.of_nat qs)) = measure (Z.of_nat n) t (IList (map Z.of_nat qs)).
Proof. exact measured_elsewhere. Qed.
Print Assumptions C66_measure.
Definition away : list ci := [CG (gi_rx 1 3); CG (gi_cu3 1 2 3 3 0); CL (li_rot KXZ [0; 3] [1; 2; 3; 4]%R)].
Example C66_measure_case : Forall (ci_ok 4) away /\ apart [2; 1; 2] away.
Proof.
  split; [unfold away; repeat (apply Forall_cons; [ciok|]); apply Forall_nil|]. intros c w Hc Hw. unfold away in Hc. cbn [In] in Hc. intuition (subst c; cbn in *; lia).
Qed.
(** operations at the end of a circuit that avoid the wires of the observable do not change cir_expectation *)
Theorem C66_expectation : forall svd n cs ds t psi m M ms TN, exact_svd svd -> 0 < n -> Forall (ci_ok n) cs -> Forall (ci_ok n) ds -> good_wires n ms -> apart ms ds ->
  is_state n [1; 2 ^ n] t psi -> is_op n m (lift M ms) -> (TN = true -> nonzero n psi /\ forallb (ci_TN n) (cs ++ ds) = true) ->
  exists c d x, circuit_of n cs = Ok c /\ circuit_of n (cs ++ ds) = Ok d /\ cir_expectation svd d t m TN = Ok x /\ cir_expectation svd c t m TN = Ok x.
Proof. exact light_cone. Qed.
Print Assumptions C66_expectation.
(** and their entries of the gradient are exactly 0 *)
Theorem C66_gradient : forall svd n cs ds t psi m M ms, exact_svd svd -> 0 < n -> Forall (ci_ok n) cs -> Forall (ci_ok n) ds -> good_wires n ms -> apart ms ds ->
  existsb matrix_only (cs ++ ds) = true \/ (forallb (ci_TN n) (cs ++ ds) = true /\ nonzero n psi) -> is_state n [1; 2 ^ n] t psi -> is_op n m (lift M ms) ->
  exists c g, circuit_of n (cs ++ ds) = Ok c /\ cal_params_grad svd t m c = Ok (g, c) /\ length g = length (cs_angles cs) + length (cs_angles ds) /\
    forall k, length (cs_angles cs) <= k < length g -> nth k g 0%R = 0%R.
Proof. exact zero_gradient. Qed.
Print Assumptions C66_gradient.
Example C66_gradient_case : let cs := [CG (gi_ry 1 2); CG (gi_cnot 2 3)] in Forall (ci_ok 4) cs /\ good_wires 4 [2; 1] /\ apart [2; 1] away /\
  forallb (ci_TN 4) (cs ++ away) = true /\ length (cs_angles cs) = 1 /\ length (cs_angles away) = 8.
Proof.
  cbv zeta. split; [repeat (apply Forall_cons; [ciok|]); apply Forall_nil|]. split; [gw|]. split; [|repeat split].
  intros c w Hc Hw. unfold away in Hc. cbn [In] in Hc. intuition (subst c; cbn in *; lia).
Qed.
(** the value MPS_expec returns *)
Theorem C66_mps : forall svd n cs l psi ws obs As, exact_svd svd -> 0 < n -> Forall (ci_ok n) cs -> forallb (ci_TN n) cs = true -> is_mps n l psi -> nonzero n psi ->
  (forall w, In w ws -> w < n) -> apart ws cs -> length ws = length obs -> Forall2 (is_op 1) obs As ->
  exists c l' x m m', circuit_of n cs = Ok c /\ TN_evolution svd c l = Ok l' /\ MPS_expec_real l' (map Z.of_nat ws) obs = Ok (x, m') /\ MPS_expec_real l (map Z.of_nat ws) obs = Ok (x, m).
Proof. exact mps_elsewhere. Qed.
Print Assumptions C66_mps.
Example C66_mps_case : let cs := [CG (gi_H 1); CG (gi_cnot 1 2)] in exact_svd triv_svd /\ Forall (ci_ok 3) cs /\ forallb (ci_TN 3) cs = true /\ is_mps 3 ghz_mps ghz /\ nonzero 3 ghz /\ apart [0] cs.
Proof.
  destruct backends_case as (A & _ & _ & _ & D & E). split; [exact A|]. split; [repeat (apply Forall_cons; [ciok|]); apply Forall_nil|]. split; [reflexivity|]. split; [exact E|]. split; [exact D|].
  intros c w Hc Hw. cbn [In] in Hc. intuition (subst c; cbn in *; lia).
Qed.

(** C67: z psi in place of psi, |z| = 1 *)
Theorem C67_measure : forall n s t t' psi z a, is_state n s t psi -> wf t -> is_state n s t' (fun b => Cmul z (psi b)) -> wf t' -> vector_shape n s -> Cnorm2 z = 1%R ->
  measure (Z.of_nat n) t' a = measure (Z.of_nat n) t a.
Proof. exact phase_measure. Qed.
Print Assumptions C67_measure.
Theorem C67_expectation : forall svd n cs t t' psi z m M TN, exact_svd svd -> 0 < n -> Forall (ci_ok n) cs -> is_state n [1; 2 ^ n] t psi -> is_state n [1; 2 ^ n] t' (fun b => Cmul z (psi b)) ->
  Cnorm2 z = 1%R -> is_op n m M -> (TN = true -> nonzero n psi /\ forallb (ci_TN n) cs = true) ->
  exists c x, circuit_of n cs = Ok c /\ cir_expectation svd c t' m TN = Ok x /\ cir_expectation svd c t m TN = Ok x.
Proof. exact phase_expectation. Qed.
Print Assumptions C67_expectation.
Theorem C67_gradient : forall svd n cs t t' psi z m M, exact_svd svd -> 0 < n -> Forall (ci_ok n) cs -> is_state n [1; 2 ^ n] t psi -> is_state n [1; 2 ^ n] t' (fun b => Cmul z (psi b)) ->
  Cnorm2 z = 1%R -> is_op n m M -> existsb matrix_only cs = true \/ (forallb (ci_TN n) cs = true /\ nonzero n psi) ->
  exists c g, circuit_of n cs = Ok c /\ cal_params_grad svd t m c = Ok (g, c) /\ cal_params_grad svd t' m c = Ok (g, c).
Proof. exact phase_gradient. Qed.
Print Assumptions C67_gradient.
Theorem C67_mps : forall n l l' psi z ws obs As, 0 < n -> is_mps n l psi -> is_mps n l' (fun b => Cmul z (psi b)) -> Cnorm2 z = 1%R -> (forall w, In w ws -> w < n) ->
  length ws = length obs -> Forall2 (is_op 1) obs As ->
  exists x m m', MPS_expec_real l (map Z.of_nat ws) obs = Ok (x, m) /\ MPS_expec_real l' (map Z.of_nat ws) obs = Ok (x, m').
Proof. exact phase_mps. Qed.
Print Assumptions C67_mps.
Example C67_case : Cnorm2 (Cexpi 1) = 1%R /\ vector_shape 3 [8; 1] /\ is_state 3 [8; 1] bell_vec bell_psi.
Proof. split; [unfold Cnorm2, Cexpi; cbn; pose proof (sin2_cos2 1) as T; unfold Rsqr in T; lra|]. split; [reflexivity|exact (proj1 bell_ok)]. Qed.
