(** Properties of Circuit (C10, C13-C16, C26, C27, C33, C43, C45).  Specifications used in the statements: Spec.v, GateSpec.v, RunSpec.v,
    LayerSpec.v, MPSSpec.v, CircuitSpec.v.  [circuit_of n cs] is a new Circuit(n) followed by the method calls cs; [svd]
    stands for torch.svd and what is assumed of it is written in each statement. *)
From Coq Require Import List ZArith QArith Reals Lra Lia Bool Arith.
From Verif Require Import PyBase Scalar CInst BigSum Index Tensor Spec SpecFacts QMath QTN QOperator GateSpec QGates GateCalls RunSpec MPSSpec
  LayerSpec QLayers LayerCalls CircuitSpec QCircuit MPSFacts7 LayerProofs MPSCases CircuitFacts1 CircuitProofs CircuitCases.
Import ListNotations.
Local Close Scope Q_scope.
Local Close Scope R_scope.
Local Open Scope nat_scope.

(** C14 *)
Theorem C14_ordered_product : forall n cs, 0 < n -> Forall (ci_ok n) cs ->
  exists c u u', circuit_of n cs = Ok c /\ cU c true = Ok u /\ is_op n u (cs_op n cs) /\ cU c false = Ok u' /\ is_op n u' (cs_op_rev n cs).
Proof. exact circuit_matrix. Qed.
Print Assumptions C14_ordered_product.
Example C14_case : Forall (ci_ok 3) demo.
Proof. exact demo_ok. Qed.
Theorem C14_empty_circuit : forall n b, exists u, cU (Circuit n) b = Ok u /\ is_op n u id_op.
Proof. exact empty_matrix. Qed.
Print Assumptions C14_empty_circuit.
(** adding one operation multiplies its matrix on the left (on the right in the other mode), for any object whatever *)
Theorem C14_add_left : forall c o u v, cU c true = Ok u -> o_U o = Ok v -> cU (add c o) true = matmul v u.
Proof. exact cU_snoc. Qed.
Print Assumptions C14_add_left.
Example C14_add_case : exists c o u u' v, c_gate c <> [] /\ cU c true = Ok u /\ cU c false = Ok u' /\ o_U o = Ok v.
Proof.
  exists (circ 3 demo), (oobj 3 (CG (gi_rxx 1 2 0))). do 3 eexists. split; [rewrite circ_gate; discriminate|].
  split; [apply cU_ok; [lia|exact demo_ok]|]. split; [apply cU_rev_ok; [lia|exact demo_ok]|]. apply o_U_ok; [lia|ciok].
Qed.
Theorem C14_add_right : forall c o u v, cU c false = Ok u -> o_U o = Ok v -> cU (add c o) false = matmul u v.
Proof. exact cU_rev_snoc. Qed.
Print Assumptions C14_add_right.
(** the matrix of a circuit made of two parts *)
Theorem C14_two_parts : forall n cs1 cs2, 0 < n -> Forall (ci_ok n) cs1 -> Forall (ci_ok n) cs2 ->
  exists c c1 c2 u u1 u2, circuit_of n (cs1 ++ cs2) = Ok c /\ circuit_of n cs1 = Ok c1 /\ circuit_of n cs2 = Ok c2 /\
    cU c true = Ok u /\ cU c1 true = Ok u1 /\ cU c2 true = Ok u2 /\ matmul u2 u1 = Ok u.
Proof. exact split_circuit. Qed.
Print Assumptions C14_two_parts.
(** the order matters *)
Example C14_order_matters : ~ op_eq 1 (cs_op 1 [CG (gi_X 0); CG (gi_H 0)]) (cs_op_rev 1 [CG (gi_X 0); CG (gi_H 0)]).
Proof. exact order_matters. Qed.

(** C15: the three ways to simulate a circuit *)
Theorem C15_back_ends_agree : forall svd n cs t psi, exact_svd svd -> 0 < n -> Forall (ci_ok n) cs -> forallb (ci_TN n) cs = true ->
  is_state n [1; 2 ^ n] t psi -> nonzero n psi ->
  exists c u col v s s' l l' w phi, circuit_of n cs = Ok c /\
    cU c true = Ok u /\ view t [-1; 1]%Z = Ok col /\ matmul u col = Ok v /\ is_state n [2 ^ n; 1] v phi /\
    view t (repeat 2%Z n) = Ok s /\ TN_contract_evolution c s false = Ok s' /\ is_state n (repeat 2 n) s' phi /\
    StateVec2MPS svd t n = Ok l /\ TN_evolution svd c l = Ok l' /\ MPS2StateVec l' = Ok w /\ is_state n [1; 2 ^ n] w phi.
Proof. exact backends. Qed.
Print Assumptions C15_back_ends_agree.
(** and phi is the ordered product applied to psi *)
Theorem C15_contraction_is_the_product : forall n cs s, Forall (ci_ok n) cs -> forallb (ci_con n) cs = true -> shape s = repeat 2 n -> wf s ->
  exists c s', circuit_of n cs = Ok c /\ TN_contract_evolution c s false = Ok s' /\ is_state n (repeat 2 n) s' (act n (cs_op n cs) (amp s)).
Proof. exact contraction_product. Qed.
Print Assumptions C15_contraction_is_the_product.
Theorem C15_mps_is_the_product : forall svd n cs l psi, exact_svd svd -> Forall (ci_ok n) cs -> forallb (ci_TN n) cs = true ->
  is_mps n l psi -> nonzero n psi ->
  exists c l', circuit_of n cs = Ok c /\ TN_evolution svd c l = Ok l' /\ is_mps n l' (act n (cs_op n cs) psi).
Proof. exact mps_product. Qed.
Print Assumptions C15_mps_is_the_product.
Example C15_case : exact_svd triv_svd /\ Forall (ci_ok 3) demo /\ forallb (ci_TN 3) demo = true /\
  is_state 3 [1; 2 ^ 3] (mkT [1; 8] (map ghz (bits 3))) ghz /\ nonzero 3 ghz /\ is_mps 3 ghz_mps ghz.
Proof. exact backends_case. Qed.

(** C10: a batch evolves state by state *)
Theorem C10_circuit_batch : forall B n cs t, Forall (ci_ok n) cs -> forallb (ci_con n) cs = true -> shape t = B :: repeat 2 n -> wf t ->
  exists c t', circuit_of n cs = Ok c /\ TN_contract_evolution c t true = Ok t' /\ shape t' = B :: repeat 2 n /\ wf t' /\
    forall i u, i < B -> sample n i t u -> exists u', TN_contract_evolution c u false = Ok u' /\ sample n i t' u'.
Proof. exact circuit_batch. Qed.
Print Assumptions C10_circuit_batch.
Example C10_circuit_case : let t := mkT [2; 2; 2; 2] (map (fun k => RtoC (INR k)) (seq 0 16)) in
  Forall (ci_ok 3) demo /\ forallb (ci_con 3) demo = true /\ shape t = 2 :: repeat 2 3 /\ wf t.
Proof. split; [exact demo_ok|]. repeat split. Qed.
(** C13 *)
Theorem C13_circuit_keeps_shape : forall svd n cs c l l', svd_shapes svd -> Forall (ci_ok n) cs -> circuit_of n cs = Ok c ->
  mps_shape n l -> TN_evolution svd c l = Ok l' -> mps_shape n l'.
Proof. exact circuit_shape. Qed.
Print Assumptions C13_circuit_keeps_shape.
Example C13_circuit_case : svd_shapes triv_svd /\ mps_shape 3 ghz_mps /\
  exists c l', circuit_of 3 demo = Ok c /\ TN_evolution triv_svd c ghz_mps = Ok l'.
Proof.
  split; [exact (exact_shapes _ some_exact_svd)|]. split; [exact (proj1 ghz_is_mps)|].
  destruct (mps_product triv_svd 3 demo ghz_mps ghz some_exact_svd demo_ok eq_refl ghz_is_mps ghz_nonzero) as (c & l' & E & F & _). exists c, l'. split; [exact E|exact F].
Qed.

(** C16 *)
Theorem C16_unitary : forall n cs, 0 < n -> Forall (ci_ok n) cs ->
  exists c u, circuit_of n cs = Ok c /\ cU c true = Ok u /\ shape u = [2 ^ n; 2 ^ n] /\ wf u /\ unitary n (op_of u) /\
    forall f g, inner n (act n (op_of u) f) (act n (op_of u) g) = inner n f g.
Proof. exact circuit_unitary. Qed.
Print Assumptions C16_unitary.
Theorem C16_contraction_keeps_inner_products : forall n cs s t, Forall (ci_ok n) cs -> forallb (ci_con n) cs = true ->
  shape s = repeat 2 n -> wf s -> shape t = repeat 2 n -> wf t ->
  exists c s' t', circuit_of n cs = Ok c /\ TN_contract_evolution c s false = Ok s' /\ TN_contract_evolution c t false = Ok t' /\
    inner n (amp s') (amp t') = inner n (amp s) (amp t).
Proof. exact contract_inner. Qed.
Print Assumptions C16_contraction_keeps_inner_products.
Theorem C16_mps_keeps_inner_products : forall svd n cs l m f g, exact_svd svd -> Forall (ci_ok n) cs -> forallb (ci_TN n) cs = true ->
  is_mps n l f -> nonzero n f -> is_mps n m g -> nonzero n g ->
  exists c l' m' f' g', circuit_of n cs = Ok c /\ TN_evolution svd c l = Ok l' /\ is_mps n l' f' /\ TN_evolution svd c m = Ok m' /\ is_mps n m' g' /\
    inner n f' g' = inner n f g.
Proof. exact mps_inner. Qed.
Print Assumptions C16_mps_keeps_inner_products.
Example C16_case : Forall (ci_ok 3) demo /\ forallb (ci_con 3) demo = true.
Proof. split; [exact demo_ok|reflexivity]. Qed.

(** C26: for any objects added in any order *)
Theorem C26_bookkeeping : forall n os c, c = fold_left add os (Circuit n) ->
  c_N c = n /\ c_gate c = os /\ c_num c = list_sum (map o_num_params os) /\ map fst (c_params c) = seq 0 (length os) /\
  forall k o, nth_error os k = Some o -> dict_get (c_params c) k = Ok (if o_num_params o =? 0 then None else o_params o).
Proof. exact bookkeeping. Qed.
Print Assumptions C26_bookkeeping.
Example C26_objects_case : exists o, obuild 3 (CG (gi_cu3 1 2 3 2 0)) = Ok o /\ o_num_params o = 3.
Proof. eexists. split; reflexivity. Qed.
(** and the recorded values are the angles the caller gave *)
Theorem C26_values : forall n cs, Forall (ci_ok n) cs ->
  exists c, circuit_of n cs = Ok c /\ c_num c = length (cs_angles cs) /\ length (c_params c) = length cs /\
    forall k x, nth_error cs k = Some x -> exists v, dict_get (c_params c) k = Ok v /\
      match v with None => ci_angles x = [] | Some (PS t) => ci_angles x = [t] | Some (PV l) => ci_angles x = l /\ l <> [] end.
Proof. exact bookkeeping_values. Qed.
Print Assumptions C26_values.
Example C26_case : Forall (ci_ok 3) demo /\ length (cs_angles demo) = 10.
Proof. split; [exact demo_ok|reflexivity]. Qed.

(** C27: a cleared circuit simulates like a new one *)
Theorem C27_cleared_circuit_simulates_as_new : forall c os d e, d = fold_left add os (clear c) -> e = fold_left add os (Circuit (c_N c)) ->
  (forall b, cU d b = cU e b) /\ (forall s b, TN_contract_evolution d s b = TN_contract_evolution e s b) /\
  (forall svd m, TN_evolution svd d m = TN_evolution svd e m) /\ TN_check d = TN_check e /\
  (forall svd psi m b, cir_expectation svd d psi m b = cir_expectation svd e psi m b) /\ state_init d = state_init e.
Proof. exact clear_reuse. Qed.
Print Assumptions C27_cleared_circuit_simulates_as_new.
Example C27_clear_case : exists c, circuit_of 3 demo = Ok c /\ c_gate c <> [] /\ c_gate (clear c) = [] /\ c_num (clear c) = 10.
Proof.
  destruct (bookkeeping_values 3 demo demo_ok) as (c & E & F & _). exists c. split; [exact E|].
  rewrite (circuit_of_ok 3 demo demo_ok) in E. injection E as E. split; [rewrite <- E, circ_gate; discriminate|]. split; [reflexivity|exact F].
Qed.
Theorem C27_cleared_matrix : forall c b, exists u, cU (clear c) b = Ok u /\ is_op (c_N c) u id_op.
Proof. exact clear_empty. Qed.
Print Assumptions C27_cleared_matrix.
(** but the bookkeeping of every circuit with parameters survives *)
Theorem C27_bookkeeping_refuted : forall n cs, Forall (ci_ok n) cs -> cs_angles cs <> [] ->
  exists c, circuit_of n cs = Ok c /\ c_num (clear c) <> c_num (Circuit n) /\ c_params (clear c) <> c_params (Circuit n).
Proof. exact clear_bookkeeping. Qed.
Print Assumptions C27_bookkeeping_refuted.
Example C27_case : cs_angles demo <> [].
Proof. discriminate. Qed.

(** C33: the check fails exactly when the circuit has a multi-controlled not, a ring_of_cnot2 or a BasicEntangleLayer *)
Theorem C33_check_value : forall n cs, Forall (ci_ok n) cs -> exists c, circuit_of n cs = Ok c /\ TN_check c = negb (existsb matrix_only cs).
Proof. exact TN_check_value. Qed.
Print Assumptions C33_check_value.
Theorem C33_TN_capable_circuits_pass : forall svd n cs, exact_svd svd -> Forall (ci_ok n) cs -> forallb (ci_TN n) cs = true ->
  exists c, circuit_of n cs = Ok c /\ TN_check c = true /\
    (forall l psi, is_mps n l psi -> nonzero n psi -> exists l', TN_evolution svd c l = Ok l') /\
    (forall s, shape s = repeat 2 n -> wf s -> exists s', TN_contract_evolution c s false = Ok s').
Proof. exact TN_check_sound. Qed.
Print Assumptions C33_TN_capable_circuits_pass.
Theorem C33_false_means_failure : forall svd c, TN_check c = false ->
  (forall m m', TN_evolution svd c m <> Ok m') /\ (forall s b s', TN_contract_evolution c s b <> Ok s').
Proof. exact TN_check_false. Qed.
Print Assumptions C33_false_means_failure.
Example C33_false_case : exists c, circuit_of 3 [CG (gi_H 1); CL (li_ring2 [0; 1; 2])] = Ok c /\ TN_check c = false.
Proof.
  destruct (TN_check_value 3 [CG (gi_H 1); CL (li_ring2 [0; 1; 2])]) as (c & E & F); [repeat (constructor; [ciok|]); constructor|].
  exists c. split; [exact E|exact F].
Qed.
Theorem C33_unsupported_value_error : forall svd n cs1 x cs2, exact_svd svd -> Forall (ci_ok n) (cs1 ++ x :: cs2) -> forallb (ci_TN n) cs1 = true ->
  matrix_only x = true ->
  exists c, circuit_of n (cs1 ++ x :: cs2) = Ok c /\ TN_check c = false /\
    (forall l psi, is_mps n l psi -> nonzero n psi -> TN_evolution svd c l = Err ValueError) /\
    (forall s, shape s = repeat 2 n -> wf s -> TN_contract_evolution c s false = Err ValueError).
Proof. exact unsupported_value_error. Qed.
Print Assumptions C33_unsupported_value_error.
Example C33_case : Forall (ci_ok 3) (demo ++ CG (gi_mcx [0; 2] 1) :: demo) /\
  matrix_only (CG (gi_mcx [0; 2] 1)) = true.
Proof. exact unsupported_case. Qed.
(** True is no guarantee: the two-qubit rotations have no TN_operation, and a ring on part of the register refuses *)
Theorem C33_rotations_refuted : forall svd n t a b g, In g [gi_rxx t a b; gi_ryy t a b; gi_rzz t a b] ->
  exists c, circuit_of n [CG g] = Ok c /\ TN_check c = true /\ forall l, length l = n -> TN_evolution svd c l = Err AttributeError.
Proof. exact rxx_passes_check. Qed.
Print Assumptions C33_rotations_refuted.
Example C33_rotations_case : In (gi_ryy 1 2 0) [gi_rxx 1 2 0; gi_ryy 1 2 0; gi_rzz 1 2 0] /\ length ghz_mps = 3.
Proof. split; [cbn; tauto|reflexivity]. Qed.
Theorem C33_ring_refuted : forall svd n ws, good_wires n ws -> 2 <= length ws -> ws <> seq 0 n ->
  exists c, circuit_of n [CL (li_ring ws)] = Ok c /\ TN_check c = true /\ (forall l, length l = n -> TN_evolution svd c l = Err ValueError) /\
    (forall s, shape s = repeat 2 n -> TN_contract_evolution c s false = Err ValueError).
Proof. exact ring_passes_check. Qed.
Print Assumptions C33_ring_refuted.
Example C33_ring_case : good_wires 3 [0; 2] /\ [0; 2] <> seq 0 3 /\ good_wires 3 [1; 0; 2] /\ [1; 0; 2] <> seq 0 3.
Proof. split; [gw|]. split; [discriminate|]. split; [gw|discriminate]. Qed.

(** C43: the value, with either setting of TN *)
Theorem C43_value : forall svd n cs t psi m M TN, exact_svd svd -> 0 < n -> Forall (ci_ok n) cs ->
  is_state n [1; 2 ^ n] t psi -> is_op n m M ->
  (TN = true -> nonzero n psi /\ forallb (ci_TN n) cs = true) ->
  exists c, circuit_of n cs = Ok c /\ cir_expectation svd c t m TN = Ok (expect n cs psi M).
Proof. exact expectation_value. Qed.
Print Assumptions C43_value.
Example C43_case : is_op 3 (eye 8) id_op /\ nonzero 3 ghz /\ forallb (ci_TN 3) demo = true.
Proof. split; [|split; [exact ghz_nonzero|reflexivity]]. exact eye8_op. Qed.
Theorem C43_fallback : forall svd c t m, TN_check c = false -> cir_expectation svd c t m true = cir_expectation svd c t m false.
Proof. exact expectation_fallback. Qed.
Print Assumptions C43_fallback.
Example C43_fallback_case : exists c, circuit_of 3 [CG (gi_rxx 1 0 2); CG (gi_mcx [0; 1] 2)] = Ok c /\ TN_check c = false.
Proof.
  destruct (TN_check_value 3 [CG (gi_rxx 1 0 2); CG (gi_mcx [0; 1] 2)]) as (c & E & F).
  - constructor; [ciok|]. constructor; [|constructor]. split; [gw|discriminate].
  - exists c. split; [exact E|exact F].
Qed.
Theorem C43_bad_state_rejected : forall svd c t m TN a b r, shape t = a :: b :: r -> (a <> 1 \/ b <> 2 ^ c_N c) ->
  cir_expectation svd c t m TN = Err ValueError.
Proof. exact expectation_bad_state. Qed.
Print Assumptions C43_bad_state_rejected.
Theorem C43_bad_observable_rejected : forall svd c t m TN a b r, shape t = [1; 2 ^ c_N c] -> shape m = a :: b :: r -> a <> b ->
  cir_expectation svd c t m TN = Err ValueError.
Proof. exact expectation_bad_op. Qed.
Print Assumptions C43_bad_observable_rejected.
Example C43_rejected_case : shape (zeros [4; 2]) = 4 :: 2 :: [] /\ 4 <> 1 /\ shape (zeros [1; 2 ^ 3]) = [1; 2 ^ c_N (Circuit 3)] /\ shape (zeros [8; 4]) = 8 :: 4 :: [] /\ 8 <> 4.
Proof. repeat split; discriminate. Qed.
(** a square matrix of another size is not caught by the check; the product fails instead *)
Theorem C43_wrong_size_fails : forall svd n cs t psi m k TN, exact_svd svd -> 0 < n -> Forall (ci_ok n) cs ->
  is_state n [1; 2 ^ n] t psi -> shape m = [k; k] -> k <> 2 ^ n ->
  (TN = true -> nonzero n psi /\ forallb (ci_TN n) cs = true) ->
  exists c, circuit_of n cs = Ok c /\ cir_expectation svd c t m TN = Err TorchError.
Proof. exact expectation_wrong_size. Qed.
Print Assumptions C43_wrong_size_fails.
Example C43_wrong_size_case : shape (eye 4) = [4; 4] /\ 4 <> 2 ^ 3 /\ Forall (ci_ok 3) demo.
Proof. split; [reflexivity|]. split; [discriminate|exact demo_ok]. Qed.
(** rxx, ryy, rzz: the default TN=True raises where TN=False works *)
Theorem C43_rotations_refuted : forall svd n t a b psi v m M g, exact_svd svd -> In g [gi_rxx t a b; gi_ryy t a b; gi_rzz t a b] -> gi_ok n g ->
  is_state n [1; 2 ^ n] v psi -> nonzero n psi -> is_op n m M ->
  exists c, circuit_of n [CG g] = Ok c /\ cir_expectation svd c v m true = Err AttributeError /\
    cir_expectation svd c v m false = Ok (expect n [CG g] psi M).
Proof. exact expectation_rxx. Qed.
Print Assumptions C43_rotations_refuted.
Example C43_rotations_case : gi_ok 3 (gi_ryy 1 2 0).
Proof. giok. Qed.

(** C45 *)
Theorem C45_state_init : forall c, is_state (c_N c) [2 ^ c_N c] (state_init c) (zero_state (c_N c)) /\
  inner (c_N c) (zero_state (c_N c)) (zero_state (c_N c)) = RtoC 1.
Proof. exact state_init_ok. Qed.
Print Assumptions C45_state_init.
Example C45_case : state_init (Circuit 2) = mkT [4] [RtoC 1; RtoC 0; RtoC 0; RtoC 0].
Proof. reflexivity. Qed.
