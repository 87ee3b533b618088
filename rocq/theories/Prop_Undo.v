(** C62: undoing a circuit with operation_dagger.  C63: an add that raises.  Specifications used in the statements: Spec.v, GateSpec.v,
    LayerSpec.v, CircuitSpec.v, MPSSpec.v, EmbedSpec.v, UndoSpec.v.  In C62 [mmap o_dagger (rev (c_gate c))] is
    [[o.operation_dagger() for o in reversed(cir.gate)]] and [x_adds] is [for d in ...: cir.add(d)]. *)
From Coq Require Import List ZArith Reals Lia Bool Arith.
From Verif Require Import PyBase Scalar CInst Tensor Spec QMath QTN QOperator GateSpec QGates GateCalls RunSpec MPSSpec LayerSpec QLayers LayerCalls
  CircuitSpec QCircuit MPSFacts7 MPSCases CircuitFacts1 CircuitCases QEmbedding EmbedSpec QCircuitX UndoSpec UndoFacts.
Import ListNotations.
Local Close Scope R_scope.
Local Open Scope nat_scope.

(** C62: the matrix is exactly the identity, in both orders of multiplication *)
Theorem C62_matrix : forall n cs, 0 < n -> Forall (ci_ok n) cs -> forallb invertible cs = true -> exists c ds c',
  circuit_of n cs = Ok c /\ mmap o_dagger (rev (c_gate c)) = Ok ds /\ x_adds (as_x c) ds = (c', None) /\
  xU c' true = Ok (eye (2 ^ n)) /\ xU c' false = Ok (eye (2 ^ n)).
Proof. exact undo_matrix. Qed.
Print Assumptions C62_matrix.
Example C62_matrix_case : Forall (ci_ok 3) (demo ++ [CG (gi_mcx [0; 2] 1)]) /\ forallb invertible (demo ++ [CG (gi_mcx [0; 2] 1)]) = true.
Proof. split; [|reflexivity]. apply Forall_app. split; [exact demo_ok|]. constructor; [split; [gw|discriminate]|constructor]. Qed.
(** the bookkeeping: twice as many operations and parameters *)
Theorem C62_count : forall n cs, Forall (ci_ok n) cs -> forallb invertible cs = true -> exists c ds c',
  circuit_of n cs = Ok c /\ mmap o_dagger (rev (c_gate c)) = Ok ds /\ x_adds (as_x c) ds = (c', None) /\
  length (x_gate c') = 2 * length cs /\ x_num c' = 2 * length (cs_angles cs) /\ length (x_params c') = 2 * length cs.
Proof. exact undo_count. Qed.
Print Assumptions C62_count.
Example C62_count_case : length (cs_angles demo) = 10. Proof. reflexivity. Qed.
(** the contraction gives back the tensor it was given, one state or a batch *)
Theorem C62_contract : forall n cs s, Forall (ci_ok n) cs -> forallb (ci_con n) cs = true -> shape s = repeat 2 n -> wf s -> exists c ds c',
  circuit_of n cs = Ok c /\ mmap o_dagger (rev (c_gate c)) = Ok ds /\ x_adds (as_x c) ds = (c', None) /\
  x_TN_contract_evolution c' s false = Ok s.
Proof. exact undo_contract. Qed.
Print Assumptions C62_contract.
Theorem C62_batch : forall B n cs t, Forall (ci_ok n) cs -> forallb (ci_con n) cs = true -> shape t = B :: repeat 2 n -> wf t -> exists c ds c',
  circuit_of n cs = Ok c /\ mmap o_dagger (rev (c_gate c)) = Ok ds /\ x_adds (as_x c) ds = (c', None) /\
  x_TN_contract_evolution c' t true = Ok t.
Proof. exact undo_batch. Qed.
Print Assumptions C62_batch.
Example C62_contract_case : let t := mkT [2; 2; 2; 2] (map (fun k => RtoC (INR k)) (seq 0 16)) in let s := mkT [2; 2; 2] (map (fun k => RtoC (INR k)) (seq 0 8)) in
  Forall (ci_ok 3) demo /\ forallb (ci_con 3) demo = true /\ shape t = 2 :: repeat 2 3 /\ wf t /\ shape s = repeat 2 3 /\ wf s.
Proof. split; [exact demo_ok|]. repeat split. Qed.
(** the matrix product state it ends with is one of the state it started from *)
Theorem C62_mps : forall svd n cs l psi, exact_svd svd -> Forall (ci_ok n) cs -> forallb (ci_TN n) cs = true -> is_mps n l psi -> nonzero n psi -> exists c ds c' l',
  circuit_of n cs = Ok c /\ mmap o_dagger (rev (c_gate c)) = Ok ds /\ x_adds (as_x c) ds = (c', None) /\
  x_TN_evolution svd c' l = Ok l' /\ is_mps n l' psi.
Proof. exact undo_mps. Qed.
Print Assumptions C62_mps.
Example C62_mps_case : exact_svd triv_svd /\ Forall (ci_ok 3) demo /\ forallb (ci_TN 3) demo = true /\ is_mps 3 ghz_mps ghz /\ nonzero 3 ghz.
Proof. destruct backends_case as (A & B & C & _ & D & E). auto. Qed.
(** false without [invertible]: every circuit with a BasicEntangleLayer or ring_of_cnot2 in it is left without a matrix *)
Theorem C62_no_inverse_refuted : forall n cs, 0 < n -> Forall (ci_ok n) cs -> forallb invertible cs = false -> exists c ds c',
  circuit_of n cs = Ok c /\ mmap o_dagger (rev (c_gate c)) = Ok ds /\ x_adds (as_x c) ds = (c', Some AttributeError) /\
  forall b, xU c' b = Err AttributeError.
Proof. exact undo_stuck. Qed.
Print Assumptions C62_no_inverse_refuted.
Example C62_no_inverse_case : Forall (ci_ok 3) (CL (li_ring2 [2; 0; 1]) :: demo) /\ forallb invertible (CL (li_ring2 [2; 0; 1]) :: demo) = false.
Proof. split; [|reflexivity]. constructor; [ciok|exact demo_ok]. Qed.

(** C63: a PauliEncoding added in the middle: add raises, yet the encoding acts in its place *)
Theorem C63_encoding_acts : forall n cs1 cs2 a xs ws, 0 < n -> Forall (ci_ok n) cs1 -> Forall (ci_ok n) cs2 -> xs <> [] -> length xs <= n -> good_wires n ws ->
  exists c e os c1 c2 u, circuit_of n cs1 = Ok c /\ PauliEncoding (Z.of_nat n) xs (map Z.of_nat ws) (axis_name a) = Ok e /\ mmap (obuild n) cs2 = Ok os /\
    x_add (as_x c) (IEnc e) = (c1, Some AttributeError) /\ x_adds c1 (map IOper os) = (c2, None) /\
    xU c2 true = Ok u /\ is_op n u (mul_op n (cs_op n cs2) (mul_op n (gs_op n (enc_gates a ws xs)) (cs_op n cs1))).
Proof. exact enc_in_circuit. Qed.
Print Assumptions C63_encoding_acts.
Example C63_encoding_case : Forall (ci_ok 3) demo /\ Forall (ci_ok 3) [CG (gi_mcx [0; 2] 1)] /\ [5; 7]%R <> [] /\ length [5; 7]%R <= 3 /\ good_wires 3 [2; 0; 1].
Proof. split; [exact demo_ok|]. split; [constructor; [split; [gw|discriminate]|constructor]|]. split; [discriminate|]. split; [cbn; lia|]. gw. Qed.
(** the parameters are those from before, the list of operations is one longer, and clear() makes the circuit empty *)
Theorem C63_bookkeeping : forall c i, (forall o, i <> IOper o) -> exists c1, x_add (as_x c) i = (c1, Some AttributeError) /\
  length (x_gate c1) = S (length (c_gate c)) /\ x_params c1 = c_params c /\ x_num c1 = c_num c /\
  x_gate (x_clear c1) = [] /\ forall b, xU (x_clear c1) b = Ok (eye (2 ^ c_N c)).
Proof. exact stray_bookkeeping. Qed.
Print Assumptions C63_bookkeeping.
Example C63_bookkeeping_case : forall e, (forall o, IEnc e <> IOper o) /\ (forall o, INone <> IOper o). Proof. split; discriminate. Qed.
(** both tensor network evolutions then raise, and so does TN_check unless an earlier operation makes it answer False *)
Theorem C63_contract : forall n cs1 cs2 i s, Forall (ci_ok n) cs1 -> Forall (ci_ok n) cs2 -> forallb (ci_con n) cs1 = true -> (forall o, i <> IOper o) ->
  shape s = repeat 2 n -> wf s ->
  exists c os c1 c2, circuit_of n cs1 = Ok c /\ mmap (obuild n) cs2 = Ok os /\
    x_add (as_x c) i = (c1, Some AttributeError) /\ x_adds c1 (map IOper os) = (c2, None) /\
    x_TN_contract_evolution c2 s false = Err AttributeError.
Proof. exact stray_networks. Qed.
Print Assumptions C63_contract.
Theorem C63_mps : forall svd n cs1 cs2 i l psi, exact_svd svd -> Forall (ci_ok n) cs1 -> Forall (ci_ok n) cs2 -> forallb (ci_TN n) cs1 = true -> (forall o, i <> IOper o) ->
  is_mps n l psi -> nonzero n psi ->
  exists c os c1 c2, circuit_of n cs1 = Ok c /\ mmap (obuild n) cs2 = Ok os /\
    x_add (as_x c) i = (c1, Some AttributeError) /\ x_adds c1 (map IOper os) = (c2, None) /\
    x_TN_evolution svd c2 l = Err AttributeError.
Proof. exact stray_mps. Qed.
Print Assumptions C63_mps.
Theorem C63_check : forall n cs1 cs2 i, Forall (ci_ok n) cs1 -> Forall (ci_ok n) cs2 -> (forall o, i <> IOper o) ->
  exists c os c1 c2, circuit_of n cs1 = Ok c /\ mmap (obuild n) cs2 = Ok os /\
    x_add (as_x c) i = (c1, Some AttributeError) /\ x_adds c1 (map IOper os) = (c2, None) /\
    x_TN_check c2 = if existsb matrix_only cs1 then Ok false else Err AttributeError.
Proof. exact stray_check. Qed.
Print Assumptions C63_check.
Example C63_check_case : existsb matrix_only demo = false /\ existsb matrix_only (demo ++ [CG (gi_mcx [0; 2] 1)]) = true. Proof. split; reflexivity. Qed.
(** None in a circuit: no matrix any more *)
Theorem C63_none : forall n cs1 cs2, 0 < n -> Forall (ci_ok n) cs1 -> Forall (ci_ok n) cs2 ->
  exists c os c1 c2, circuit_of n cs1 = Ok c /\ mmap (obuild n) cs2 = Ok os /\
    x_add (as_x c) INone = (c1, Some AttributeError) /\ x_adds c1 (map IOper os) = (c2, None) /\ forall b, xU c2 b = Err AttributeError.
Proof. exact none_in_circuit. Qed.
Print Assumptions C63_none.
