(** Properties of parameter_shift (C27 gradient part, C28-C31).  Specifications used in the statements: Spec.v, GateSpec.v, LayerSpec.v,
    MPSSpec.v, CircuitSpec.v, GradSpec.v.  A call returns its value and the circuit as it leaves it.  [svd] stands for
    torch.svd and what is assumed of it is written in each statement. *)
From Coq Require Import List ZArith QArith Reals Lra Lia Bool Arith.
From Verif Require Import PyBase Scalar CInst BigSum Index Tensor Spec SpecFacts QMath QTN QOperator GateSpec QGates GateCalls RunSpec MPSSpec
  LayerSpec QLayers LayerCalls CircuitSpec QCircuit QGradient GradSpec MPSFacts7 LayerProofs MPSCases CircuitFacts1 CircuitProofs CircuitCases GradProofs GradProofs2 GradCases GradDemo.
Import ListNotations.
Local Close Scope Q_scope.
Local Close Scope R_scope.
Local Open Scope nat_scope.

(** C28: every entry is the partial derivative, for circuits without cu3 on which the expectation can be computed: with an operation
    that has only the matrix form, or with every operation usable on tensor networks *)
Theorem C28_gradient : forall svd n cs t psi m M, exact_svd svd -> 0 < n -> Forall (ci_ok n) cs -> forallb two_term cs = true ->
  existsb matrix_only cs = true \/ (forallb (ci_TN n) cs = true /\ nonzero n psi) -> is_state n [1; 2 ^ n] t psi -> is_op n m M ->
  exists c g, circuit_of n cs = Ok c /\ cal_params_grad svd t m c = Ok (g, c) /\ is_gradient n cs psi M g.
Proof. exact shift_gradient. Qed.
Print Assumptions C28_gradient.
Example C28_case : Forall (ci_ok 3) demo_shift /\ forallb two_term demo_shift = true /\ forallb (ci_TN 3) demo_shift = true /\ length (cs_angles demo_shift) = 12.
Proof. split; [exact demo_shift_ok|repeat split; reflexivity]. Qed.
Example C28_case_matrix : Forall (ci_ok 3) demo_matrix /\ forallb two_term demo_matrix = true /\ existsb matrix_only demo_matrix = true /\ length (cs_angles demo_matrix) = 20.
Proof. split; [exact demo_matrix_ok|repeat split; reflexivity]. Qed.
(** the value in every case, cu3 included: half the difference of the expectations at the two shifted angles *)
Theorem C28_two_point_value : forall svd n cs t psi m M, exact_svd svd -> 0 < n -> Forall (ci_ok n) cs ->
  existsb matrix_only cs = true \/ (forallb (ci_TN n) cs = true /\ nonzero n psi) -> is_state n [1; 2 ^ n] t psi -> is_op n m M ->
  exists c g, circuit_of n cs = Ok c /\ cal_params_grad svd t m c = Ok (g, c) /\ length g = length (cs_angles cs) /\
    forall k, k < length (cs_angles cs) -> let E y := expect n (cs_with cs (set_at k y (cs_angles cs))) psi M in
      nth k g 0%R = (/ 2 * (E (nth k (cs_angles cs) 0 + / 2 * PI) - E (nth k (cs_angles cs) 0 - / 2 * PI)))%R.
Proof. exact shift_run. Qed.
Print Assumptions C28_two_point_value.
Example C28_two_point_case : Forall (ci_ok 3) demo /\ forallb (ci_TN 3) demo = true /\ forallb two_term demo = false /\ nonzero 3 ghz /\
  is_state 3 [1; 2 ^ 3] (mkT [1; 8] (map ghz (bits 3))) ghz /\ is_op 3 (eye 8) id_op.
Proof. split; [exact demo_ok|]. do 2 (split; [reflexivity|]). split; [exact ghz_nonzero|]. split; [exact ghz_row|exact eye8_op]. Qed.
(** rxx, ryy, rzz: when no operation forces the matrix back end the call raises instead *)
Theorem C28_rotations_refuted : forall svd n pre g post t psi m M, exact_svd svd -> 0 < n -> Forall (ci_ok n) (pre ++ g :: post) -> forallb (ci_TN n) pre = true ->
  two_qubit_rotation g = true -> existsb matrix_only post = false -> is_state n [1; 2 ^ n] t psi -> nonzero n psi -> is_op n m M ->
  exists c, circuit_of n (pre ++ g :: post) = Ok c /\ cal_params_grad svd t m c = Err AttributeError.
Proof. exact shift_rotations. Qed.
Print Assumptions C28_rotations_refuted.
Example C28_rotations_case : Forall (ci_ok 3) ([CG (gi_ry 1 2)] ++ CG (gi_rxx 2 0 1) :: [CG (gi_H 1)]).
Proof. repeat (constructor; [ciok|]). constructor. Qed.

(** C29: for cu3 the two-point rule is not the derivative *)
Theorem C29_cu3_refuted : forall svd th t m, exact_svd svd -> is_state 2 [1; 4] t plus0 -> is_op 2 m (lift X_op [0]) -> sin (th / 2) <> 0%R ->
  exists c g, circuit_of 2 [CG (gi_cu3 th 0 0 0 1)] = Ok c /\ cal_params_grad svd t m c = Ok (g, c) /\ nth 0 g 0%R = (- (sqrt 2 * sin (th / 2)))%R /\
    derivable_pt_lim (fun x => expect 2 [CG (gi_cu3 x 0 0 0 1)] plus0 (lift X_op [0])) th (- sin (th / 2))%R /\
    ~ is_gradient 2 [CG (gi_cu3 th 0 0 0 1)] plus0 (lift X_op [0]) g.
Proof. exact shift_cu3_wrong. Qed.
Print Assumptions C29_cu3_refuted.
Example C29_case : sin (PI / 2) <> 0%R /\ nonzero 2 plus0.
Proof. split; [rewrite sin_PI2; lra|exact plus0_nonzero]. Qed.

(** C30: a circuit as built is left exactly as it was *)
Theorem C30_shift_unchanged : forall svd n cs t psi m M, exact_svd svd -> 0 < n -> Forall (ci_ok n) cs ->
  existsb matrix_only cs = true \/ (forallb (ci_TN n) cs = true /\ nonzero n psi) -> is_state n [1; 2 ^ n] t psi -> is_op n m M ->
  exists c g, circuit_of n cs = Ok c /\ cal_params_grad svd t m c = Ok (g, c).
Proof. exact shift_unchanged. Qed.
Print Assumptions C30_shift_unchanged.
Theorem C30_adjoint_unchanged : forall svd n cs t psi mo, exact_svd svd -> 0 < n -> Forall (ci_ok n) cs -> forallb (ci_TN n) cs = true -> cs <> [] ->
  ci_ok n mo -> ci_TN n mo = true -> is_state n [1; 2 ^ n] t psi -> nonzero n psi ->
  exists c o sd sv g, circuit_of n cs = Ok c /\ obuild n mo = Ok o /\ save_mid_MPS svd t c o = Ok (sd, sv) /\ cal_params_grad2 svd t c sd = Ok (g, c).
Proof. exact adjoint_unchanged. Qed.
Print Assumptions C30_adjoint_unchanged.
Example C30_case : Forall (ci_ok 3) demo /\ forallb (ci_TN 3) demo = true /\ demo <> [] /\ ci_ok 3 (CG (gi_Y 1)).
Proof. split; [exact demo_ok|]. split; [reflexivity|]. split; [discriminate|ciok]. Qed.
(** a circuit whose angles were changed after it was built (gates as in cs_with cs v, record as for cs): the call puts the old angles back *)
Theorem C30_updated_refuted : forall svd n cs v t psi m M c d, exact_svd svd -> 0 < n -> Forall (ci_ok n) cs -> length v = length (cs_angles cs) ->
  existsb matrix_only cs = true \/ (forallb (ci_TN n) cs = true /\ nonzero n psi) -> is_state n [1; 2 ^ n] t psi -> is_op n m M ->
  circuit_of n cs = Ok c -> circuit_of n (cs_with cs v) = Ok d ->
  exists g, cal_params_grad svd t m (mkC n (c_gate d) (c_params c) (c_num c)) = Ok (g, c) /\ length g = length (cs_angles cs).
Proof. exact shift_resets. Qed.
Print Assumptions C30_updated_refuted.
Example C30_updated_case : exists c d, length (repeat 7%R 12) = length (cs_angles demo_shift) /\ circuit_of 3 demo_shift = Ok c /\ circuit_of 3 (cs_with demo_shift (repeat 7%R 12)) = Ok d.
Proof.
  exists (circ 3 demo_shift), (circ 3 (cs_with demo_shift (repeat 7%R 12))). split; [reflexivity|]. split; [apply circuit_of_ok, demo_shift_ok|].
  apply circuit_of_ok. cbn. repeat (constructor; [ciok|]). constructor.
Qed.
(** the same on one gate, through params_update *)
Theorem C30_update_one_refuted : forall svd n w a b t psi m M, exact_svd svd -> 0 < n -> w < n -> nonzero n psi -> is_state n [1; 2 ^ n] t psi -> is_op n m M -> a <> b ->
  exists c c1 g, circuit_of n [CG (gi_rx a w)] = Ok c /\ update_gate c 0 (PS b) = Ok c1 /\ cal_params_grad svd t m c1 = Ok (g, c) /\
    c_gate c1 <> c_gate c /\ exists d, circuit_of n [CG (gi_rx b w)] = Ok d /\ c_gate c1 = c_gate d.
Proof. exact shift_after_update. Qed.
Print Assumptions C30_update_one_refuted.

(** C31: the gradient of the expectation of a self-adjoint gate, for circuits of rotations *)
Theorem C31_adjoint_gradient : forall svd n cs t psi mo, exact_svd svd -> 0 < n -> Forall (ci_ok n) cs -> forallb (ci_TN n) cs = true -> cs <> [] -> forallb pure_rotation cs = true ->
  ci_ok n mo -> ci_TN n mo = true -> hermitian n (ci_op n mo) -> is_state n [1; 2 ^ n] t psi -> nonzero n psi ->
  exists c o sd sv g, circuit_of n cs = Ok c /\ obuild n mo = Ok o /\ save_mid_MPS svd t c o = Ok (sd, sv) /\ is_state n [1; 2 ^ n] sv (act n (cs_op n cs) psi) /\
    cal_params_grad2 svd t c sd = Ok (g, c) /\ is_gradient n cs psi (ci_op n mo) g.
Proof. exact adjoint_gradient. Qed.
Print Assumptions C31_adjoint_gradient.
Example C31_case : Forall (ci_ok 3) demo_pure /\ forallb (ci_TN 3) demo_pure = true /\ forallb pure_rotation demo_pure = true /\ length (cs_angles demo_pure) = 11 /\
  ci_ok 3 (CG (gi_Y 1)) /\ hermitian 3 (ci_op 3 (CG (gi_Y 1))).
Proof. split; [exact demo_pure_ok|]. do 3 (split; [reflexivity|]). split; [ciok|exact y_hermitian]. Qed.
(** u1, cphase and cu3 get wrong values *)
Theorem C31_u1_refuted : forall svd th t, exact_svd svd -> is_state 1 [1; 2] t plus -> sin th <> 0%R ->
  exists c o sd sv g, circuit_of 1 [CG (gi_u1 th 0)] = Ok c /\ obuild 1 (CG (gi_X 0)) = Ok o /\ save_mid_MPS svd t c o = Ok (sd, sv) /\ cal_params_grad2 svd t c sd = Ok (g, c) /\
    nth 0 g 0%R = 0%R /\ derivable_pt_lim (fun x => expect 1 [CG (gi_u1 x 0)] plus (lift X_op [0])) th (- (2 * sin th))%R /\
    ~ is_gradient 1 [CG (gi_u1 th 0)] plus (lift X_op [0]) g.
Proof. exact adjoint_u1_wrong. Qed.
Print Assumptions C31_u1_refuted.
Theorem C31_cphase_refuted : forall svd th t, exact_svd svd -> is_state 2 [1; 4] t one_plus -> sin th <> 0%R ->
  exists c o sd sv g, circuit_of 2 [CG (gi_cphase th 0 1)] = Ok c /\ obuild 2 (CG (gi_X 1)) = Ok o /\ save_mid_MPS svd t c o = Ok (sd, sv) /\ cal_params_grad2 svd t c sd = Ok (g, c) /\
    nth 0 g 0%R = 0%R /\ derivable_pt_lim (fun x => expect 2 [CG (gi_cphase x 0 1)] one_plus (lift X_op [1])) th (- (2 * sin th))%R /\
    ~ is_gradient 2 [CG (gi_cphase th 0 1)] one_plus (lift X_op [1]) g.
Proof. exact adjoint_cphase_wrong. Qed.
Print Assumptions C31_cphase_refuted.
Theorem C31_cu3_refuted : forall svd th t, exact_svd svd -> is_state 2 [1; 4] t plus0 -> cos (th / 2) <> 0%R ->
  exists c o sd sv g, circuit_of 2 [CG (gi_cu3 th 0 0 0 1)] = Ok c /\ obuild 2 (CG (gi_X 0)) = Ok o /\ save_mid_MPS svd t c o = Ok (sd, sv) /\ cal_params_grad2 svd t c sd = Ok (g, c) /\
    nth 0 g 0%R = (- cos (th / 2) - sin (th / 2))%R /\ derivable_pt_lim (fun x => expect 2 [CG (gi_cu3 x 0 0 0 1)] plus0 (lift X_op [0])) th (- sin (th / 2))%R /\
    ~ is_gradient 2 [CG (gi_cu3 th 0 0 0 1)] plus0 (lift X_op [0]) g.
Proof. exact adjoint_cu3_wrong. Qed.
Print Assumptions C31_cu3_refuted.
Example C31_refuted_case : sin (PI / 2) <> 0%R /\ nonzero 1 plus /\ nonzero 2 one_plus.
Proof. split; [rewrite sin_PI2; lra|]. split; [exact plus_nonzero|exact one_plus_nonzero]. Qed.
(** an empty circuit is refused *)
Theorem C31_empty_circuit : forall svd n t psi mo, exact_svd svd -> 0 < n -> is_state n [1; 2 ^ n] t psi -> nonzero n psi -> ci_ok n mo -> ci_TN n mo = true ->
  exists o, obuild n mo = Ok o /\ save_mid_MPS svd t (Circuit n) o = Err IndexError.
Proof. exact adjoint_empty. Qed.
Print Assumptions C31_empty_circuit.
Example C31_empty_case : ci_ok 3 (CG (gi_Y 1)) /\ ci_TN 3 (CG (gi_Y 1)) = true /\ nonzero 3 ghz.
Proof. split; [ciok|]. split; [reflexivity|exact ghz_nonzero]. Qed.

(** C27: a circuit that was cleared keeps counting its old angles, so that its gradient is never computed *)
Theorem C27_gradient_refuted : forall svd n cs1 cs2 t psi m M, exact_svd svd -> 0 < n -> Forall (ci_ok n) cs1 -> Forall (ci_ok n) cs2 -> cs_angles cs1 <> [] ->
  existsb matrix_only cs2 = true \/ (forallb (ci_TN n) cs2 = true /\ nonzero n psi) -> is_state n [1; 2 ^ n] t psi -> is_op n m M ->
  exists c os, circuit_of n cs1 = Ok c /\ mmap (obuild n) cs2 = Ok os /\ cal_params_grad svd t m (fold_left add os (clear c)) = Err AssertionError.
Proof. exact clear_gradient. Qed.
Print Assumptions C27_gradient_refuted.
Example C27_gradient_case : Forall (ci_ok 3) demo /\ cs_angles demo <> [] /\ Forall (ci_ok 3) demo_shift /\ forallb (ci_TN 3) demo_shift = true /\ nonzero 3 ghz.
Proof. split; [exact demo_ok|]. split; [discriminate|]. split; [exact demo_shift_ok|]. split; [reflexivity|exact ghz_nonzero]. Qed.
