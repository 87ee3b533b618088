(** C83, C84, C85: the memory layout of state and observable never changes a gradient, and the error bounds hold with any layout.
    Notions used in the statements: StrideCases.v (laid_out, torch_svd, torch_layouts), StrideCircuit2.v (matrix_layouts),
    StrideSaved.v (saved_values, saved_laid), GradSpec.v (two_term, pure_rotation, is_gradient), TruncSpec.v (true_svd, cut_count). *)
From Coq Require Import List ZArith QArith Reals Lia Lra Bool Arith.
From Verif Require Import PyBase Scalar CInst BigSum Index Tensor Spec MPSSpec QMath QTN QOperator GateSpec QGates QMathC GateCalls RunSpec LayerSpec QLayers LayerCalls CircuitSpec QCircuit
  QGradient GradSpec MPSFacts7 MPSCases CircuitFacts1 CircuitCases GradDemo MeasSpec TruncSpec TruncRunSpec QStride QStride2 QStride3 StrideCases StrideCircuit2 StrideGrad StrideSaved StrideSaved2 StrideShift.
Import ListNotations.
Local Close Scope Q_scope.
Local Close Scope R_scope.
Local Open Scope nat_scope.

(** C83: same result or same exception as without layouts; the decomposition need only return matrices of the right shapes *)
Theorem C83_shift_any_layout : forall svd svd_lay mmT ein_lay lay n cs x m, svd_shapes svd -> torch_svd svd -> torch_layouts svd_lay ein_lay -> matrix_layouts lay ->
  0 < n -> Forall (ci_ok n) cs -> laid_out x -> shape (val x) = [1; 2 ^ n] -> wf (val x) -> laid_out m ->
  exists c, circuit_of n cs = Ok c /\ s_cal_params_grad svd svd_lay mmT ein_lay lay x m c = cal_params_grad svd (val x) (val m) c.
Proof. exact shift_layout. Qed.
Print Assumptions C83_shift_any_layout.
(** for rotations and single-angle gates it is the gradient, and the circuit is left as it was *)
Theorem C83_shift_gradient : forall svd svd_lay mmT ein_lay lay n cs x psi m M, exact_svd svd -> torch_svd svd -> torch_layouts svd_lay ein_lay -> matrix_layouts lay ->
  0 < n -> Forall (ci_ok n) cs -> existsb matrix_only cs = true \/ (forallb (ci_TN n) cs = true /\ nonzero n psi) ->
  laid_out x -> is_state n [1; 2 ^ n] (val x) psi -> laid_out m -> is_op n (val m) M ->
  exists c, circuit_of n cs = Ok c /\
    s_cal_params_grad svd svd_lay mmT ein_lay lay x m c = cal_params_grad svd (val x) (val m) c /\
    (forallb two_term cs = true -> exists g, s_cal_params_grad svd svd_lay mmT ein_lay lay x m c = Ok (g, c) /\ is_gradient n cs psi M g).
Proof. exact shift_gradient_laid. Qed.
Print Assumptions C83_shift_gradient.
(** a state stored with a gap between its entries and an observable stored column by column; the other hypotheses are met in
    C81_columns_case *)
Example C83_case : let x := mkS (mkT [1; 8] (map ghz (bits 3))) [5; 3] in let m := mkS (eye 8) [1; 8] in
  laid_out x /\ is_state 3 [1; 2 ^ 3] (val x) ghz /\ laid_out m /\ is_op 3 (val m) id_op.
Proof.
  cbv zeta. split; [|split; [exact (proj1 (proj2 (proj2 (proj2 backends_case))))|split; [|exact eye8_op]]]; repeat split.
Qed.

(** C84: the states kept by save_mid_MPS and the final state it returns have the values they have without layouts, or the same exception
    is raised.  They are laid out again, so the next theorem applies to them. *)
Theorem C84_save_any_layout : forall svd svd_lay mmT ein_lay lay n cs mo x, svd_shapes svd -> torch_svd svd -> torch_layouts svd_lay ein_lay -> matrix_layouts lay ->
  0 < n -> Forall (ci_ok n) cs -> ci_ok n mo -> laid_out x -> wf (val x) ->
  exists c o, circuit_of n cs = Ok c /\ obuild n mo = Ok o /\
    match s_save_mid_MPS svd svd_lay mmT ein_lay lay x c o with
    | Ok (sd, sv) => save_mid_MPS svd (val x) c o = Ok (saved_values sd, val sv) /\ saved_laid n sd /\ laid_out sv
    | Err e => save_mid_MPS svd (val x) c o = Err e
    end.
Proof. exact save_layout. Qed.
Print Assumptions C84_save_any_layout.
(** cal_params_grad2 with any kept states, not only those of the same circuit *)
Theorem C84_gradient_any_layout : forall svd svd_lay mmT ein_lay lay n cs x sd, svd_shapes svd -> torch_svd svd -> torch_layouts svd_lay ein_lay -> matrix_layouts lay ->
  0 < n -> Forall (ci_ok n) cs -> laid_out x -> wf (val x) -> saved_laid n sd ->
  exists c, circuit_of n cs = Ok c /\ s_cal_params_grad2 svd svd_lay mmT ein_lay lay x c sd = cal_params_grad2 svd (val x) c (saved_values sd).
Proof. exact saved_gradient_layout. Qed.
Print Assumptions C84_gradient_any_layout.
Theorem C84_adjoint_gradient : forall svd svd_lay mmT ein_lay lay n cs x psi mo, exact_svd svd -> torch_svd svd -> torch_layouts svd_lay ein_lay -> matrix_layouts lay ->
  0 < n -> Forall (ci_ok n) cs -> forallb (ci_TN n) cs = true -> cs <> [] -> forallb pure_rotation cs = true ->
  ci_ok n mo -> ci_TN n mo = true -> hermitian n (ci_op n mo) -> laid_out x -> is_state n [1; 2 ^ n] (val x) psi -> nonzero n psi ->
  exists c o sd sv g, circuit_of n cs = Ok c /\ obuild n mo = Ok o /\ s_save_mid_MPS svd svd_lay mmT ein_lay lay x c o = Ok (sd, sv) /\
    is_state n [1; 2 ^ n] (val sv) (act n (cs_op n cs) psi) /\
    s_cal_params_grad2 svd svd_lay mmT ein_lay lay x c sd = Ok (g, c) /\ is_gradient n cs psi (ci_op n mo) g.
Proof. exact adjoint_laid. Qed.
Print Assumptions C84_adjoint_gradient.
(** the columns of C81_columns_case are kept states in a layout of their own; circuit and observable are those of C31_case *)
Example C84_case : saved_laid 3 [(0, bent_ghz); (4, bent_ghz)] /\ saved_values [(0, bent_ghz); (4, bent_ghz)] = [(0, map val bent_ghz); (4, map val bent_ghz)] /\
  Forall (ci_ok 3) demo_pure /\ forallb (ci_TN 3) demo_pure = true /\ forallb pure_rotation demo_pure = true /\
  ci_ok 3 (CG (gi_Y 1)) /\ hermitian 3 (ci_op 3 (CG (gi_Y 1))).
Proof.
  pose proof columns_case as (_ & _ & _ & _ & _ & _ & F & M & _).
  split; [repeat constructor; cbn [snd]; try exact F; apply M|]. split; [reflexivity|].
  split; [exact demo_pure_ok|]. do 2 (split; [reflexivity|]). split; [ciok|exact y_hermitian].
Qed.

(** C85: the error bounds of C55 and C71, for a true singular value decomposition whose small singular values are dropped, with any layouts *)
Theorem C85_expectation_error_bound : forall svd svd_lay mmT ein_lay lay n cs x (psi : @qstate C_scalar) m M B,
  true_svd svd -> torch_svd svd -> torch_layouts svd_lay ein_lay -> matrix_layouts lay ->
  0 < n -> Forall (ci_ok n) cs -> forallb (ci_TN n) cs = true ->
  laid_out x -> is_state n [1; 2 ^ n] (val x) psi -> norm2 n psi = 1%R -> (INR (cut_count n (n - 1)) <= 10 ^ 14)%R -> (INR (ci_moves cs) <= 2 * 10 ^ 6)%R ->
  laid_out m -> is_op n (val m) M -> (0 <= B)%R -> (forall h, norm2 n (act n M h) <= B * B * norm2 n h)%R ->
  exists c v, circuit_of n cs = Ok c /\ s_cir_expectation svd svd_lay mmT ein_lay lay c x m true = Ok v /\
    (let e := (sqrt (INR (cut_count n (n - 1))) + 8 * INR (ci_moves cs)) * / 10 ^ 8 in Rabs (v - expect n cs psi M) <= B * (e * (2 + e)))%R.
Proof. exact expectation_true_laid. Qed.
Print Assumptions C85_expectation_error_bound.
Theorem C85_shift_error_bound : forall svd svd_lay mmT ein_lay lay n x (psi : @qstate C_scalar) m M B,
  true_svd svd -> torch_svd svd -> torch_layouts svd_lay ein_lay -> matrix_layouts lay -> 0 < n ->
  laid_out x -> is_state n [1; 2 ^ n] (val x) psi -> norm2 n psi = 1%R -> (INR (cut_count n (n - 1)) <= 10 ^ 14)%R ->
  laid_out m -> is_op n (val m) M -> (0 <= B)%R -> (forall h, norm2 n (act n M h) <= B * B * norm2 n h)%R ->
  forall cs, Forall (ci_ok n) cs -> forallb (ci_TN n) cs = true -> forallb two_term cs = true -> (INR (ci_moves cs) <= 2 * 10 ^ 6)%R ->
  exists c g d, circuit_of n cs = Ok c /\ s_cal_params_grad svd svd_lay mmT ein_lay lay x m c = Ok (g, c) /\ is_gradient n cs psi M d /\ length g = length d /\
    let e := ((sqrt (INR (cut_count n (n - 1))) + 8 * INR (ci_moves cs)) * / 10 ^ 8)%R in
    forall k, k < length d -> (Rabs (nth k g 0 - nth k d 0) <= B * (e * (2 + e)))%R.
Proof. exact gradient_true_laid. Qed.
Print Assumptions C85_shift_error_bound.
Theorem C85_adjoint_error_bound : forall svd svd_lay mmT ein_lay lay n cs x (psi : @qstate C_scalar) mo,
  true_svd svd -> torch_svd svd -> torch_layouts svd_lay ein_lay -> matrix_layouts lay ->
  0 < n -> Forall (ci_ok n) cs -> forallb (ci_TN n) cs = true -> cs <> [] ->
  forallb pure_rotation cs = true -> ci_ok n mo -> ci_TN n mo = true -> hermitian n (ci_op n mo) ->
  laid_out x -> is_state n [1; 2 ^ n] (val x) psi -> norm2 n psi = 1%R ->
  (INR (cut_count n (n - 1)) <= 10 ^ 14)%R -> (INR (ci_moves (cs ++ mo :: cs)) <= 2 * 10 ^ 6)%R ->
  let e := ((sqrt (INR (cut_count n (n - 1))) + 8 * INR (ci_moves (cs ++ mo :: cs))) * / 10 ^ 8)%R in
  exists c o sd sv f g d, circuit_of n cs = Ok c /\ obuild n mo = Ok o /\ s_save_mid_MPS svd svd_lay mmT ein_lay lay x c o = Ok (sd, sv) /\ is_state n [1; 2 ^ n] (val sv) f /\
    (sqrt (rsum (bits n) (fun b => Cnorm2 (Csub (act n (cs_op n cs) psi b) (f b)))) <= e)%R /\
    s_cal_params_grad2 svd svd_lay mmT ein_lay lay x c sd = Ok (g, c) /\ is_gradient n cs psi (ci_op n mo) d /\ length g = length d /\
    forall k, k < length d -> (Rabs (nth k g 0 - nth k d 0) <= e * (2 + e))%R.
Proof. exact adjoint_true_laid. Qed.
Print Assumptions C85_adjoint_error_bound.
(** the whole way from a state to the measured means of Z *)
Theorem C85_measure_error_bound : forall svd svd_lay mmT ein_lay lay n cs x (psi : @qstate C_scalar),
  true_svd svd -> torch_svd svd -> torch_layouts svd_lay ein_lay -> matrix_layouts lay ->
  0 < n -> Forall (ci_ok n) cs -> forallb (ci_TN n) cs = true ->
  laid_out x -> is_state n [1; 2 ^ n] (val x) psi -> norm2 n psi = 1%R -> (INR (cut_count n (n - 1)) <= 10 ^ 14)%R -> (INR (ci_moves cs) <= 2 * 10 ^ 6)%R ->
  exists c l l' y vs, circuit_of n cs = Ok c /\ s_StateVec2MPS svd svd_lay mmT x n = Ok l /\ s_TN_evolution svd svd_lay mmT ein_lay lay c l = Ok l' /\
    s_MPS2StateVec mmT l' = Ok y /\ s_measure mmT lay (Z.of_nat n) y INone = Ok vs /\ length vs = n /\
    forall i, i < n -> (let e := (sqrt (INR (cut_count n (n - 1))) + 8 * INR (ci_moves cs)) * / 10 ^ 8 in
      Rabs (nth i vs 0 - zmean n (act n (cs_op n cs) psi) i) <= e * (2 + e))%R.
Proof. exact measure_true_laid. Qed.
Print Assumptions C85_measure_error_bound.
(** the hypotheses on the decomposition are met together; the others are met in C81_columns_case, C83_case and the cases of C71 *)
Theorem C85_true_svd_case : exists svd : @tensor C_scalar -> @tensor C_scalar * @tensor C_scalar * @tensor C_scalar, true_svd svd /\ torch_svd svd.
Proof. exact true_torch_svd. Qed.
Print Assumptions C85_true_svd_case.
