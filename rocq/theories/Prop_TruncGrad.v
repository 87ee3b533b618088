(** Properties of gradients computed from matrix product states whose small singular values are dropped, and of gradients computed without them
    (C71).  Specifications used in the statements: Spec.v, GradSpec.v (two_term, is_gradient), MeasSpec.v (norm2), TruncSpec.v (true_svd, cut_count),
    TruncRunSpec.v (ci_moves), CircuitSpec.v (expect, cs_with, set_at, ci_TN, matrix_only). *)
From Coq Require Import List ZArith QArith Reals Lra Lia Bool Arith.
From Verif Require Import PyBase Scalar CInst BigSum Index Tensor Spec SpecFacts QMath QMathC QTN QOperator GateSpec QGates GateCalls RunSpec LayerSpec CircuitSpec QCircuit QGradient CircuitCases
  MPSSpec GradSpec MeasSpec TruncSpec SVDExist5 TruncRunSpec TruncRun9 TruncRun10 GradProofs GradCases GradDemo TruncGrad TruncAdj2.
Import ListNotations.
Local Close Scope Q_scope.
Local Close Scope R_scope.
Local Open Scope nat_scope.

(** C71: an observable that lengthens no vector by more than a factor B.  Every entry of the gradient is within B e (2 + e) of the derivative of
    the expectation value given by the matrices, e being the bound of C54 on the distance of the states; cu3 excepted, as in C29. *)
Theorem C71_gradient_error_bound : forall svd n t (psi : @qstate C_scalar) m M B, true_svd svd -> 0 < n ->
  is_state n [1; 2 ^ n] t psi -> norm2 n psi = 1%R -> (INR (cut_count n (n - 1)) <= 10 ^ 14)%R ->
  is_op n m M -> (0 <= B)%R -> (forall h, norm2 n (act n M h) <= B * B * norm2 n h)%R ->
  forall cs, Forall (ci_ok n) cs -> forallb (ci_TN n) cs = true -> forallb two_term cs = true -> (INR (ci_moves cs) <= 2 * 10 ^ 6)%R ->
  exists c g d, circuit_of n cs = Ok c /\ cal_params_grad svd t m c = Ok (g, c) /\ is_gradient n cs psi M d /\ length g = length d /\
    let e := ((sqrt (INR (cut_count n (n - 1))) + 8 * INR (ci_moves cs)) * / 10 ^ 8)%R in
    forall k, k < length d -> (Rabs (nth k g 0 - nth k d 0) <= B * (e * (2 + e)))%R.
Proof. exact gradient_true. Qed.
Print Assumptions C71_gradient_error_bound.
Example C71_gradient_case : (exists svd : @tensor C_scalar -> _, true_svd svd) /\ Forall (ci_ok 3) demo_shift /\ forallb (ci_TN 3) demo_shift = true /\
  forallb two_term demo_shift = true /\ length (cs_angles demo_shift) = 12 /\
  is_state 3 [1; 2 ^ 3] (mkT [1; 8] (map zero3 (bits 3))) zero3 /\ norm2 3 zero3 = 1%R /\
  (INR (cut_count 3 (3 - 1)) <= 10 ^ 14)%R /\ 0 < ci_moves demo_shift /\ (INR (ci_moves demo_shift) <= 2 * 10 ^ 6)%R.
Proof.
  pose proof circuit_true_case as (A1 & _ & _ & A2 & A3 & A4 & _). split; [exact A1|]. split; [exact demo_shift_ok|]. do 3 (split; [reflexivity|]).
  split; [exact A2|]. split; [exact A3|]. split; [exact A4|]. assert (E : (0 < ci_moves demo_shift <= 100)%nat) by (vm_compute; lia). split; [lia|].
  apply Rle_trans with (INR 100); [apply le_INR; lia|]. rewrite INR_IZR_INZ. cbn. lra.
Qed.
Example C71_observable_case : is_op 3 (op_tensor 3 (lift Z_op [1])) (lift Z_op [1]) /\ (forall h, norm2 3 (act 3 (lift Z_op [1%nat]) h) <= 1 * 1 * norm2 3 h)%R.
Proof. exact Z3_bound. Qed.

(** C71: cu3 included: the distance from half the difference of the expectation values at the two shifted angles *)
Theorem C71_two_point_error_bound : forall svd n t (psi : @qstate C_scalar) m M B, true_svd svd -> 0 < n ->
  is_state n [1; 2 ^ n] t psi -> norm2 n psi = 1%R -> (INR (cut_count n (n - 1)) <= 10 ^ 14)%R ->
  is_op n m M -> (0 <= B)%R -> (forall h, norm2 n (act n M h) <= B * B * norm2 n h)%R ->
  forall cs, Forall (ci_ok n) cs -> forallb (ci_TN n) cs = true -> (INR (ci_moves cs) <= 2 * 10 ^ 6)%R ->
  exists c g, circuit_of n cs = Ok c /\ cal_params_grad svd t m c = Ok (g, c) /\ length g = length (cs_angles cs) /\
    forall k, k < length (cs_angles cs) -> let E y := expect n (cs_with cs (set_at k y (cs_angles cs))) psi M in
      let e := ((sqrt (INR (cut_count n (n - 1))) + 8 * INR (ci_moves cs)) * / 10 ^ 8)%R in
      (Rabs (nth k g 0 - / 2 * (E (nth k (cs_angles cs) 0 + / 2 * PI) - E (nth k (cs_angles cs) 0 - / 2 * PI))) <= B * (e * (2 + e)))%R.
Proof. exact shift_true. Qed.
Print Assumptions C71_two_point_error_bound.
Example C71_two_point_case : Forall (ci_ok 3) demo /\ forallb (ci_TN 3) demo = true /\ forallb two_term demo = false /\ 0 < ci_moves demo /\ (INR (ci_moves demo) <= 2 * 10 ^ 6)%R.
Proof. pose proof circuit_true_case as (_ & A & B & _ & _ & _ & D & F). repeat (split; [assumption|]). split; [reflexivity|]. split; assumption. Qed.

(** C71: with an operation that only has a matrix the decomposition is never called: whatever it would return, expectation values and gradients are exact *)
Theorem C71_matrix_expectation : forall svd n cs t psi m M TN, 0 < n -> Forall (ci_ok n) cs -> is_state n [1; 2 ^ n] t psi -> is_op n m M ->
  TN = false \/ existsb matrix_only cs = true ->
  exists c, circuit_of n cs = Ok c /\ cir_expectation svd c t m TN = Ok (expect n cs psi M).
Proof. exact expectation_any. Qed.
Print Assumptions C71_matrix_expectation.
Theorem C71_matrix_gradient : forall svd n cs t psi m M, 0 < n -> Forall (ci_ok n) cs -> forallb two_term cs = true -> existsb matrix_only cs = true ->
  is_state n [1; 2 ^ n] t psi -> is_op n m M ->
  exists c g, circuit_of n cs = Ok c /\ cal_params_grad svd t m c = Ok (g, c) /\ is_gradient n cs psi M g.
Proof. exact gradient_any. Qed.
Print Assumptions C71_matrix_gradient.
Example C71_matrix_case : Forall (ci_ok 3) demo_matrix /\ forallb two_term demo_matrix = true /\ existsb matrix_only demo_matrix = true /\ length (cs_angles demo_matrix) = 20.
Proof. split; [exact demo_matrix_ok|repeat split; reflexivity]. Qed.

(** C71: the second gradient method.  The states it keeps come from the circuit, the observable and the circuit undone, hence the count. *)
Theorem C71_adjoint_error_bound : forall svd n cs t (psi : @qstate C_scalar) mo, true_svd svd -> 0 < n -> Forall (ci_ok n) cs -> forallb (ci_TN n) cs = true -> cs <> [] ->
  forallb pure_rotation cs = true -> ci_ok n mo -> ci_TN n mo = true -> hermitian n (ci_op n mo) -> is_state n [1; 2 ^ n] t psi -> norm2 n psi = 1%R ->
  (INR (cut_count n (n - 1)) <= 10 ^ 14)%R -> (INR (ci_moves (cs ++ mo :: cs)) <= 2 * 10 ^ 6)%R ->
  let e := ((sqrt (INR (cut_count n (n - 1))) + 8 * INR (ci_moves (cs ++ mo :: cs))) * / 10 ^ 8)%R in
  exists c o sd sv f g d, circuit_of n cs = Ok c /\ obuild n mo = Ok o /\ save_mid_MPS svd t c o = Ok (sd, sv) /\ is_state n [1; 2 ^ n] sv f /\
    (sqrt (rsum (bits n) (fun b => Cnorm2 (Csub (act n (cs_op n cs) psi b) (f b)))) <= e)%R /\
    cal_params_grad2 svd t c sd = Ok (g, c) /\ is_gradient n cs psi (ci_op n mo) d /\ length g = length d /\
    forall k, k < length d -> (Rabs (nth k g 0 - nth k d 0) <= e * (2 + e))%R.
Proof. exact adjoint_gradient_true. Qed.
Print Assumptions C71_adjoint_error_bound.
(** and for every circuit, the distance of each entry from the overlap that C31 gives *)
Theorem C71_adjoint_overlap_bound : forall svd n cs t (psi : @qstate C_scalar) mo, true_svd svd -> 0 < n -> Forall (ci_ok n) cs -> forallb (ci_TN n) cs = true -> cs <> [] ->
  ci_ok n mo -> ci_TN n mo = true -> is_state n [1; 2 ^ n] t psi -> norm2 n psi = 1%R ->
  (INR (cut_count n (n - 1)) <= 10 ^ 14)%R -> (INR (ci_moves (cs ++ mo :: cs)) <= 2 * 10 ^ 6)%R ->
  let e := ((sqrt (INR (cut_count n (n - 1))) + 8 * INR (ci_moves (cs ++ mo :: cs))) * / 10 ^ 8)%R in
  exists c o sd sv f g, circuit_of n cs = Ok c /\ obuild n mo = Ok o /\ save_mid_MPS svd t c o = Ok (sd, sv) /\ is_state n [1; 2 ^ n] sv f /\
    (sqrt (rsum (bits n) (fun b => Cnorm2 (Csub (act n (cs_op n cs) psi b) (f b)))) <= e)%R /\
    cal_params_grad2 svd t c sd = Ok (g, c) /\ length g = length (cs_angles cs) /\
    forall cs1 x cs2 i, cs = cs1 ++ x :: cs2 -> i < length (ci_angles x) ->
      (Rabs (nth (length (cs_angles cs1) + i) g 0 -
        - Re (inner n (act n (ci_op n mo) (act n (cs_op n cs) psi)) (act n (cs_op n (cs1 ++ ci_with x (set_at i (nth i (ci_angles x) 0 - PI)%R (ci_angles x)) :: cs2)) psi))) <= e * (2 + e))%R.
Proof. exact adjoint_true. Qed.
Print Assumptions C71_adjoint_overlap_bound.
Example C71_adjoint_case : Forall (ci_ok 3) demo_pure /\ forallb (ci_TN 3) demo_pure = true /\ demo_pure <> [] /\ forallb pure_rotation demo_pure = true /\ length (cs_angles demo_pure) = 11 /\
  ci_ok 3 (CG (gi_Y 1)) /\ ci_TN 3 (CG (gi_Y 1)) = true /\ hermitian 3 (ci_op 3 (CG (gi_Y 1))) /\
  0 < ci_moves (demo_pure ++ CG (gi_Y 1) :: demo_pure) /\ (INR (ci_moves (demo_pure ++ CG (gi_Y 1) :: demo_pure)) <= 2 * 10 ^ 6)%R.
Proof.
  split; [exact demo_pure_ok|]. split; [reflexivity|]. split; [discriminate|]. do 2 (split; [reflexivity|]). split; [ciok|]. split; [reflexivity|]. split; [exact y_hermitian|].
  assert (E : (0 < ci_moves (demo_pure ++ CG (gi_Y 1) :: demo_pure) <= 100)%nat) by (vm_compute; lia). split; [lia|].
  apply Rle_trans with (INR 100); [apply le_INR; lia|]. rewrite INR_IZR_INZ. cbn. lra.
Qed.
