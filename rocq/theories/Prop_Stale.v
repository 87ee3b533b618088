(** Property C78: gradients of a circuit whose angles were changed after it was built.  Such a circuit is written
    [mkC n (c_gate d) (c_params c) (c_num c)]: the operations are those of the circuit d, built like c with other angles, and the angles
    the circuit has recorded are those of c. *)
From Coq Require Import List ZArith Reals Lra Lia Bool Arith.
From Verif Require Import PyBase Scalar CInst Index Tensor Spec GateSpec LayerSpec MPSSpec CircuitSpec GradSpec QGates QLayers QCircuit QGradient CircuitCases GradProofs GradCases GradDemo MPSCases MPSCases SharedCases StaleProofs StaleCases.
Import ListNotations.
Local Close Scope R_scope.
Local Open Scope nat_scope.

(** params_update on an operation makes such a circuit; p is what the circuit d recorded for that operation *)
Theorem C78_params_update : forall n pre x post u p c d, Forall (ci_ok n) (pre ++ x :: post) -> length u = length (ci_angles x) -> u <> [] ->
  circuit_of n (pre ++ x :: post) = Ok c -> circuit_of n (pre ++ ci_with x u :: post) = Ok d -> dict_get (c_params d) (length pre) = Ok (Some p) ->
  update_gate c (length pre) p = Ok (mkC n (c_gate d) (c_params c) (c_num c)).
Proof. exact update_makes_stale. Qed.
Print Assumptions C78_params_update.

(** cal_params_grad: the entries of an operation are two-point values, hence (cu3 apart) derivatives, at the point where this operation
    and the earlier ones have their recorded angles and the later ones their current angles *)
Theorem C78_shift_value : forall svd n cs v t psi m M c d, exact_svd svd -> 0 < n -> Forall (ci_ok n) cs -> length v = length (cs_angles cs) ->
  existsb matrix_only cs = true \/ (forallb (ci_TN n) cs = true /\ nonzero n psi) -> is_state n [1; 2 ^ n] t psi -> is_op n m M ->
  circuit_of n cs = Ok c -> circuit_of n (cs_with cs v) = Ok d ->
  exists g, cal_params_grad svd t m (mkC n (c_gate d) (c_params c) (c_num c)) = Ok (g, c) /\ length g = length (cs_angles cs) /\
    forall pre x post i, cs = pre ++ x :: post -> i < length (ci_angles x) ->
      let E y := expect n (pre ++ ci_with x (set_at i y (ci_angles x)) :: cs_with post (skipn (length (cs_angles (pre ++ [x]))) v)) psi M in
      nth (length (cs_angles pre) + i) g 0%R = (/ 2 * (E (nth i (ci_angles x) 0 + / 2 * PI) - E (nth i (ci_angles x) 0 - / 2 * PI)))%R /\
      (two_term x = true -> derivable_pt_lim E (nth i (ci_angles x) 0%R) (nth (length (cs_angles pre) + i) g 0%R)).
Proof. exact shift_stale. Qed.
Print Assumptions C78_shift_value.
Example C78_shift_case : Forall (ci_ok 3) demo_shift /\ forallb (ci_TN 3) demo_shift = true /\ length (repeat 1%R 12) = length (cs_angles demo_shift) /\ nonzero 3 ghz.
Proof. split; [exact demo_shift_ok|]. do 2 (split; [reflexivity|]). exact ghz_nonzero. Qed.
(** so it is in general a gradient neither at the recorded nor at the current angles *)
Theorem C78_shift_refuted : forall svd a a' b b' t m c d, exact_svd svd -> is_state 1 [1; 2] t (zero_state 1) -> is_op 1 m (lift Z_op [0]) ->
  sin (a + b') <> sin (a + a') -> sin (a + b') <> sin (b + b') ->
  circuit_of 1 [CG (gi_rx a 0); CG (gi_rx a' 0)] = Ok c -> circuit_of 1 [CG (gi_rx b 0); CG (gi_rx b' 0)] = Ok d ->
  exists g, cal_params_grad svd t m (mkC 1 (c_gate d) (c_params c) (c_num c)) = Ok (g, c) /\ g = [- sin (a + b'); - sin (a + a')]%R /\
    ~ is_gradient 1 [CG (gi_rx a 0); CG (gi_rx a' 0)] (zero_state 1) (lift Z_op [0]) g /\ ~ is_gradient 1 [CG (gi_rx b 0); CG (gi_rx b' 0)] (zero_state 1) (lift Z_op [0]) g.
Proof. exact shift_updated_wrong. Qed.
Print Assumptions C78_shift_refuted.

(** save_mid_MPS uses the current angles v; cal_params_grad2, called when the angles are w, replaces in each entry the operation's angles
    by the recorded ones with one of them moved by -pi, whatever w is, and puts the recorded angles back *)
Theorem C78_adjoint_value : forall svd n cs v w t psi mo c d e, exact_svd svd -> 0 < n -> Forall (ci_ok n) cs -> forallb (ci_TN n) cs = true -> cs <> [] ->
  length v = length (cs_angles cs) -> length w = length (cs_angles cs) -> ci_ok n mo -> ci_TN n mo = true -> is_state n [1; 2 ^ n] t psi -> nonzero n psi ->
  circuit_of n cs = Ok c -> circuit_of n (cs_with cs v) = Ok d -> circuit_of n (cs_with cs w) = Ok e ->
  exists o sd sv g, obuild n mo = Ok o /\ save_mid_MPS svd t (mkC n (c_gate d) (c_params c) (c_num c)) o = Ok (sd, sv) /\
    is_state n [1; 2 ^ n] sv (act n (cs_op n (cs_with cs v)) psi) /\
    cal_params_grad2 svd t (mkC n (c_gate e) (c_params c) (c_num c)) sd = Ok (g, c) /\ length g = length (cs_angles cs) /\
    forall pre x post i, cs = pre ++ x :: post -> i < length (ci_angles x) ->
      nth (length (cs_angles pre) + i) g 0%R =
      (- Re (inner n (act n (ci_op n mo) (act n (cs_op n (cs_with cs v)) psi))
                     (act n (cs_op n (cs_with pre v ++ ci_with x (set_at i (nth i (ci_angles x) 0 - PI)%R (ci_angles x)) :: cs_with post (skipn (length (cs_angles (pre ++ [x]))) v))) psi)))%R.
Proof. exact adjoint_stale. Qed.
Print Assumptions C78_adjoint_value.
(** saved while the circuit was as built: the gradient at the recorded angles, whatever the angles are at the time of the second call *)
Theorem C78_adjoint_saved_as_built : forall svd n cs w t psi mo c e, exact_svd svd -> 0 < n -> Forall (ci_ok n) cs -> forallb (ci_TN n) cs = true -> cs <> [] -> forallb pure_rotation cs = true ->
  length w = length (cs_angles cs) -> ci_ok n mo -> ci_TN n mo = true -> hermitian n (ci_op n mo) -> is_state n [1; 2 ^ n] t psi -> nonzero n psi ->
  circuit_of n cs = Ok c -> circuit_of n (cs_with cs w) = Ok e ->
  exists o sd sv g, obuild n mo = Ok o /\ save_mid_MPS svd t c o = Ok (sd, sv) /\ cal_params_grad2 svd t (mkC n (c_gate e) (c_params c) (c_num c)) sd = Ok (g, c) /\
    is_gradient n cs psi (ci_op n mo) g.
Proof. exact adjoint_saved_as_built. Qed.
Print Assumptions C78_adjoint_saved_as_built.
Example C78_adjoint_case : Forall (ci_ok 3) demo_pure /\ forallb (ci_TN 3) demo_pure = true /\ demo_pure <> [] /\ forallb pure_rotation demo_pure = true /\
  length (repeat 1%R 11) = length (cs_angles demo_pure) /\ ci_ok 3 (CG (gi_Y 1)) /\ hermitian 3 (ci_op 3 (CG (gi_Y 1))).
Proof. split; [exact demo_pure_ok|]. split; [reflexivity|]. split; [discriminate|]. do 2 (split; [reflexivity|]). split; [ciok|exact y_hermitian]. Qed.
(** rx(a) changed to rx(b), both calls afterwards: the value of the derivative half way between *)
Theorem C78_adjoint_refuted : forall svd a b t c d, exact_svd svd -> is_state 1 [1; 2] t (zero_state 1) -> sin ((a + b) / 2) <> sin a -> sin ((a + b) / 2) <> sin b ->
  circuit_of 1 [CG (gi_rx a 0)] = Ok c -> circuit_of 1 [CG (gi_rx b 0)] = Ok d ->
  exists o sd sv g, obuild 1 (CG (gi_Z 0)) = Ok o /\ let c1 := mkC 1 (c_gate d) (c_params c) (c_num c) in
    save_mid_MPS svd t c1 o = Ok (sd, sv) /\ cal_params_grad2 svd t c1 sd = Ok (g, c) /\ g = [- sin ((a + b) / 2)]%R /\
    ~ is_gradient 1 [CG (gi_rx a 0)] (zero_state 1) (lift Z_op [0]) g /\ ~ is_gradient 1 [CG (gi_rx b 0)] (zero_state 1) (lift Z_op [0]) g.
Proof. exact adjoint_updated_wrong. Qed.
Print Assumptions C78_adjoint_refuted.
Example C78_refuted_case : sin ((0 + PI) / 2) <> sin 0 /\ sin ((0 + PI) / 2) <> sin PI /\ sin (0 + PI / 2) <> sin (0 + 0) /\ sin (0 + PI / 2) <> sin (PI / 2 + PI / 2).
Proof.
  replace ((0 + PI) / 2)%R with (PI / 2)%R by lra. replace (0 + PI / 2)%R with (PI / 2)%R by lra. replace (0 + 0)%R with 0%R by lra. replace (PI / 2 + PI / 2)%R with PI by lra.
  rewrite sin_PI2, sin_0, sin_PI. repeat split; lra.
Qed.
Example C78_update_case : exists c d p, circuit_of 1 ([CG (gi_H 0)] ++ CG (gi_rx 1 0) :: []) = Ok c /\ circuit_of 1 ([CG (gi_H 0)] ++ ci_with (CG (gi_rx 1 0)) [2%R] :: []) = Ok d /\
  dict_get (c_params d) (length [CG (gi_H 0)]) = Ok (Some p).
Proof.
  assert (F : forall y, Forall (ci_ok 1) [CG (gi_H 0); CG (gi_rx y 0)]).
  { intros y. constructor; [ciok|]. constructor; [ciok|constructor]. }
  exists (CircuitFacts1.circ 1 [CG (gi_H 0); CG (gi_rx 1 0)]), (CircuitFacts1.circ 1 [CG (gi_H 0); CG (gi_rx 2 0)]), (PS 2).
  split; [apply CircuitFacts1.circuit_of_ok, F|]. split; [apply (CircuitFacts1.circuit_of_ok 1 [CG (gi_H 0); CG (gi_rx 2 0)]), F|]. reflexivity.
Qed.

(** one operation with angles: cal_params_grad never sees params_update, its answer stays the gradient at the recorded angles *)
Theorem C78_one_operation : forall svd n pre x post v t psi m M c d, exact_svd svd -> 0 < n -> Forall (ci_ok n) (pre ++ x :: post) -> cs_angles pre = [] -> cs_angles post = [] -> two_term x = true ->
  length v = length (ci_angles x) -> existsb matrix_only (pre ++ x :: post) = true \/ (forallb (ci_TN n) (pre ++ x :: post) = true /\ nonzero n psi) ->
  is_state n [1; 2 ^ n] t psi -> is_op n m M ->
  circuit_of n (pre ++ x :: post) = Ok c -> circuit_of n (pre ++ ci_with x v :: post) = Ok d ->
  exists g, cal_params_grad svd t m (mkC n (c_gate d) (c_params c) (c_num c)) = Ok (g, c) /\ is_gradient n (pre ++ x :: post) psi M g.
Proof. exact one_operation. Qed.
Print Assumptions C78_one_operation.
Example C78_one_operation_case : Forall (ci_ok 3) ([CL (li_H [0; 1; 2])] ++ CL (li_rot KXYZ [2; 0] [1; 2; 3; 4; 5; 6]%R) :: [CL (li_ring [0; 1; 2])]) /\
  cs_angles [CL (li_H [0; 1; 2])] = [] /\ cs_angles [CL (li_ring [0; 1; 2])] = [] /\ two_term (CL (li_rot KXYZ [2; 0] [1; 2; 3; 4; 5; 6]%R)) = true /\ length (ci_angles (CL (li_rot KXYZ [2; 0] [1; 2; 3; 4; 5; 6]%R))) = 6.
Proof. split; [cbn [app]; repeat (constructor; [ciok|]); constructor|]. repeat split; reflexivity. Qed.
(** gradient descent on the energy cos(theta) of one rx ([descend] in StaleCases.v: cal_params_grad, then params_update with the user's copy of the
    angle moved against the gradient, k times) runs at constant speed for ever instead of approaching the minimum *)
Theorem C78_descent_refuted : forall svd a eta k t m c, exact_svd svd -> is_state 1 [1; 2] t (zero_state 1) -> is_op 1 m (lift Z_op [0]) -> circuit_of 1 [CG (gi_rx a 0)] = Ok c ->
  exists c', descend svd t m eta k c a = Ok (c', a + INR k * (eta * sin a))%R.
Proof. exact descent_wrong. Qed.
Print Assumptions C78_descent_refuted.
