(** Property C79: what a cal_params_grad2 that raises leaves behind.  [f_cal_params_grad2 svd t sd c] is the circuit after the call,
    with the value or exception. *)
From Coq Require Import List ZArith Reals Lra Lia Bool Arith.
From Verif Require Import PyBase Scalar CInst Index Tensor Spec GateSpec LayerSpec MPSSpec CircuitSpec GradSpec QGates QLayers QCircuit QGradient GradCases GradDemo MPSCases SharedCases QFailed QFailed2 Failed2Proofs Failed2Cases.
Import ListNotations.
Local Close Scope R_scope.
Local Open Scope nat_scope.

(** it is the cal_params_grad2 of the other properties *)
Theorem C79_is_cal_params_grad2 : forall svd t sd c, cal_params_grad2 svd t c sd = match f_cal_params_grad2 svd t sd c with (c', Ok g) => Ok (g, c') | (_, Err e) => Err e end.
Proof. exact failed2_agrees. Qed.
Print Assumptions C79_is_cal_params_grad2.

(** it raises although the state is proper, whatever intermediate results sd it was given: exactly one angle is off, by -pi *)
Theorem C79_raises : forall svd n cs t psi sd c c' e, exact_svd svd -> 0 < n -> is_state n [1; 2 ^ n] t psi -> nonzero n psi ->
  Forall (ci_ok n) cs -> circuit_of n cs = Ok c -> f_cal_params_grad2 svd t sd c = (c', Err e) ->
  exists k c2, k < length (cs_angles cs) /\
    circuit_of n (cs_with cs (set_at k (nth k (cs_angles cs) 0 - PI)%R (cs_angles cs))) = Ok c2 /\ c' = mkC n (c_gate c2) (c_params c) (c_num c).
Proof. exact failed2_left_state. Qed.
Print Assumptions C79_raises.
(** a state of the wrong shape: ValueError, and nothing is changed *)
Theorem C79_bad_state : forall svd n cs t sd c, Forall (ci_ok n) cs -> shape t <> [1; 2 ^ n] -> circuit_of n cs = Ok c -> f_cal_params_grad2 svd t sd c = (c, Err ValueError).
Proof. exact bad_state2. Qed.
Print Assumptions C79_bad_state.
(** it returns, whatever intermediate results it was given: nothing is changed *)
Theorem C79_returns : forall svd n cs t sd c c' g, Forall (ci_ok n) cs -> circuit_of n cs = Ok c -> f_cal_params_grad2 svd t sd c = (c', Ok g) ->
  c' = c /\ length g = length (cs_angles cs).
Proof. exact returned2_left. Qed.
Print Assumptions C79_returns.

(** no intermediate result for the first operation with angles (none before it, or none after it when it is the first of all): KeyError, and
    its first angle is left at -pi *)
Theorem C79_missing : forall svd n pre x post t psi sd c, exact_svd svd -> 0 < n -> is_state n [1; 2 ^ n] t psi -> nonzero n psi ->
  Forall (ci_ok n) (pre ++ x :: post) -> cs_angles pre = [] -> ci_angles x <> [] ->
  (pre <> [] /\ ~ In (length pre - 1) (map fst sd)) \/ (pre = [] /\ ci_TN n x = true /\ ~ In (2 * S (length post) - 2) (map fst sd)) ->
  circuit_of n (pre ++ x :: post) = Ok c ->
  exists c2, circuit_of n (pre ++ ci_with x (set_at 0 (nth 0 (ci_angles x) 0 - PI)%R (ci_angles x)) :: post) = Ok c2 /\
    f_cal_params_grad2 svd t sd c = (mkC n (c_gate c2) (c_params c) (c_num c), Err KeyError).
Proof. exact missing_left. Qed.
Print Assumptions C79_missing.
(** no results at all, three qubits, a GHZ state: the hypotheses hold for the circuit of rotations of C31, which begins with Hadamard gates *)
Example C79_missing_case : exists pre x post, demo_pure = pre ++ x :: post /\ Forall (ci_ok 3) (pre ++ x :: post) /\ cs_angles pre = [] /\ ci_angles x <> [] /\
  ((pre <> [] /\ ~ In (length pre - 1) (map fst (@nil (nat * list tensor)))) \/ (pre = [] /\ ci_TN 3 x = true /\ ~ In (2 * S (length post) - 2) (map fst (@nil (nat * list tensor))))) /\ nonzero 3 ghz.
Proof.
  pose proof demo_pure_ok as H. unfold demo_pure in *. eexists [_], _, _. split; [reflexivity|]. split; [exact H|]. split; [reflexivity|]. split; [discriminate|].
  split; [left; split; [discriminate|intros []]|exact ghz_nonzero].
Qed.

(** a later call with results saved while the circuit was as built gives the gradient and puts the angle back *)
Theorem C79_next_call_repairs : forall svd n cs t psi t' sd' mo c c' e, exact_svd svd -> 0 < n -> Forall (ci_ok n) cs -> forallb (ci_TN n) cs = true -> cs <> [] -> forallb pure_rotation cs = true ->
  ci_ok n mo -> ci_TN n mo = true -> hermitian n (ci_op n mo) -> is_state n [1; 2 ^ n] t psi -> nonzero n psi ->
  circuit_of n cs = Ok c -> f_cal_params_grad2 svd t' sd' c = (c', Err e) ->
  exists o sd sv g, obuild n mo = Ok o /\ save_mid_MPS svd t c o = Ok (sd, sv) /\ f_cal_params_grad2 svd t sd c' = (c, Ok g) /\ is_gradient n cs psi (ci_op n mo) g.
Proof. exact failed2_repaired. Qed.
Print Assumptions C79_next_call_repairs.
(** saving after the failed call and calling again does not give the gradient: cos a instead of - sin a for one rx(a) *)
Theorem C79_retry_refuted : forall svd a t c, exact_svd svd -> is_state 1 [1; 2] t (zero_state 1) -> cos a <> sin a -> cos a <> (- sin a)%R ->
  circuit_of 1 [CG (gi_rx a 0)] = Ok c ->
  exists c', f_cal_params_grad2 svd t [] c = (c', Err KeyError) /\
  exists o sd sv g, obuild 1 (CG (gi_Z 0)) = Ok o /\ save_mid_MPS svd t c' o = Ok (sd, sv) /\ f_cal_params_grad2 svd t sd c' = (c, Ok g) /\ g = [cos a] /\
    ~ is_gradient 1 [CG (gi_rx a 0)] (zero_state 1) (lift Z_op [0]) g.
Proof. exact retry_wrong. Qed.
Print Assumptions C79_retry_refuted.
Example C79_retry_case : cos 0 <> sin 0 /\ cos 0 <> (- sin 0)%R /\ exists c, circuit_of 1 [CG (gi_rx 0 0)] = Ok c.
Proof.
  rewrite cos_0, sin_0. split; [lra|]. split; [lra|]. eexists. apply CircuitFacts1.circuit_of_ok. constructor; [exact (rxc_ok 0)|constructor].
Qed.
