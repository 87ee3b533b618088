(** Properties of circuits in which one gate or layer object is added several times (C76).  [h] lists the objects; a circuit holds
    positions in h, as a python list holds references; [value h c] is the circuit with the present values of its objects.
    Specifications used in the statements: Spec.v, GateSpec.v, LayerSpec.v, MPSSpec.v, CircuitSpec.v, GradSpec.v, SharedSpec.v. *)
From Coq Require Import List ZArith QArith Reals Lra Lia Bool Arith.
From Verif Require Import PyBase Scalar CInst BigSum Index Tensor Spec SpecFacts QMath QTN QOperator GateSpec QGates GateCalls RunSpec MPSSpec
  LayerSpec QLayers LayerCalls CircuitSpec QCircuit QGradient GradSpec CircuitFacts1 CircuitProofs CircuitCases GradProofs GradCases GradDemo
  QShared SharedSpec SharedFacts SharedProofs SharedCases.
Import ListNotations.
Local Close Scope Q_scope.
Local Close Scope R_scope.
Local Open Scope nat_scope.

(** objects for the cases: the second is used twice, the last not at all *)
Definition share_xs : list ci := [CG (gi_rx 1 0); CL (li_rot KYZY [1; 0] [1; 2; 3; 4; 5; 6]%R); CL (li_ring [0; 1; 2]); CG (gi_u3 1 2 3 1); CG (gi_ry 2 2)].
Definition share_refs : list nat := [1; 0; 2; 1; 3].
Lemma share_ok : Forall (ci_ok 3) share_xs.
Proof. unfold share_xs. repeat (constructor; [ciok|]). constructor. Qed.
Lemma share_in : forall r, In r share_refs -> r < length share_xs.
Proof. intros r H. repeat (destruct H as [<-|H]; [cbn; lia|]). destruct H. Qed.

(** C76: a circuit whose objects are all different behaves as the circuit of their values: same gradient or same exception, and
    objects outside the circuit are left alone *)
Theorem C76_unshared : forall svd t m c h v, NoDup (s_gate c) -> value h c = Ok v ->
  match cal_params_grad svd t m v with
  | Ok (g, v') => exists h', s_cal_params_grad svd t m c h = Ok (g, h') /\ value h' c = Ok v' /\ length h' = length h /\ forall r, ~ In r (s_gate c) -> nth_error h' r = nth_error h r
  | Err e => s_cal_params_grad svd t m c h = Err e
  end.
Proof. exact unshared_gradient. Qed.
Print Assumptions C76_unshared.
Example C76_unshared_case : exists h c, mmap (obuild 3) share_xs = Ok h /\ mfold (s_add h) [3; 0; 2; 1] (s_Circuit 3) = Ok c /\ NoDup (s_gate c) /\
  exists v, value h c = Ok v /\ length (c_gate v) = 4.
Proof.
  assert (W : forall r, In r [3; 0; 2; 1] -> r < length share_xs) by (intros r H; repeat (destruct H as [<-|H]; [cbn; lia|]); destruct H).
  destruct (built 3 share_xs [3; 0; 2; 1]) as (A & B & V); [lia|exact share_ok|exact W|]. do 2 eexists. split; [exact A|]. split; [exact B|].
  split; [repeat constructor; cbn; intuition lia|]. eexists. split; [exact V|]. rewrite circ_gate, map_length. reflexivity.
Qed.

(** with shared objects: each entry of the two-point rule moves all the occurrences of the object together, and the objects end as they began *)
Theorem C76_shared_value : forall svd n xs refs t psi m M, exact_svd svd -> 0 < n -> Forall (ci_ok n) xs -> (forall r, In r refs -> r < length xs) ->
  existsb matrix_only (meant xs refs) = true \/ (forallb (ci_TN n) (meant xs refs) = true /\ nonzero n psi) -> is_state n [1; 2 ^ n] t psi -> is_op n m M ->
  exists h c, mmap (obuild n) xs = Ok h /\ mfold (s_add h) refs (s_Circuit n) = Ok c /\ s_cal_params_grad svd t m c h =
    Ok (flat_map (fun r => map (fun i => let y := nth i (ci_angles (the_op xs r)) 0%R in
          (/ 2 * (expect n (meant (with_angle xs r i (y + / 2 * PI)) refs) psi M - expect n (meant (with_angle xs r i (y - / 2 * PI)) refs) psi M))%R)
          (seq 0 (length (ci_angles (the_op xs r))))) refs, h).
Proof. exact shared_value. Qed.
Print Assumptions C76_shared_value.
Example C76_shared_case : Forall (ci_ok 3) share_xs /\ (forall r, In r share_refs -> r < length share_xs) /\ forallb (ci_TN 3) (meant share_xs share_refs) = true /\
  length (cs_angles (meant share_xs share_refs)) = 16.
Proof. split; [exact share_ok|]. split; [exact share_in|]. split; reflexivity. Qed.

(** so the result is not the gradient: one rx object added twice *)
Theorem C76_shared_refuted : forall svd th t m, exact_svd svd -> is_state 1 [1; 2] t (zero_state 1) -> is_op 1 m (lift Z_op [0]) -> sin (2 * th) <> 0%R ->
  exists h c, mmap (obuild 1) [CG (gi_rx th 0)] = Ok h /\ mfold (s_add h) [0; 0] (s_Circuit 1) = Ok c /\ s_cal_params_grad svd t m c h = Ok ([0; 0]%R, h) /\
    derivable_pt_lim (fun x => expect 1 [CG (gi_rx x 0); CG (gi_rx th 0)] (zero_state 1) (lift Z_op [0])) th (- sin (2 * th))%R /\
    derivable_pt_lim (fun x => expect 1 [CG (gi_rx th 0); CG (gi_rx x 0)] (zero_state 1) (lift Z_op [0])) th (- sin (2 * th))%R /\
    ~ is_gradient 1 [CG (gi_rx th 0); CG (gi_rx th 0)] (zero_state 1) (lift Z_op [0]) [0; 0]%R.
Proof. exact shared_twice. Qed.
Print Assumptions C76_shared_refuted.
Example C76_refuted_case : sin (2 * (PI / 4)) <> 0%R.
Proof. replace (2 * (PI / 4))%R with (PI / 2)%R by lra. rewrite sin_PI2. lra. Qed.

(** the adjoint method is right on shared objects too, and leaves them as they were *)
Theorem C76_adjoint_shared : forall svd n xs refs t psi mo, exact_svd svd -> 0 < n -> Forall (ci_ok n) xs -> (forall r, In r refs -> r < length xs) -> refs <> [] ->
  forallb (ci_TN n) (meant xs refs) = true -> forallb pure_rotation (meant xs refs) = true ->
  ci_ok n mo -> ci_TN n mo = true -> hermitian n (ci_op n mo) -> is_state n [1; 2 ^ n] t psi -> nonzero n psi ->
  exists h c o sd sv g, mmap (obuild n) xs = Ok h /\ mfold (s_add h) refs (s_Circuit n) = Ok c /\ obuild n mo = Ok o /\ s_save_mid_MPS svd t c h o = Ok (sd, sv) /\
    s_cal_params_grad2 svd t c h sd = Ok (g, h) /\ is_gradient n (meant xs refs) psi (ci_op n mo) g.
Proof. exact shared_adjoint. Qed.
Print Assumptions C76_adjoint_shared.
Example C76_adjoint_case : forallb (ci_TN 3) (meant share_xs share_refs) = true /\ forallb pure_rotation (meant share_xs share_refs) = true /\
  ci_ok 3 (CG (gi_Y 1)) /\ hermitian 3 (ci_op 3 (CG (gi_Y 1))).
Proof. split; [reflexivity|]. split; [reflexivity|]. split; [ciok|exact y_hermitian]. Qed.

(** params_update on an object changes it at every place where it occurs; what the circuit recorded stays *)
Theorem C76_update : forall n xs refs r v p, 0 < n -> Forall (ci_ok n) xs -> (forall k, In k refs -> k < length xs) -> r < length xs ->
  length v = length (ci_angles (the_op xs r)) -> v <> [] ->
  (if takes_list (the_op xs r) then p = PV v else exists y, v = [y] /\ p = PS y) ->
  exists h c h' d d0 c1, mmap (obuild n) xs = Ok h /\ mfold (s_add h) refs (s_Circuit n) = Ok c /\ s_update h r p = Ok h' /\ value h' c = Ok c1 /\
    circuit_of n (meant (set_nth r (ci_with (the_op xs r) v) xs) refs) = Ok d /\ circuit_of n (meant xs refs) = Ok d0 /\
    c_gate c1 = c_gate d /\ c_params c1 = c_params d0 /\ c_num c1 = c_num d0 /\ c_N c1 = n.
Proof. exact shared_update. Qed.
Print Assumptions C76_update.
Example C76_update_case : length (repeat 7%R 6) = length (ci_angles (the_op share_xs 1)) /\ takes_list (the_op share_xs 1) = true /\
  meant (set_nth 1 (ci_with (the_op share_xs 1) (repeat 7%R 6)) share_xs) share_refs =
  let l := CL (li_rot KYZY [1; 0] (repeat 7%R 6)) in [l; CG (gi_rx 1 0); CL (li_ring [0; 1; 2]); l; CG (gi_u3 1 2 3 1)].
Proof. repeat split; reflexivity. Qed.
