(** C81: the memory layout of states and gate matrices never changes what a whole circuit computes.  [laid_out], [torch_svd],
    [torch_layouts], [value_of], [values_of] are in StrideCases.v, [matrix_layouts] in StrideCircuit2.v: each only says that a tensor
    has one stride per dimension, or forgets the strides. *)
From Coq Require Import List ZArith QArith Reals Lia Bool Arith.
From Verif Require Import PyBase Scalar CInst BigSum Index Tensor Spec MPSSpec QMath QTN QOperator GateSpec QGates QMathC GateCalls RunSpec LayerSpec QLayers LayerCalls CircuitSpec QCircuit
  MPSFacts7 MPSCases CircuitFacts1 CircuitCases QStride QStride2 StrideCases StrideCircuit2.
Import ListNotations.
Local Close Scope Q_scope.
Local Open Scope nat_scope.

(** any circuit object, any list of tensors, any layouts: same values or same exception *)
Theorem C81_evolution_any_layout : forall svd svd_lay mmT ein_lay lay c l, torch_svd svd -> torch_layouts svd_lay ein_lay -> matrix_layouts lay ->
  Forall laid_out l -> values_of (s_TN_evolution svd svd_lay mmT ein_lay lay c l) = TN_evolution svd c (map val l).
Proof. exact evolution_layout. Qed.
Print Assumptions C81_evolution_any_layout.
Theorem C81_contract_any_layout : forall mmT lay c x b, matrix_layouts lay -> laid_out x ->
  value_of (s_TN_contract_evolution mmT lay c x b) = TN_contract_evolution c (val x) b.
Proof. exact contract_layout. Qed.
Print Assumptions C81_contract_any_layout.
Theorem C81_matrix_any_layout : forall mmT lay c, matrix_layouts lay -> value_of (s_cU mmT lay c) = cU c true.
Proof. exact matrix_layout. Qed.
Print Assumptions C81_matrix_any_layout.
Theorem C81_expectation_any_layout : forall svd svd_lay mmT ein_lay lay n cs c x M b, svd_shapes svd -> torch_svd svd -> torch_layouts svd_lay ein_lay ->
  matrix_layouts lay -> 0 < n -> Forall (ci_ok n) cs -> circuit_of n cs = Ok c -> laid_out x -> shape (val x) = [1; 2 ^ n] -> wf (val x) -> laid_out M ->
  s_cir_expectation svd svd_lay mmT ein_lay lay c x M b = cir_expectation svd c (val x) (val M) b.
Proof. exact expectation_layout. Qed.
Print Assumptions C81_expectation_any_layout.

(** so the results are the documented ones: the ordered product of the operations applied to the state, and the expectation value *)
Theorem C81_evolution : forall svd svd_lay mmT ein_lay lay n cs l psi, exact_svd svd -> torch_svd svd -> torch_layouts svd_lay ein_lay -> matrix_layouts lay ->
  Forall (ci_ok n) cs -> forallb (ci_TN n) cs = true -> Forall laid_out l -> is_mps n (map val l) psi -> nonzero n psi ->
  exists c l', circuit_of n cs = Ok c /\ s_TN_evolution svd svd_lay mmT ein_lay lay c l = Ok l' /\ is_mps n (map val l') (act n (cs_op n cs) psi).
Proof. exact evolution_laid. Qed.
Print Assumptions C81_evolution.
Theorem C81_contract : forall mmT lay n cs x, matrix_layouts lay -> Forall (ci_ok n) cs -> forallb (ci_con n) cs = true ->
  laid_out x -> shape (val x) = repeat 2 n -> wf (val x) ->
  exists c y, circuit_of n cs = Ok c /\ s_TN_contract_evolution mmT lay c x false = Ok y /\
    is_state n (repeat 2 n) (val y) (act n (cs_op n cs) (amp (val x))).
Proof. exact contract_laid. Qed.
Print Assumptions C81_contract.
Theorem C81_expectation : forall svd svd_lay mmT ein_lay lay n cs x psi m M b, exact_svd svd -> torch_svd svd -> torch_layouts svd_lay ein_lay -> matrix_layouts lay ->
  0 < n -> Forall (ci_ok n) cs -> laid_out x -> is_state n [1; 2 ^ n] (val x) psi -> laid_out m -> is_op n (val m) M ->
  (b = true -> nonzero n psi /\ forallb (ci_TN n) cs = true) ->
  exists c, circuit_of n cs = Ok c /\ s_cir_expectation svd svd_lay mmT ein_lay lay c x m b = Ok (expect n cs psi M).
Proof. exact expectation_laid. Qed.
Print Assumptions C81_expectation.

(** the hypotheses are met with every tensor stored column by column *)
Theorem C81_columns_case : exact_svd triv_svd /\ torch_svd (SC := C_scalar) triv_svd /\ torch_layouts (col_svd_lay (SC := C_scalar) triv_svd) col_ein_lay /\
  matrix_layouts col_lay /\ Forall (ci_ok 3) demo /\ forallb (ci_TN 3) demo = true /\ Forall laid_out bent_ghz /\
  is_mps 3 (map val bent_ghz) ghz /\ nonzero 3 ghz.
Proof. exact columns_case. Qed.
Print Assumptions C81_columns_case.
Example C81_columns_differ : col_lay (eye 2) <> cstrides (shape (eye 2)) /\ strd (nth 1 bent_ghz (fresh (eye 2))) = [1; 2; 4].
Proof. split; [discriminate|reflexivity]. Qed.

(** C82: measuring *)
Theorem C82_measure_any_layout : forall mmT lay n x ith, matrix_layouts lay -> laid_out x ->
  s_measure mmT lay n x ith = measure n (val x) ith.
Proof. exact measure_layout. Qed.
Print Assumptions C82_measure_any_layout.
Theorem C82_expval_any_layout : forall mmT x M rho, laid_out x -> laid_out M ->
  rho = true \/ (exists m, shape (val x) = [m] \/ shape (val x) = [1; m] \/ shape (val x) = [m; 1]) ->
  s_expval mmT x M rho = expval (val x) (val M) rho.
Proof. exact expval_layout. Qed.
Print Assumptions C82_expval_any_layout.
(** a state of rank N, as TN_contract_evolution returns it, can be refused *)
Theorem C82_expval_tensor_refuted : forall mmT t x M, shape t = [2; 2] -> s_swap_TN_contract 2 (WList [0%Z; 1%Z]) (fresh t) false = Ok x ->
  s_expval mmT x M false = Err TorchError.
Proof. exact swapped_expval. Qed.
Print Assumptions C82_expval_tensor_refuted.
(** both kinds of state occur: a column cut out of a larger array, and the exchanged state itself *)
Example C82_case : let t := tbuild [2; 2] (fun idx => if nth 0 idx 0 =? nth 1 idx 0 then k1 else k0) in
  laid_out (mkS (tbuild [4] (fun _ => k1)) [7]) /\ exists x, s_swap_TN_contract 2 (WList [0%Z; 1%Z]) (fresh t) false = Ok x.
Proof. split; [reflexivity|]. eexists. reflexivity. Qed.
