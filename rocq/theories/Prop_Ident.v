(** C65: circuit identities.  Specifications used in the statements: Spec.v, GateSpec.v, LayerSpec.v, CircuitSpec.v, MPSSpec.v, PlaceSpec.v
    and IdentSpec.v (the list [identities] of 84 identities). *)
From Coq Require Import List ZArith Reals Lia Bool Arith Permutation.
From Verif Require Import PyBase Scalar CInst Tensor Spec QMath QTN QOperator GateSpec QGates GateCalls RunSpec MPSSpec LayerSpec QLayers LayerCalls
  CircuitSpec QCircuit MPSFacts7 MPSCases CircuitFacts1 CircuitCases PlaceSpec PlaceFacts IdentSpec IdentProofs PhaseProofs.
Import ListNotations.
Local Close Scope R_scope.
Local Open Scope nat_scope.

(** both sides of an identity, on any wires and in the middle of any circuit: the matrices differ by the factor of the identity *)
Theorem C65_matrix : forall n ws s t p l i pre post, In i (identities s t p l) -> good_wires n ws -> length ws = id_k i ->
  Forall (ci_ok n) pre -> Forall (ci_ok n) post -> exists c c' u u',
  circuit_of n (pre ++ map (move ws) (map CG (id_l i)) ++ post) = Ok c /\ circuit_of n (pre ++ map (move ws) (map CG (id_r i)) ++ post) = Ok c' /\
  cU c true = Ok u /\ cU c' true = Ok u' /\ is_op n u (scale_op (id_z i) (op_of u')).
Proof. exact ident_matrix. Qed.
Print Assumptions C65_matrix.
Example C65_matrix_case : forall t, In (same 2 [gi_cnot 0 1; gi_rz t 1; gi_cnot 0 1] [gi_rzz t 0 1]) (identities 0 t 0 0) /\ good_wires 3 [2; 0] /\ Forall (ci_ok 3) demo.
Proof. intros t. split; [|split; [gw|exact demo_ok]]. unfold identities. repeat (apply in_or_app; right). cbn. auto 12. Qed.
(** with the factor 1 the two matrices are the same tensor *)
Theorem C65_replace : forall n ws pre a b post c1 c2 u, ws <> [] -> good_wires n ws -> Forall (ci_ok n) pre -> Forall (ci_ok n) post ->
  Forall (ci_ok (length ws)) a -> Forall (ci_ok (length ws)) b ->
  circuit_of (length ws) a = Ok c1 -> circuit_of (length ws) b = Ok c2 -> cU c1 true = Ok u -> cU c2 true = Ok u ->
  exists d1 d2 v, circuit_of n (pre ++ map (move ws) a ++ post) = Ok d1 /\ circuit_of n (pre ++ map (move ws) b ++ post) = Ok d2 /\ cU d1 true = Ok v /\ cU d2 true = Ok v.
Proof. exact replace_part. Qed.
Print Assumptions C65_replace.
Example C65_replace_case : let a := [CG (gi_swap 0 1)] in let b := [CG (gi_cnot 0 1); CG (gi_cnot 1 0); CG (gi_cnot 0 1)] in
  Forall (ci_ok 2) a /\ Forall (ci_ok 2) b /\ exists c1 c2 u, circuit_of 2 a = Ok c1 /\ circuit_of 2 b = Ok c2 /\ cU c1 true = Ok u /\ cU c2 true = Ok u.
Proof. exact swap_case. Qed.
(** the contraction: the amplitudes differ by the factor *)
Theorem C65_contract : forall n ws s t p l i pre post x, In i (identities s t p l) -> good_wires n ws -> length ws = id_k i ->
  Forall (ci_ok n) pre -> Forall (ci_ok n) post ->
  let one := pre ++ map (move ws) (map CG (id_l i)) ++ post in let two := pre ++ map (move ws) (map CG (id_r i)) ++ post in
  forallb (ci_con n) one = true -> forallb (ci_con n) two = true -> shape x = repeat 2 n -> wf x ->
  exists c c' y z, circuit_of n one = Ok c /\ circuit_of n two = Ok c' /\ TN_contract_evolution c x false = Ok y /\ TN_contract_evolution c' x false = Ok z /\
  is_state n (repeat 2 n) y (fun b => Cmul (id_z i) (amp z b)).
Proof. intros n ws s t p l i pre post x I W L P1 P2. exact (ident_contract n ws s t p l i pre post I W L P1 P2 x). Qed.
Print Assumptions C65_contract.
Example C65_contract_case : forall t, let i := same 2 [gi_cnot 0 1; gi_rz t 1; gi_cnot 0 1] [gi_rzz t 0 1] in
  forallb (ci_con 3) (demo ++ map (move [2; 0]) (map CG (id_l i)) ++ demo) = true /\ forallb (ci_con 3) (demo ++ map (move [2; 0]) (map CG (id_r i)) ++ demo) = true.
Proof. intros t. split; reflexivity. Qed.
(** the matrix product states *)
Theorem C65_mps : forall n ws s t p l i pre post svd m psi, In i (identities s t p l) -> good_wires n ws -> length ws = id_k i ->
  Forall (ci_ok n) pre -> Forall (ci_ok n) post ->
  let one := pre ++ map (move ws) (map CG (id_l i)) ++ post in let two := pre ++ map (move ws) (map CG (id_r i)) ++ post in
  exact_svd svd -> forallb (ci_TN n) one = true -> forallb (ci_TN n) two = true -> is_mps n m psi -> nonzero n psi ->
  exists c c' l1 l2 phi, circuit_of n one = Ok c /\ circuit_of n two = Ok c' /\ TN_evolution svd c m = Ok l1 /\ TN_evolution svd c' m = Ok l2 /\
  is_mps n l1 (fun b => Cmul (id_z i) (phi b)) /\ is_mps n l2 phi.
Proof. intros n ws s t p l i pre post svd m psi I W L P1 P2. exact (ident_mps n ws s t p l i pre post I W L P1 P2 svd m psi). Qed.
Print Assumptions C65_mps.
Example C65_mps_case : forall t, let i := same 2 [gi_swap 0 1; gi_rx t 0] [gi_rx t 1; gi_swap 0 1] in
  In i (identities 0 t 0 0) /\
  forallb (ci_TN 3) (demo ++ map (move [2; 0]) (map CG (id_l i)) ++ demo) = true /\ forallb (ci_TN 3) (demo ++ map (move [2; 0]) (map CG (id_r i)) ++ demo) = true.
Proof. intros t. split; [|split; reflexivity]. unfold identities. do 7 (apply in_or_app; right). apply in_or_app; left. cbn. auto 12. Qed.
(** hence the same expectation values *)
Theorem C65_expectation : forall svd n ws s t p l i pre post v psi m M TN, exact_svd svd -> In i (identities s t p l) -> good_wires n ws -> length ws = id_k i ->
  Forall (ci_ok n) pre -> Forall (ci_ok n) post ->
  let one := pre ++ map (move ws) (map CG (id_l i)) ++ post in let two := pre ++ map (move ws) (map CG (id_r i)) ++ post in
  is_state n [1; 2 ^ n] v psi -> is_op n m M -> (TN = true -> nonzero n psi /\ forallb (ci_TN n) one = true /\ forallb (ci_TN n) two = true) ->
  exists c c' x, circuit_of n one = Ok c /\ circuit_of n two = Ok c' /\ cir_expectation svd c v m TN = Ok x /\ cir_expectation svd c' v m TN = Ok x.
Proof. exact ident_expectation. Qed.
Print Assumptions C65_expectation.
(** the order of the controls of a multi-controlled gate does not matter *)
Theorem C65_controls : forall n a b t, Permutation a b -> gi_ok n (gi_mcx a t) -> exists g h u,
  build n (gi_mcx a t) = Ok g /\ build n (gi_mcx b t) = Ok h /\ U_expand g = Ok u /\ U_expand h = Ok u.
Proof. exact mcx_perm. Qed.
Print Assumptions C65_controls.
Example C65_controls_case : Permutation [0; 3; 1] [1; 0; 3] /\ gi_ok 5 (gi_mcx [0; 3; 1] 2).
Proof. split; [|split; [gw|discriminate]]. apply Permutation_sym. apply (Permutation_cons_app [0; 3] []). reflexivity. Qed.
(** the controlled u3 does not have the period 2 pi in its first angle although u3 has it up to a sign: a full turn is a Z on the control *)
Theorem C65_cu3_period_refuted : forall t p l, exists g h u v, build 2 (gi_cu3 (t + 2 * PI) p l 0 1) = Ok g /\ build 2 (gi_cu3 t p l 0 1) = Ok h /\
  U_expand g = Ok u /\ U_expand h = Ok v /\ ~ exists z, is_op 2 u (scale_op z (op_of v)).
Proof. exact cu3_turn. Qed.
Print Assumptions C65_cu3_period_refuted.
