(** Lemma: a controlled gate on wire -1 contracted with a batch of two mixes the batch. *)
From Coq Require Import List ZArith Reals Lia ZifyBool Bool Arith.
From Verif Require Import PyBase Scalar CInst BigSum Index Tensor TensorFacts Spec SpecFacts QMath QTN QOperator ExpandFacts ExpandFacts2 ContractFacts ContractFacts2 QGates GateSpec GateCalls GateFacts6 ContractSpec GateProofs GateFacts GateFacts2 GateFacts3 ContractBad QuanvClosed.
Import ListNotations.

Lemma cnot_mixes : forall n b t, 2 <= n -> b < n -> shape t = 2 :: repeat 2 n -> wf t ->
  exists o t', cnot (Z.of_nat n) (WList [-1; Z.of_nat b]%Z) = Ok o /\ U_expand o = Err ValueError /\ TN_contract o t true = Ok t' /\ shape t' = 2 :: repeat 2 n /\ wf t' /\
    forall r, In r (bits n) -> tget t' (0 :: r) = tget t (0 :: r) /\ tget t' (1 :: r) = tget t (1 :: set_nth b (1 - nth b r 0) r).
Proof.
  intros n b t Hn Hb S W. eexists. set (g := gi_cnot 0 (Datatypes.S b)).
  assert (OK : gi_ok (Datatypes.S n) g) by (split; [apply good_wires_2; lia|exact I]).
  assert (E : t = tbuild (repeat 2 (Datatypes.S n)) (amp t)).
  { apply state_eta. split; [exact S|]. split; [|intros x _; reflexivity]. unfold wf in W. rewrite W, S. change (2 :: repeat 2 n) with (repeat 2 (Datatypes.S n)). now rewrite prodn_repeat. }
  set (t' := tbuild (repeat 2 (Datatypes.S n)) (act (SC := C_scalar) (Datatypes.S n) (gi_op (Datatypes.S n) g) (amp t))).
  exists t'. split; [reflexivity|]. split.
  { unfold U_expand. cbn [g_cls]. unfold ctrl_U_expand. cbn [g_N g_wires]. unfold unset. replace (Z.of_nat n =? -1)%Z with false by lia. cbn [orb wires_unset raise_if bind].
    rewrite at0, at1. cbn [bind]. unfold two_qubit_control_gate. replace (Z.of_nat n <? 1)%Z with false by lia. cbn [raise_if].
    match goal with |- raise_if ?x _ _ = _ => destruct x; [reflexivity|cbn [raise_if]] end. match goal with |- raise_if ?x _ _ = _ => replace x with true by lia end. reflexivity. }
  split.
  { rewrite (batch_of_two n _ [-1; Z.of_nat b]%Z); [|reflexivity|reflexivity|reflexivity|cbn; lia|exact S].
    transitivity (TN_contract (obj (Datatypes.S n) g) t false); [|rewrite E at 1; now apply TN_contract_obj_act].
    f_equal. unfold on_register, obj, g, zl. cbn [g_cls g_params g_matrix g_umatrix map].
    replace (Z.of_nat b + 1)%Z with (Z.of_nat (Datatypes.S b)) by lia. reflexivity. }
  split; [reflexivity|]. split; [apply tbuild_wf|]. intros r Hr.
  assert (X : forall x, In x (bits (Datatypes.S n)) -> tget t' x = tget t (flip 0 (Datatypes.S b) x)).
  { intros x Hx. rewrite <- (amp_tget (Datatypes.S n) t' eq_refl x Hx), <- (amp_tget (Datatypes.S n) t S) by (now apply flip_bits).
    pose proof (proj2 (state_eta (Datatypes.S n) t' _) eq_refl) as (_ & _ & A). rewrite (A x Hx). apply act_cnot; auto; lia. }
  split; rewrite X by (apply bits_cons; split; [lia|exact Hr]); unfold flip; cbn [nth Nat.eqb set_nth]; [|reflexivity].
  f_equal. f_equal. apply set_nth_same. rewrite (bits_length n r Hr). exact Hb.
Qed.
Lemma negative_site : forall svd n g w l, one_qubit_cls (g_cls g) = true -> g_N g = Z.of_nat n -> g_wires g = WInt w -> (- Z.of_nat n <= w <= -2)%Z -> length l = n ->
  TN_operation svd g l = TN_operation svd (on_wires g (WInt (w + Z.of_nat n))) l.
Proof.
  intros svd n g w l C N W H L. assert (U : unset (g_N g) (g_wires g) = false) by (unfold unset; rewrite W, N; cbn [wires_unset]; lia).
  assert (U' : unset (g_N g) (WInt (w + Z.of_nat n)) = false) by (rewrite N; unfold unset; cbn [wires_unset]; lia).
  assert (X : single_TN_operation (g_matrix g) (g_N g) (g_wires g) l = single_TN_operation (g_matrix g) (g_N g) (WInt (w + Z.of_nat n)) l).
  { unfold single_TN_operation. rewrite U, U', W. cbn [raise_if wire_int bind]. unfold py_nth, py_set.
    assert (I : py_index (length l) w = py_index (length l) (w + Z.of_nat n)).
    { rewrite L. unfold py_index. replace ((0 <=? w)%Z && (w <? Z.of_nat n)%Z) with false by lia. replace ((- Z.of_nat n <=? w)%Z && (w <? 0)%Z) with true by lia.
      replace ((0 <=? w + Z.of_nat n)%Z && (w + Z.of_nat n <? Z.of_nat n)%Z) with true by lia. reflexivity. }
    rewrite I. reflexivity. }
  unfold TN_operation, on_wires. cbn [g_cls g_matrix g_N g_wires]. destruct (g_cls g); try discriminate C; exact X.
Qed.
