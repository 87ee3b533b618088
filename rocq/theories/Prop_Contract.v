(** Properties of contraction outside the documented wires (C59).
    Specifications used in the statements: Spec.v, GateSpec.v, GateCalls.v, ContractSpec.v. *)
From Coq Require Import List ZArith Reals Lia Bool Arith.
From Verif Require Import PyBase Scalar CInst BigSum Index Tensor Spec QOperator QGates GateSpec GateCalls ContractSpec ContractBad ContractBad2.
Import ListNotations.

(** C59: equal wires are refused *)
Theorem C59_equal_wires : forall g ws s b, wires_read (g_cls g) = Some (length ws) -> g_N g <> (-1)%Z -> g_wires g = WList ws -> ~ NoDup ws ->
  TN_contract g s b = Err AssertionError.
Proof. exact contract_equal. Qed.
Print Assumptions C59_equal_wires.
(** a tensor without one dimension per qubit (and one for the batch) is refused *)
Theorem C59_rank : forall g ws s b, wires_read (g_cls g) = Some (length ws) -> g_N g <> (-1)%Z -> g_wires g = WList ws -> NoDup ws ->
  Z.of_nat (length (shape s)) <> (if b : bool then g_N g + 1 else g_N g)%Z -> TN_contract g s b = Err AssertionError.
Proof. exact contract_rank. Qed.
Print Assumptions C59_rank.
(** a wire beyond the register is refused; with a batch the wire -1 is not *)
Theorem C59_range : forall g ws s b, wires_read (g_cls g) = Some (length ws) -> g_cls g <> cSWAP -> g_N g <> (-1)%Z -> g_wires g = WList ws -> NoDup ws ->
  Z.of_nat (length (shape s)) = (if b : bool then g_N g + 1 else g_N g)%Z -> (exists w, In w ws /\ ~ ((if b then -1 else 0) <= w < g_N g)%Z) ->
  TN_contract g s b = Err ValueError.
Proof. exact contract_range. Qed.
Print Assumptions C59_range.
Example C59_refused_case : exists g g' g'' s, toffoli 3 (WList [0; 0; 2]%Z) = Ok g /\ cnot 3 (WList [0; 3]%Z) = Ok g' /\ cz 3 (WList [0; 2]%Z) = Ok g'' /\ shape s = [2; 2; 2] /\
  TN_contract g s false = Err AssertionError /\ TN_contract g' s false = Err ValueError /\ TN_contract g'' s true = Err AssertionError.
Proof.
  do 3 eexists. exists (mkT (SC := C_scalar) [2; 2; 2] (map (fun k => RtoC (INR k)) (seq 0 8))). split; [reflexivity|]. split; [reflexivity|]. split; [reflexivity|]. split; [reflexivity|].
  split; [|split].
  - apply (contract_equal _ [0; 0; 2]%Z); [reflexivity|discriminate|reflexivity|]. intros H. inversion H as [|? ? H1]. apply H1. now left.
  - apply (contract_range _ [0; 3]%Z); try reflexivity; try discriminate.
    + repeat constructor; cbn; intuition discriminate.
    + exists 3%Z. cbn. split; [tauto|lia].
  - apply (contract_rank _ [0; 2]%Z); try reflexivity; try discriminate. repeat constructor; cbn; intuition discriminate.
Qed.
(** with a batch of two the wire -1 is the number of the state: the gate acts on a register of n+1 qubits and mixes the two states *)
Theorem C59_batch_of_two : forall n g ws s, wires_read (g_cls g) = Some (length ws) -> g_N g = Z.of_nat n -> g_wires g = WList ws -> length ws <= n -> shape s = repeat 2 (S n) ->
  TN_contract g s true = TN_contract (on_register g (Z.of_nat (S n)) (WList (map (fun w => w + 1)%Z ws))) s false.
Proof. exact batch_of_two. Qed.
Print Assumptions C59_batch_of_two.
(** so the property "wires outside 0..N-1 are refused" fails: cnot on [-1, b], which U_expand refuses, flips qubit b of the second state only *)
Theorem C59_mixed_batch_refuted : forall n b t, 2 <= n -> b < n -> shape t = 2 :: repeat 2 n -> wf t ->
  exists o t', cnot (Z.of_nat n) (WList [-1; Z.of_nat b]%Z) = Ok o /\ U_expand o = Err ValueError /\ TN_contract o t true = Ok t' /\ shape t' = 2 :: repeat 2 n /\ wf t' /\
    forall r, In r (bits n) -> tget t' (0 :: r) = tget t (0 :: r) /\ tget t' (1 :: r) = tget t (1 :: set_nth b (1 - nth b r 0) r).
Proof. exact cnot_mixes. Qed.
Print Assumptions C59_mixed_batch_refuted.
Example C59_mixed_batch_case : let t := mkT (SC := C_scalar) [2; 2; 2] (map (fun k => RtoC (INR k)) (seq 0 8)) in
  2 <= 2 /\ 1 < 2 /\ shape t = 2 :: repeat 2 2 /\ wf t /\ In [0; 1] (bits 2) /\ set_nth 1 (1 - nth 1 [0; 1] 0) [0; 1] = [0; 0].
Proof. cbv zeta. split; [lia|]. split; [lia|]. split; [reflexivity|]. split; [reflexivity|]. split; [cbn; tauto|reflexivity]. Qed.
(** a negative wire of a one-qubit gate counts from the end, but with a batch it counts from one place further *)
Theorem C59_negative_wire : forall n g w s, one_qubit_cls (g_cls g) = true -> g_N g = Z.of_nat n -> g_wires g = WInt w -> (- Z.of_nat n <= w <= -2)%Z ->
  U_expand g = Err ValueError /\
  TN_contract g s false = TN_contract (on_wires g (WInt (w + Z.of_nat n))) s false /\
  TN_contract g s true = TN_contract (on_wires g (WInt (w + Z.of_nat n + 1))) s true.
Proof. exact negative_wire. Qed.
Print Assumptions C59_negative_wire.
Theorem C59_negative_site : forall svd n g w l, one_qubit_cls (g_cls g) = true -> g_N g = Z.of_nat n -> g_wires g = WInt w -> (- Z.of_nat n <= w <= -2)%Z -> length l = n ->
  TN_operation svd g l = TN_operation svd (on_wires g (WInt (w + Z.of_nat n))) l.
Proof. exact negative_site. Qed.
Print Assumptions C59_negative_site.
Example C59_negative_case : exists g, rx 1 3 (WInt (-2)) = Ok g /\ one_qubit_cls (g_cls g) = true /\ g_N g = Z.of_nat 3 /\ g_wires g = WInt (-2) /\
  Ok (on_wires g (WInt (-2 + 3))) = rx 1 3 (WInt 1).
Proof. eexists. split; [reflexivity|]. repeat split. Qed.
(** a gate without wires or without a number of qubits (the defaults) refuses everything *)
Theorem C59_no_wires : forall g, constructed g -> g_N g = (-1)%Z \/ g_wires g = WInt (-1) ->
  U_expand g = Err ValueError /\
  (forall s b, TN_contract g s b = Err (match g_cls g with cmcx => AttributeError | _ => ValueError end)) /\
  (forall svd l, TN_operation svd g l = Err (match g_cls g with crxx | cryy | crzz | cmcx => AttributeError | _ => ValueError end)).
Proof. exact no_wires. Qed.
Print Assumptions C59_no_wires.
Example C59_no_wires_case : exists g, PauliX (-1) (WInt (-1)) = Ok g /\ constructed g /\ g_N g = (-1)%Z.
Proof. eexists. split; [reflexivity|]. split; [eapply con_X; reflexivity|reflexivity]. Qed.
