(** C75: gates applied to matrix product states with wires outside 0..N-1. *)
From Coq Require Import List ZArith Reals Lia Bool Arith.
From Verif Require Import PyBase Scalar CInst BigSum Index Tensor Spec GateSpec QOperator QGates GateCalls ContractSpec MPSSpec LayerAnySpec MPSFacts7 MPSCases MPSBad MPSBad2.
Import ListNotations.
Local Close Scope R_scope.
Local Open Scope nat_scope.

(** wires that are all counted from the end act on the qubits they count *)
Theorem C75_counted_from_the_end : forall svd g n ws l, wires_read (g_cls g) = Some (length ws) -> g_N g = Z.of_nat n -> g_wires g = WList ws ->
  length l = n -> NoDup ws -> (forall w, In w ws -> (- Z.of_nat n <= w < 0)%Z) ->
  TN_operation svd g l = TN_operation svd (on_wires g (WList (map (fun w => (w + Z.of_nat n)%Z) ws))) l.
Proof. exact negative_is_counted_back. Qed.
Print Assumptions C75_counted_from_the_end.
Example C75_counted_case : exists g, toffoli 3 (WList [-1; -3; -2]%Z) = Ok g /\ wires_read (g_cls g) = Some (length [-1; -3; -2]%Z) /\ g_wires g = WList [-1; -3; -2]%Z /\
  NoDup [-1; -3; -2]%Z /\ toffoli 3 (WList [2; 0; 1]%Z) = Ok (on_wires g (WList (map (fun w => (w + Z.of_nat 3)%Z) [-1; -3; -2]%Z))).
Proof.
  eexists. split; [reflexivity|]. split; [reflexivity|]. split; [reflexivity|]. split; [|reflexivity].
  repeat (apply NoDup_cons; [cbn; lia|]). apply NoDup_nil.
Qed.

(** an application that returns has used wires of the register only *)
Theorem C75_outside_refused : forall svd g ws l l', wires_read (g_cls g) = Some (length ws) -> g_wires g = WList ws -> NoDup ws ->
  TN_operation svd g l = Ok l' -> forall w, In w ws -> in_register (length l) w.
Proof. exact outside_refused. Qed.
Print Assumptions C75_outside_refused.
(** wires beyond the last qubit raise IndexError *)
Theorem C75_beyond_raises : forall svd n g l psi o, exact_svd svd -> has_TN g = true -> is_mps n l psi -> nonzero n psi ->
  NoDup (gi_wires g) -> (exists w, In w (gi_wires g) /\ n <= w) -> build n g = Ok o -> TN_operation svd o l = Err IndexError.
Proof. exact beyond_raises. Qed.
Print Assumptions C75_beyond_raises.
Example C75_beyond_case : exact_svd triv_svd /\ has_TN (gi_toffoli 1 3 0) = true /\ is_mps 3 ghz_mps ghz /\ nonzero 3 ghz /\ NoDup (gi_wires (gi_toffoli 1 3 0)) /\
  (exists w, In w (gi_wires (gi_toffoli 1 3 0)) /\ 3 <= w).
Proof.
  split; [exact some_exact_svd|]. split; [reflexivity|]. split; [exact ghz_is_mps|]. split; [exact ghz_nonzero|]. split; [|exists 3; cbn; lia].
  cbn. repeat (apply NoDup_cons; [cbn; lia|]). apply NoDup_nil.
Qed.

(** one wire counted from the end and one from the beginning: the last qubit is joined to the first.  cnot on [-1, 0], whose matrix is refused,
    returns for |0>(|0>+|1>) tensors that are no matrix product state *)
Theorem C75_wraps_round_refuted : forall svd, exact_svd svd -> is_mps 2 zero_plus_mps zero_plus /\
  exists o l', cnot 2 (WList [-1; 0]%Z) = Ok o /\ U_expand o = Err ValueError /\ TN_operation svd o zero_plus_mps = Ok l' /\ ~ mps_shape 2 l'.
Proof. exact (fun svd H => conj zero_plus_is_mps (wraps_round svd H)). Qed.
Print Assumptions C75_wraps_round_refuted.
Example C75_wraps_case : exact_svd triv_svd.
Proof. exact some_exact_svd. Qed.
