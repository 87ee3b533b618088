(** C61: the number of wires given to a gate. *)
From Coq Require Import List ZArith Reals Lia Bool Arith.
From Verif Require Import PyBase Scalar CInst BigSum Index Tensor Spec GateSpec QOperator QGates GateCalls MPSSpec MPSFacts7 MPSFacts8 MPSCases WireCalls WireCount.
Import ListNotations.
Local Close Scope R_scope.
Local Open Scope nat_scope.

(** fewer than two wires: a gate on two wires refuses U_expand and TN_contract *)
Theorem C61_too_few : forall N l th ph la c, length l < 2 -> In c (two_wire_calls N (WList l) th ph la) ->
  exists g, c = Ok g /\ (forall u, U_expand g <> Ok u) /\ forall s bm t, TN_contract g s bm <> Ok t.
Proof. exact few_refused. Qed.
Print Assumptions C61_too_few.
Example C61_too_few_case : length [2%Z] < 2 /\ In (SWAP 3 (WList [2%Z])) (two_wire_calls 3 (WList [2%Z]) 0 0 0).
Proof. cbn. split; [lia|tauto]. Qed.

(** on a register with at least one qubit, with the wires given inside it, the exception is IndexError *)
Theorem C61_too_few_raises : forall N l th ph la c, (1 <= N)%Z -> length l < 2 -> (forall z, In z l -> (0 <= z < N)%Z) -> In c (two_wire_calls N (WList l) th ph la) ->
  exists g, c = Ok g /\ U_expand g = Err IndexError /\ forall s bm, TN_contract g s bm = Err IndexError.
Proof. exact few_raises. Qed.
Print Assumptions C61_too_few_raises.
Example C61_too_few_raises_case : (1 <= 3)%Z /\ length [2%Z] < 2 /\ (forall z, In z [2]%Z -> (0 <= z < 3)%Z).
Proof. split; [lia|]. split; [cbn; lia|]. intros z [<-|[]]; lia. Qed.

(** a number instead of a list: all three forms are refused *)
Theorem C61_number_for_list : forall N z th ph la c, In c (two_wire_calls N (WInt z) th ph la) ->
  exists g, c = Ok g /\ (forall u, U_expand g <> Ok u) /\ (forall s bm t, TN_contract g s bm <> Ok t) /\ forall svd l m, TN_operation svd g l <> Ok m.
Proof. exact int_refused. Qed.
Print Assumptions C61_number_for_list.
Example C61_number_case : In (cz 3 (WInt 1)) (two_wire_calls 3 (WInt 1) 0 0 0).
Proof. cbn. tauto. Qed.
(** by TypeError, or by ValueError for -1, which means that no wires were given; the two-qubit rotations have no matrix product form *)
Theorem C61_number_raises : forall N z th ph la c, (1 <= N)%Z -> In c (two_wire_calls N (WInt z) th ph la) ->
  let e := if (z =? -1)%Z then ValueError else TypeError in
  exists g, c = Ok g /\ U_expand g = Err e /\ (forall s bm, TN_contract g s bm = Err e) /\
    forall svd l, TN_operation svd g l = Err e \/ TN_operation svd g l = Err AttributeError.
Proof. exact int_raises. Qed.
Print Assumptions C61_number_raises.
(** a list for a gate on one wire: the same *)
Theorem C61_list_for_number : forall g l, one_qubit_cls (g_cls g) = true -> g_wires g = WList l ->
  (forall u, U_expand g <> Ok u) /\ (forall s bm t, TN_contract g s bm <> Ok t) /\ forall svd m t, TN_operation svd g m <> Ok t.
Proof. exact list_refused. Qed.
Print Assumptions C61_list_for_number.
Theorem C61_list_raises : forall g l, one_qubit_cls (g_cls g) = true -> (1 <= g_N g)%Z -> g_wires g = WList l ->
  U_expand g = Err TypeError /\ (forall s bm, TN_contract g s bm = Err TypeError) /\ forall svd m, TN_operation svd g m = Err TypeError.
Proof. exact list_raises. Qed.
Print Assumptions C61_list_raises.
Example C61_list_case : exists g, PauliX 3 (WList [1%Z]) = Ok g /\ one_qubit_cls (g_cls g) = true /\ g_wires g = WList [1%Z].
Proof. eexists. split; [reflexivity|]. split; reflexivity. Qed.

(** toffoli counts when it is constructed *)
Theorem C61_toffoli : forall N l, length l <> 3 -> toffoli N (WList l) = Err ValueError.
Proof. exact toffoli_count. Qed.
Print Assumptions C61_toffoli.
Theorem C61_toffoli_number : forall N z, z <> (-1)%Z -> toffoli N (WInt z) = Err TypeError.
Proof. exact toffoli_int. Qed.
Print Assumptions C61_toffoli_number.
Example C61_toffoli_case : length [0; 1; 2; 3]%Z <> 3.
Proof. discriminate. Qed.
(** the multi-controlled gate needs a target when it is constructed, and a control for its matrix *)
Theorem C61_multi_control : forall N, multi_control_cnot N (WList []) = Err IndexError /\
  (forall z, multi_control_cnot N (WInt z) = Err TypeError) /\
  forall t, exists g, multi_control_cnot N (WList [t]) = Ok g /\ U_expand g = Err ValueError.
Proof. exact mcx_count. Qed.
Print Assumptions C61_multi_control.

(** too many wires are not refused by the matrix and by the contraction: those after the second are ignored *)
Theorem C61_surplus_ignored : forall N a b rest th ph la c c',
  In (c, c') (combine (two_wire_calls N (WList (a :: b :: rest)) th ph la) (two_wire_calls N (WList [a; b]) th ph la)) ->
  exists g g', c = Ok g /\ c' = Ok g' /\ U_expand g = U_expand g' /\ forall s bm, TN_contract g s bm = TN_contract g' s bm.
Proof. exact surplus_ignored. Qed.
Print Assumptions C61_surplus_ignored.
Example C61_surplus_case : exists g u, cz 3 (WList [0; 2; 1]%Z) = Ok g /\ U_expand g = Ok u.
Proof. do 2 eexists. split; [reflexivity|]. reflexivity. Qed.
(** on matrix product states all but cnot insist on two wires *)
Theorem C61_mps_two_wires : forall svd N l th ph la c m, length l <> 2 ->
  In c [cz N (WList l); cphase th N (WList l); cu3 [th; ph; la] N (WList l); SWAP N (WList l)] ->
  exists g, c = Ok g /\ TN_operation svd g m = Err ValueError.
Proof. exact mps_two_wires. Qed.
Print Assumptions C61_mps_two_wires.
Example C61_mps_case : length [0; 1; 2]%Z <> 2.
Proof. discriminate. Qed.
(** cnot takes the smallest and the largest wire of the list; the control is the smallest if it comes first and the largest otherwise *)
Theorem C61_cnot_mps : forall svd N w rest lo hi m, In lo (w :: rest) -> In hi (w :: rest) -> Forall (fun x => (lo <= x <= hi)%Z) (w :: rest) ->
  exists g g', cnot N (WList (w :: rest)) = Ok g /\ cnot N (WList (if (w =? lo)%Z then [lo; hi] else [hi; lo])) = Ok g' /\
    TN_operation svd g m = TN_operation svd g' m.
Proof. exact cnot_mps_wires. Qed.
Print Assumptions C61_cnot_mps.
Example C61_cnot_mps_case : In 0%Z [2; 0; 3]%Z /\ In 3%Z [2; 0; 3]%Z /\ Forall (fun x => (0 <= x <= 3)%Z) [2; 0; 3]%Z.
Proof. split; [cbn; tauto|]. split; [cbn; tauto|]. repeat constructor; lia. Qed.
(** so the claim that the forms agree or refuse fails for cnot with three wires: the matrix flips the second, the matrix product state the third *)
Theorem C61_three_wires_refuted : forall svd n a b c l psi, exact_svd svd -> a < b < c -> c < n -> is_mps n l psi -> nonzero n psi ->
  exists g u l', cnot (Z.of_nat n) (WList [Z.of_nat a; Z.of_nat b; Z.of_nat c]) = Ok g /\
    U_expand g = Ok u /\ is_op n u (gi_op n (gi_cnot a b)) /\
    TN_operation svd g l = Ok l' /\ is_mps n l' (act n (gi_op n (gi_cnot a c)) psi) /\
    ~ op_eq n (gi_op n (gi_cnot a b)) (gi_op n (gi_cnot a c)).
Proof. exact cnot_three_wires. Qed.
Print Assumptions C61_three_wires_refuted.
(** and with one wire q: no matrix, but on a matrix product state a cnot from q-1 to q *)
Theorem C61_one_wire_refuted : forall svd n q l psi, exact_svd svd -> 0 < q < n -> is_mps n l psi -> nonzero n psi ->
  exists g l', cnot (Z.of_nat n) (WList [Z.of_nat q]) = Ok g /\ (forall u, U_expand g <> Ok u) /\
    TN_operation svd g l = Ok l' /\ is_mps n l' (act n (gi_op n (gi_cnot (q - 1) q)) psi).
Proof. exact cnot_one_wire. Qed.
Print Assumptions C61_one_wire_refuted.
Example C61_refuted_case : exact_svd triv_svd /\ is_mps 3 ghz_mps ghz /\ nonzero 3 ghz.
Proof. split; [exact some_exact_svd|]. split; [exact ghz_is_mps|exact ghz_nonzero]. Qed.
