(** Properties of the gate classes (C01-C10, C32, C46, C47).  Specifications used in the statements: Spec.v, GateSpec.v;
    GateCalls.v lists the constructor calls. *)
From Coq Require Import List ZArith Reals Lra Lia Bool Arith.
From Verif Require Import PyBase Scalar CInst BigSum Index Tensor Spec SpecFacts QMath QTN QOperator
  ExpandFacts ExpandFacts2 GateSpec QGates GateCalls GateFacts5 GateFacts6 WireFacts GateProofs.
Import ListNotations.

(** C01: a one-qubit gate on wire w of n qubits expands to its 2x2 matrix acting on qubit w *)
Theorem C01_single_qubit_gates : forall n w th ph la c A, w < n -> In (c, A) (one_qubit_calls n w th ph la) ->
  exists o t, c = Ok o /\ U_expand o = Ok t /\ is_op n t (lift A [w]).
Proof. exact one_qubit_matrix. Qed.
Print Assumptions C01_single_qubit_gates.
Example C01_case : 2 < 3 /\ In (ry PI 3 (WInt 2), ry_op PI) (one_qubit_calls 3 2 PI 0 0).
Proof. split; [lia|]. cbn. tauto. Qed.

(** C01: wires outside 0..N-1, unset wires included, are rejected *)
Theorem C01_single_qubit_rejects : forall g w, constructed g -> one_qubit_cls (g_cls g) = true -> g_wires g = WInt w ->
  (w < 0 \/ g_N g <= w)%Z -> U_expand g = Err ValueError.
Proof. exact single_rejects. Qed.
Print Assumptions C01_single_qubit_rejects.
Example C01_reject_case : exists g, PauliX 3 (WInt 3) = Ok g /\ U_expand g = Err ValueError.
Proof.
  eexists. split; [reflexivity|].
  apply (single_rejects _ 3%Z); [eapply con_X; reflexivity|reflexivity|reflexivity|right; cbn; lia].
Qed.

(** C02 *)
Theorem C02_controlled_gates : forall n c t th ph la k A, c < n -> t < n -> c <> t ->
  In (k, A) (controlled_calls n c t th ph la) ->
  exists o u, k = Ok o /\ U_expand o = Ok u /\ is_op n u (ctrl [c] (lift A [t])).
Proof. exact controlled_matrix. Qed.
Print Assumptions C02_controlled_gates.
Example C02_case : In (cu3 [1; 2; 3]%R 4 (WList [3; 1]%Z), u3_op 1 2 3) (controlled_calls 4 3 1 1 2 3).
Proof. cbn. tauto. Qed.

Theorem C02_controlled_rejects : forall g c d, constructed g -> controlled_cls (g_cls g) = true -> g_wires g = WList [c; d] ->
  (c < 0 \/ g_N g <= c \/ d < 0 \/ g_N g <= d \/ c = d)%Z -> U_expand g = Err ValueError.
Proof. exact controlled_rejects. Qed.
Print Assumptions C02_controlled_rejects.
Example C02_reject_case : exists g, cz 3 (WList [1; 1]%Z) = Ok g /\ U_expand g = Err ValueError.
Proof.
  eexists. split; [reflexivity|].
  apply (controlled_rejects _ 1%Z 1%Z); [eapply con_cz; reflexivity|reflexivity|reflexivity|lia].
Qed.

(** C03 *)
Theorem C03_two_qubit_rotations : forall n a b th k P, a < n -> b < n -> a <> b -> In (k, P) (rotation2_calls n a b th) ->
  exists o u, k = Ok o /\ U_expand o = Ok u /\
    is_op n u (add_op (scale_op (RtoC (cos (th / 2))) id_op)
                      (scale_op (0, - sin (th / 2))%R (mul_op n (lift P [a]) (lift P [b])))) /\
    is_op n u (lift (op_of (g_matrix o)) [a; b]).
Proof. exact rotation2_matrix. Qed.
Print Assumptions C03_two_qubit_rotations.
Example C03_case : In (ryy 1 5 (WList [4; 0]%Z), Y_op) (rotation2_calls 5 4 0 1).
Proof. cbn. tauto. Qed.
(** other wires are refused: a second wire beyond the register with IndexError, everything else with ValueError *)
Theorem C03_rejects : forall n a b th, 0 < n -> ~ ((0 <= a < Z.of_nat n)%Z /\ (0 <= b < Z.of_nat n)%Z /\ a <> b) ->
  forall k, In k [rxx th (Z.of_nat n) (WList [a; b]); ryy th (Z.of_nat n) (WList [a; b]); rzz th (Z.of_nat n) (WList [a; b])] ->
  exists o, k = Ok o /\ U_expand o = Err (if (0 <=? a) && (a <? Z.of_nat n) && (Z.of_nat n <=? b) then IndexError else ValueError)%Z.
Proof. exact rotation2_rejects. Qed.
Print Assumptions C03_rejects.
Example C03_rejects_case : exists o o', rxx 1 3 (WList [0; 3]%Z) = Ok o /\ U_expand o = Err IndexError /\ rzz 1 3 (WList [3; 0]%Z) = Ok o' /\ U_expand o' = Err ValueError.
Proof.
  destruct (rotation2_rejects 3 0 3 1 ltac:(lia) ltac:(cbn; lia) _ (or_introl eq_refl)) as (o & E1 & E2).
  destruct (rotation2_rejects 3 3 0 1 ltac:(lia) ltac:(cbn; lia) _ (or_intror (or_intror (or_introl eq_refl)))) as (o' & E3 & E4).
  exists o, o'. repeat split; assumption.
Qed.

(** C04 *)
Theorem C04_swap : forall n a b, a < n -> b < n -> a <> b ->
  exists o u, SWAP (Z.of_nat n) (WList [Z.of_nat a; Z.of_nat b]) = Ok o /\ U_expand o = Ok u /\ is_op n u (swap_op a b).
Proof. exact swap_matrix_ok. Qed.
Print Assumptions C04_swap.
(** negative wires count from the end; wires outside -n..n-1 raise IndexError *)
Theorem C04_negative_wires : forall n a b, (- Z.of_nat n <= a < Z.of_nat n)%Z -> (- Z.of_nat n <= b < Z.of_nat n)%Z -> (a mod Z.of_nat n <> b mod Z.of_nat n)%Z ->
  exists o u, SWAP (Z.of_nat n) (WList [a; b]) = Ok o /\ U_expand o = Ok u /\ is_op n u (swap_op (Z.to_nat (a mod Z.of_nat n)) (Z.to_nat (b mod Z.of_nat n))).
Proof. exact swap_signed. Qed.
Print Assumptions C04_negative_wires.
Theorem C04_rejects : forall n a b, ~ ((- Z.of_nat n <= a < Z.of_nat n)%Z /\ (- Z.of_nat n <= b < Z.of_nat n)%Z) ->
  exists o, SWAP (Z.of_nat n) (WList [a; b]) = Ok o /\ U_expand o = Err IndexError.
Proof. exact swap_rejects. Qed.
Print Assumptions C04_rejects.
Example C04_wires_case : (- Z.of_nat 4 <= -4 < Z.of_nat 4)%Z /\ (- Z.of_nat 4 <= -1 < Z.of_nat 4)%Z /\ Z.to_nat (-4 mod Z.of_nat 4) = 0 /\ Z.to_nat (-1 mod Z.of_nat 4) = 3 /\
  ~ ((- Z.of_nat 4 <= -5 < Z.of_nat 4)%Z /\ (- Z.of_nat 4 <= 0 < Z.of_nat 4)%Z).
Proof. cbn. lia. Qed.
Example C04_case : exists o u, SWAP 4 (WList [3; 1]%Z) = Ok o /\ U_expand o = Ok u /\
  op_of u [0; 1; 0; 0] [0; 0; 0; 1] = RtoC 1.
Proof.
  destruct (swap_matrix_ok 4 3 1) as (o & u & E1 & E2 & (_ & _ & E3)); try lia.
  exists o, u. split; [exact E1|]. split; [exact E2|]. rewrite E3 by (cbn; tauto). reflexivity.
Qed.

(** C05 *)
Theorem C05_toffoli : forall n a b t, a < n -> b < n -> t < n -> ~ In t [a; b] ->
  exists o u, toffoli (Z.of_nat n) (WList [Z.of_nat a; Z.of_nat b; Z.of_nat t]) = Ok o /\ U_expand o = Ok u /\
    is_op n u (ctrl [a; b] (lift X_op [t])).
Proof. exact toffoli_matrix_ok. Qed.
Print Assumptions C05_toffoli.
Example C05_toffoli_case : 3 < 4 /\ 0 < 4 /\ 1 < 4 /\ ~ In 1 [3; 0].
Proof. cbn. lia. Qed.
Theorem C05_multi_control : forall n cs t, cs <> [] -> (forall w, In w cs -> w < n) -> t < n -> ~ In t cs ->
  exists o u, multi_control_cnot (Z.of_nat n) (WList (map Z.of_nat cs ++ [Z.of_nat t])) = Ok o /\ U_expand o = Ok u /\
    is_op n u (ctrl cs (lift X_op [t])).
Proof. exact mcx_matrix_ok. Qed.
Print Assumptions C05_multi_control.
Theorem C05_toffoli_rejects : forall N c1 c2 t g, toffoli N (WList [c1; c2; t]) = Ok g ->
  (exists w, In w [c1; c2; t] /\ (w < 0 \/ N <= w)%Z) \/ In t [c1; c2] -> U_expand g = Err ValueError.
Proof. exact toffoli_rejects. Qed.
Print Assumptions C05_toffoli_rejects.
Example C05_toffoli_reject_case : exists g, toffoli 3 (WList [0; 1; 3]%Z) = Ok g /\ U_expand g = Err ValueError.
Proof. eexists. split; [reflexivity|]. eapply (toffoli_rejects 3 0 1 3); [reflexivity|]. left. exists 3%Z. cbn. split; [tauto|lia]. Qed.
Theorem C05_multi_control_rejects : forall N cs t g, multi_control_cnot N (WList (cs ++ [t])) = Ok g ->
  (exists w, In w (cs ++ [t]) /\ (w < 0 \/ N <= w)%Z) \/ In t cs -> U_expand g = Err ValueError.
Proof. exact mcx_rejects. Qed.
Print Assumptions C05_multi_control_rejects.
Example C05_case : exists o u, multi_control_cnot 4 (WList [3; 0; 1; 2]%Z) = Ok o /\ U_expand o = Ok u /\
  op_of u [1; 1; 1; 1] [1; 1; 0; 1] = RtoC 1 /\ op_of u [1; 0; 1; 1] [1; 0; 0; 1] = RtoC 0.
Proof.
  destruct (mcx_matrix_ok 4 [3; 0; 1] 2) as (o & u & E1 & E2 & (_ & _ & E3)); try lia; try discriminate; cbn; try (intros; lia).
  exists o, u. split; [exact E1|]. split; [exact E2|]. rewrite !E3 by (cbn; tauto). split; reflexivity.
Qed.
Example C05_reject_case : exists g, multi_control_cnot 3 (WList ([0; 2] ++ [2])%Z) = Ok g /\ U_expand g = Err ValueError.
Proof. eexists. split; [reflexivity|]. eapply (mcx_rejects 3 [0; 2]%Z 2%Z); [reflexivity|]. right. cbn. tauto. Qed.

(** C06: whatever integers are given as wires, U_expand raises or returns a unitary matrix, for every class but SWAP *)
Theorem C06_bad_wires : forall g t, constructed g -> g_cls g <> cSWAP -> U_expand g = Ok t ->
  exists n, g_N g = Z.of_nat n /\ shape t = [2 ^ n; 2 ^ n] /\ wf t /\ unitary n (op_of t).
Proof. exact bad_wires. Qed.
Print Assumptions C06_bad_wires.
(** SWAP: the returned matrix is unitary exactly when the two wires differ (negative wires counting from the end) *)
Theorem C06_swap_wires : forall N a b g t, SWAP N (WList [a; b]) = Ok g -> U_expand g = Ok t ->
  exists n, N = Z.of_nat n /\ (unitary n (op_of t) <-> (a mod N <> b mod N)%Z).
Proof. exact swap_bad_wires. Qed.
Print Assumptions C06_swap_wires.
Example C06_swap_case : exists g t, SWAP 3 (WList [-1; 0]%Z) = Ok g /\ U_expand g = Ok t /\ ((-1) mod 3 <> 0 mod 3)%Z.
Proof. do 2 eexists. split; [reflexivity|]. split; [reflexivity|discriminate]. Qed.
(** so the property fails for SWAP: equal wires are accepted and give a non-unitary matrix, on every register *)
Theorem C06_swap_refuted : forall n a, a < n -> exists g t, SWAP (Z.of_nat n) (WList [Z.of_nat a; Z.of_nat a]) = Ok g /\
  U_expand g = Ok t /\ ~ unitary n (op_of t).
Proof. exact swap_equal_ok. Qed.
Print Assumptions C06_swap_refuted.
Example C06_case : exists g, toffoli 3 (WList [0; 0; 2]%Z) = Ok g /\ constructed g /\ g_cls g <> cSWAP /\
  exists t, U_expand g = Ok t.
Proof.
  destruct (toffoli_matrix_ok 3 0 0 2) as (o & u & E1 & E2 & _); try lia; [cbn; lia|].
  exists o. split; [exact E1|]. split; [eapply con_toffoli; exact E1|]. split; [|eauto].
  injection E1 as <-. discriminate.
Qed.

(** C07 (gates) *)
Theorem C07_gates_unitary : forall n g, gi_ok n g ->
  exists o t, build n g = Ok o /\ U_expand o = Ok t /\ shape t = [2 ^ n; 2 ^ n] /\ wf t /\ unitary n (op_of t).
Proof. exact gate_unitary. Qed.
Print Assumptions C07_gates_unitary.
Example C07_case : gi_ok 5 (gi_cu3 1 2 3 4 0) /\ gi_ok 5 (gi_mcx [1; 4] 2).
Proof.
  split; (split; [|try exact I; discriminate]); (split; [repeat constructor; cbn; lia|]); cbn; intros w Hw; lia.
Qed.

(** C08 (gates): the dagger object is the object of the inverse call and its matrix the conjugate transpose *)
Theorem C08_gates_dagger : forall n g, gi_ok n g ->
  exists o od t td, build n g = Ok o /\ operation_dagger o = Ok od /\ U_expand o = Ok t /\ U_expand od = Ok td /\
    is_op n td (adj_op (op_of t)).
Proof. exact gate_dagger. Qed.
Print Assumptions C08_gates_dagger.
Example C08_dagger_case : gi_ok 4 (gi_cu3 1 2 3 3 1) /\ gi_ok 4 (gi_u1 1 2).
Proof. split; (split; [|exact I]); (split; [repeat constructor; cbn; lia|]); cbn; intros w Hw; lia. Qed.
Theorem C08_gates_dagger_object : forall n g o, build n g = Ok o -> operation_dagger o = build n (gi_inv g).
Proof. exact gate_dagger_obj. Qed.
Print Assumptions C08_gates_dagger_object.
Example C08_case : gi_inv (gi_u3 1 2 3 0) = gi_u3 (-(1)) (-(3)) (-(2)) 0.
Proof. reflexivity. Qed.

(** C09 (gates): contraction of a rank-n tensor is the matrix applied to the flattened state *)
Theorem C09_gates_contract : forall n g s, gi_ok n g -> is_mcx g = false -> shape s = repeat 2 n -> wf s ->
  exists o u s', build n g = Ok o /\ U_expand o = Ok u /\ TN_contract o s false = Ok s' /\
    is_state n (repeat 2 n) s' (act n (op_of u) (amp s)).
Proof. exact gate_contract. Qed.
Print Assumptions C09_gates_contract.
Example C09_case : let s := mkT [2; 2; 2] (map (fun k => RtoC (INR k)) (seq 0 8)) in
  gi_ok 3 (gi_toffoli 2 0 1) /\ shape s = repeat 2 3 /\ wf s.
Proof.
  split; [|split; reflexivity]. split; [|exact I]. split; [repeat constructor; cbn; lia|]. cbn; intros w Hw; lia.
Qed.

(** C10 (gates): contraction of a batch is contraction of every sample *)
Theorem C10_gates_batch : forall B n g t, gi_ok n g -> is_mcx g = false -> shape t = B :: repeat 2 n -> wf t ->
  exists o t', build n g = Ok o /\ TN_contract o t true = Ok t' /\ shape t' = B :: repeat 2 n /\ wf t' /\
    forall i u, i < B -> sample n i t u -> exists u', TN_contract o u false = Ok u' /\ sample n i t' u'.
Proof. exact gate_batch. Qed.
Print Assumptions C10_gates_batch.
(** [sample n i t u] is python's [u = t[i]] *)
Theorem C10_sample_is_select : forall B n t i, shape t = B :: repeat 2 n -> wf t -> i < B ->
  exists u, tselect t (Z.of_nat i) = Ok u /\ sample n i t u.
Proof. exact sample_select. Qed.
Print Assumptions C10_sample_is_select.
Example C10_case : let t := mkT [3; 2; 2] (map (fun k => RtoC (INR k)) (seq 0 12)) in
  shape t = 3 :: repeat 2 2 /\ wf t /\ gi_ok 2 (gi_cnot 1 0).
Proof.
  split; [reflexivity|]. split; [reflexivity|]. split; [|exact I]. split; [repeat constructor; cbn; lia|]. cbn; intros w Hw; lia.
Qed.

(** C32 (gates): after any sequence of updates the object is the one freshly built with the last parameters *)
Theorem C32_gates_params_update : forall n ps g g' o, gi_sets g ps = Some g' -> build n g = Ok o ->
  mfold params_update ps o = build n g'.
Proof. exact gate_update. Qed.
Print Assumptions C32_gates_params_update.
Example C32_case : gi_sets (gi_cu3 1 2 3 0 1) [PV [4; 5; 6]%R; PV [7; 8; 9]%R] = Some (gi_cu3 7 8 9 0 1).
Proof. reflexivity. Qed.

(** C46 *)
Theorem C46_multi_kron : forall {SC : Scalar} (ts : list tensor), ts <> [] ->
  Forall (fun t => shape t = [2; 2] /\ wf t) ts ->
  exists t, multi_kron ts = Ok t /\
    is_op (length ts) t (fun r c => bigprod (seq 0 (length ts)) (fun i => tget (nth i ts t) [nth i r 0; nth i c 0])).
Proof. exact @multi_kron_entries. Qed.
Print Assumptions C46_multi_kron.
Theorem C46_multi_kron_mul : forall {SC : Scalar} (As Bs : list qop) a b ab, length As = length Bs ->
  multi_kron (map (op_tensor 1) As) = Ok a -> multi_kron (map (op_tensor 1) Bs) = Ok b ->
  multi_kron (map (fun p => op_tensor 1 (mul_op 1 (fst p) (snd p))) (combine As Bs)) = Ok ab ->
  matmul a b = Ok ab.
Proof. exact @multi_kron_mul. Qed.
Print Assumptions C46_multi_kron_mul.
Theorem C46_dag : forall {SC : Scalar} t m n, shape t = [m; n] -> wf t ->
  exists d, dag t = Ok d /\ shape d = [n; m] /\ wf d /\ dag d = Ok t /\
    forall i j, i < n -> j < m -> tget d [i; j] = kconj (tget t [j; i]).
Proof. exact @dag_laws. Qed.
Print Assumptions C46_dag.
Theorem C46_dag_product : forall {SC : Scalar} a b l m n, shape a = [l; m] -> shape b = [m; n] -> wf a -> wf b ->
  exists ab da db d, matmul a b = Ok ab /\ dag a = Ok da /\ dag b = Ok db /\ dag ab = Ok d /\ matmul db da = Ok d.
Proof. exact @dag_product. Qed.
Print Assumptions C46_dag_product.
Theorem C46_dag_rejects : forall {SC : Scalar} t, length (shape t) <> 2 -> dag t = Err ValueError.
Proof. exact @dag_rejects. Qed.
Print Assumptions C46_dag_rejects.
Example C46_case : let ts := [op_tensor 1 X_op; op_tensor 1 H_op; op_tensor 1 Y_op] in ts <> [] /\ Forall (fun t => shape t = [2; 2] /\ wf t) ts.
Proof. split; [discriminate|]. repeat constructor. Qed.
Example C46_mul_case : exists a b ab, multi_kron (map (op_tensor 1) [X_op; Y_op]) = Ok a /\ multi_kron (map (op_tensor 1) [H_op; Z_op]) = Ok b /\
  multi_kron (map (fun p => op_tensor 1 (mul_op 1 (fst p) (snd p))) (combine [X_op; Y_op] [H_op; Z_op])) = Ok ab.
Proof. do 3 eexists. repeat split; reflexivity. Qed.
Example C46_dag_case : let a := mkT [2; 3] (map (fun k => (INR k, 1%R)) (seq 0 6)) in let b := mkT [3; 1] (map (fun k => (INR k, 2%R)) (seq 0 3)) in
  shape a = [2; 3] /\ wf a /\ shape b = [3; 1] /\ wf b.
Proof. repeat split. Qed.
Example C46_dag_rejects_case : length (shape (mkT [2; 1; 1] [RtoC 1; RtoC 0])) <> 2.
Proof. discriminate. Qed.

(** C47: gates on disjoint wires commute, as matrices and as contractions, batched or not *)
Theorem C47_matrices_commute : forall n g h, gi_ok n g -> gi_ok n h -> (forall w, In w (gi_wires g) -> ~ In w (gi_wires h)) ->
  exists a b u v p, build n g = Ok a /\ build n h = Ok b /\ U_expand a = Ok u /\ U_expand b = Ok v /\
    matmul u v = Ok p /\ matmul v u = Ok p.
Proof. exact gates_commute. Qed.
Print Assumptions C47_matrices_commute.
Theorem C47_contractions_commute : forall n g h s, gi_ok n g -> gi_ok n h -> is_mcx g = false -> is_mcx h = false ->
  (forall w, In w (gi_wires g) -> ~ In w (gi_wires h)) -> shape s = repeat 2 n -> wf s ->
  exists a b s1 s2 r, build n g = Ok a /\ build n h = Ok b /\
    TN_contract a s false = Ok s1 /\ TN_contract b s1 false = Ok r /\
    TN_contract b s false = Ok s2 /\ TN_contract a s2 false = Ok r.
Proof. exact gates_commute_contract. Qed.
Print Assumptions C47_contractions_commute.
Theorem C47_batch_contractions_commute : forall B n g h s, gi_ok n g -> gi_ok n h -> is_mcx g = false -> is_mcx h = false ->
  (forall w, In w (gi_wires g) -> ~ In w (gi_wires h)) -> shape s = B :: repeat 2 n -> wf s ->
  exists a b s1 s2 r, build n g = Ok a /\ build n h = Ok b /\
    TN_contract a s true = Ok s1 /\ TN_contract b s1 true = Ok r /\
    TN_contract b s true = Ok s2 /\ TN_contract a s2 true = Ok r.
Proof. exact gates_commute_batch. Qed.
Print Assumptions C47_batch_contractions_commute.
Example C47_case : gi_ok 4 (gi_cnot 3 0) /\ gi_ok 4 (gi_rxx 1 2 1) /\
  (forall w, In w (gi_wires (gi_cnot 3 0)) -> ~ In w (gi_wires (gi_rxx 1 2 1))).
Proof.
  split; [|split]; [..|cbn; intros w Hw; lia].
  all: split; [|exact I]; (split; [repeat constructor; cbn; lia|]); cbn; intros w Hw; lia.
Qed.
