(** C60: [info()] describes what the operation does.
    The specification of how a description is read is InfoSpec.v ([read_info]). *)
From Coq Require Import List ZArith Reals Lia Bool Arith String.
From Verif Require Import PyBase Scalar CInst Tensor Spec QOperator GateSpec QGates GateCalls RunSpec LayerSpec QLayers LayerCalls CircuitSpec QCircuit
  CircuitCases QInfo InfoSpec InfoFacts.
Import ListNotations.
Local Close Scope R_scope.
Local Open Scope nat_scope.

(** a gate: the description reads as that gate, whose effect is the matrix U_expand gives *)
Theorem C60_gates : forall n g, gi_ok n g ->
  exists o i u, build n g = Ok o /\ gate_info o = Ok i /\ read_info i = Some [g] /\ U_expand o = Ok u /\ is_op n u (gi_op n g).
Proof. exact info_gates. Qed.
Print Assumptions C60_gates.
Ltac gw := split; [repeat constructor; cbn; lia|cbn; intros w Hw; lia].
Example C60_gates_case : gi_ok 4 (gi_cu3 1 2 3 3 1) /\ gi_ok 4 (gi_mcx [2; 0; 3] 1).
Proof. split; (split; [gw|]); [exact I|discriminate]. Qed.
(** the description of the second one *)
Example C60_gates_dict : exists o, build 4 (gi_mcx [2; 0; 3] 1) = Ok o /\
  gate_info o = Ok (mkInfo "3_control_cnot" [WInt 2; WInt 0; WInt 3] [WInt 1] None).
Proof. eexists. split; reflexivity. Qed.

(** a layer: the description reads as a list of gates whose ordered product is the matrix of the layer *)
Theorem C60_layers : forall n l, 0 < n -> li_ok n l ->
  exists o i u, lbuild n l = Ok o /\ layer_info o = Ok i /\ read_info i = Some (li_gates l) /\ layer_U o = Ok u /\ is_op n u (gs_op n (li_gates l)).
Proof. exact info_layers. Qed.
Print Assumptions C60_layers.
Example C60_layers_case : li_ok 4 (li_basic 2 [3; 0] [1; 2; 3; 4; 5; 6; 7; 8; 9; 10; 11; 12]%R) /\ li_ok 4 (li_ring2 [2; 0; 3]).
Proof. split; [split; [gw|cbn; lia]|split; [gw|cbn; lia]]. Qed.
Example C60_layers_dict : exists o, lbuild 4 (li_ring2 [2; 0; 3]) = Ok o /\
  layer_info o = Ok (mkInfo "ring_of_cnot2_Layer" [WInt 2; WInt 0; WInt 3] [WInt 3; WInt 2; WInt 0] None).
Proof. eexists. split; reflexivity. Qed.

(** a circuit: the descriptions of its operations, read in order, give its matrix *)
Theorem C60_circuit : forall n cs, 0 < n -> Forall (ci_ok n) cs ->
  exists c is gs u, circuit_of n cs = Ok c /\ mmap oper_info (c_gate c) = Ok is /\ read_infos is = Some gs /\ cU c true = Ok u /\ is_op n u (gs_op n gs).
Proof. exact info_circuit. Qed.
Print Assumptions C60_circuit.
Example C60_circuit_case : Forall (ci_ok 3) demo.
Proof. exact demo_ok. Qed.

(** two operations on the same register with the same description have the same matrix *)
Theorem C60_same_description : forall n a b oa ob, 0 < n -> ci_ok n a -> ci_ok n b -> obuild n a = Ok oa -> obuild n b = Ok ob ->
  oper_info oa = oper_info ob -> exists u, o_U oa = Ok u /\ o_U ob = Ok u.
Proof. exact info_same. Qed.
Print Assumptions C60_same_description.
Example C60_same_description_case : exists oa ob, obuild 2 (CL (li_basic 1 [0; 1] [1; 2; 3; 4; 5; 6]%R)) = Ok oa /\
  obuild 2 (CL (li_basic 1 [0; 1] [1; 2; 3; 4; 5; (2 + 4)]%R)) = Ok ob /\ oper_info oa = oper_info ob.
Proof. do 2 eexists. split; [reflexivity|]. split; [reflexivity|]. cbn. replace (2 + 4)%R with 6%R by (compute; ring). reflexivity. Qed.

(** after new parameters the description has them *)
Theorem C60_after_update : forall n ps g g' o, gi_sets g ps = Some g' -> build n g = Ok o ->
  exists o' i, mfold params_update ps o = Ok o' /\ gate_info o' = Ok i /\ read_info i = Some [g'].
Proof. exact info_update. Qed.
Print Assumptions C60_after_update.
Example C60_after_update_case : gi_sets (gi_cu3 1 2 3 0 1) [PV [4; 5; 6]%R; PV [7; 8; 9]%R] = Some (gi_cu3 7 8 9 0 1).
Proof. reflexivity. Qed.
Theorem C60_after_layer_update : forall n l pss o, li_ok n l -> Forall (fun ps => li_ok n (li_set l ps)) pss -> lbuild n l = Ok o ->
  exists o' i, mfold layer_params_update pss o = Ok o' /\ layer_info o' = Ok i /\ read_info i = Some (li_gates (fold_left li_set pss l)).
Proof. exact info_layer_update. Qed.
Print Assumptions C60_after_layer_update.
Example C60_after_layer_update_case : let l := li_rot KXZ [1] [1; 2]%R in li_ok 2 l /\ Forall (fun ps => li_ok 2 (li_set l ps)) [[3; 4]; [5; 6]]%R /\
  li_gates (fold_left li_set [[3; 4]; [5; 6]]%R l) = [gi_rx 5 1; gi_rz 6 1].
Proof. split; [split; [gw|reflexivity]|]. split; [|reflexivity]. repeat (constructor; [split; [gw|reflexivity]|]). constructor. Qed.

(** the description of the object operation_dagger returns reads as the inverse *)
Theorem C60_gate_dagger : forall n g, gi_ok n g ->
  exists o od i gs, build n g = Ok o /\ operation_dagger o = Ok od /\ gate_info od = Ok i /\ read_info i = Some gs /\
    op_eq n (gs_op n gs) (adj_op (gi_op n g)).
Proof. exact info_gate_dagger. Qed.
Print Assumptions C60_gate_dagger.
Example C60_gate_dagger_case : gi_ok 2 (gi_u3 1 2 3 1).
Proof. split; [gw|exact I]. Qed.
Theorem C60_layer_dagger : forall n l, 0 < n -> li_ok n l -> has_inverse l = true ->
  exists o od i gs, lbuild n l = Ok o /\ layer_dagger o = Ok (Some od) /\ layer_info od = Ok i /\ read_info i = Some gs /\
    op_eq n (gs_op n gs) (adj_op (li_op n l)).
Proof. exact info_layer_dagger. Qed.
Print Assumptions C60_layer_dagger.
Example C60_layer_dagger_case : li_ok 4 (li_ring [2; 0; 3]) /\ has_inverse (li_ring [2; 0; 3]) = true.
Proof. split; [split; [gw|cbn; lia]|reflexivity]. Qed.

(** a gate object made without wires: the one-qubit gates give a description that names no wire, the others raise *)
Theorem C60_unplaced : forall g, constructed g -> g_wires g = WInt (-1) ->
  if one_qubit_cls (g_cls g) then exists i, gate_info g = Ok i /\ i_contral i = [] /\ i_target i = [WInt (-1)] /\ read_info i = None
  else gate_info g = Err (match g_cls g with ctoffoli => AttributeError | _ => TypeError end).
Proof. exact info_unplaced. Qed.
Print Assumptions C60_unplaced.
Example C60_unplaced_case : exists g, toffoli (-1) (WInt (-1)) = Ok g /\ g_wires g = WInt (-1).
Proof. eexists. split; reflexivity. Qed.
