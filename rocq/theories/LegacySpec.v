(** The calls the older class offers, and the entry each one leaves in gate_list. *)
From Coq Require Import List ZArith Reals Bool Arith String.
From Verif Require Import Scalar CInst Spec GateSpec.
Import ListNotations.
Local Close Scope R_scope.
Local Open Scope nat_scope.

(** the gates qgate.Circuit has a method for; the second qubit of rxx, ryy, rzz must not be 0 *)
Definition legacy_call (g : gi) : bool :=
  match g with
  | gi_H _ | gi_X _ | gi_Y _ | gi_Z _ | gi_rx _ _ | gi_ry _ _ | gi_rz _ _ | gi_cnot _ _ | gi_cz _ _ | gi_mcx _ _ => true
  | gi_rxx _ _ b | gi_ryy _ _ b | gi_rzz _ _ b => negb (b =? 0)
  | _ => false
  end.

(** name, qubits and angle; multi_control_cnot is not recorded *)
Definition legacy_entry (g : gi) : list (string * list Z * option R) :=
  let ws := map Z.of_nat (gi_wires g) in
  match g with
  | gi_H _ => [("H"%string, ws, None)]
  | gi_X _ => [("X"%string, ws, None)]
  | gi_Y _ => [("Y"%string, ws, None)]
  | gi_Z _ => [("Z"%string, ws, None)]
  | gi_rx t _ => [("rx"%string, ws, Some t)]
  | gi_ry t _ => [("ry"%string, ws, Some t)]
  | gi_rz t _ => [("rz"%string, ws, Some t)]
  | gi_rxx t _ _ => [("rxx"%string, ws, Some t)]
  | gi_ryy t _ _ => [("ryy"%string, ws, Some t)]
  | gi_rzz t _ _ => [("rzz"%string, ws, Some t)]
  | gi_cnot _ _ => [("cnot"%string, ws, None)]
  | gi_cz _ _ => [("cz"%string, ws, None)]
  | _ => []
  end.
