(** Circuits as sequences of gates and layers.  Specification: uses no model function. *)
From Coq Require Import List Reals Arith Bool.
From Verif Require Import Scalar CInst Spec GateSpec RunSpec LayerSpec.
Import ListNotations.

(** one operation added to a circuit *)
Inductive ci := CG (g : gi) | CL (l : li).

Definition ci_ok (n : nat) (c : ci) : Prop := match c with CG g => gi_ok n g | CL l => li_ok n l end.
Definition ci_gates (c : ci) : list gi := match c with CG g => [g] | CL l => li_gates l end.
Definition ci_op (n : nat) (c : ci) : qop := match c with CG g => gi_op n g | CL l => li_op n l end.

(** the ordered product ... c_3 c_2 c_1: the first operation acts first *)
Definition cs_op (n : nat) (cs : list ci) : qop := fold_left (fun A c => mul_op n (ci_op n c) A) cs id_op.
(** the product in the opposite order: c_1 c_2 c_3 ... *)
Definition cs_op_rev (n : nat) (cs : list ci) : qop := fold_left (fun A c => mul_op n A (ci_op n c)) cs id_op.

(** operations that announce that they have no tensor network form *)
Definition matrix_only (c : ci) : bool := match c with CG (gi_mcx _ _) | CL (li_ring2 _) | CL (li_basic _ _ _) => true | _ => false end.

(** the state 0...0 *)
Definition zero_state (n : nat) : qstate := fun b => if list_eq_dec Nat.eq_dec b (repeat 0 n) then RtoC 1 else RtoC 0.

(** Re <U psi| M |U psi> where U is the circuit's operator *)
Definition expect (n : nat) (cs : list ci) (psi : qstate) (M : qop) : R :=
  Re (inner n (act n (cs_op n cs) psi) (act n M (act n (cs_op n cs) psi))).

(** the angles of one operation, in the order in which they are given; and the operation with other angles *)
Definition gi_angles (g : gi) : list R :=
  match g with
  | gi_rx t _ | gi_ry t _ | gi_rz t _ | gi_u1 t _ | gi_rxx t _ _ | gi_ryy t _ _ | gi_rzz t _ _ | gi_cphase t _ _ => [t]
  | gi_u3 t p l _ | gi_cu3 t p l _ _ => [t; p; l]
  | _ => []
  end.
Definition gi_with (g : gi) (ps : list R) : gi :=
  match g, ps with
  | gi_rx _ w, [t] => gi_rx t w
  | gi_ry _ w, [t] => gi_ry t w
  | gi_rz _ w, [t] => gi_rz t w
  | gi_u1 _ w, [t] => gi_u1 t w
  | gi_u3 _ _ _ w, [t; p; l] => gi_u3 t p l w
  | gi_rxx _ a b, [t] => gi_rxx t a b
  | gi_ryy _ a b, [t] => gi_ryy t a b
  | gi_rzz _ a b, [t] => gi_rzz t a b
  | gi_cphase _ c w, [t] => gi_cphase t c w
  | gi_cu3 _ _ _ c w, [t; p; l] => gi_cu3 t p l c w
  | g, _ => g
  end.
Definition li_angles (l : li) : list R := match l with li_rot _ _ ps | li_basic _ _ ps => ps | _ => [] end.
Definition ci_angles (c : ci) : list R := match c with CG g => gi_angles g | CL l => li_angles l end.
Definition ci_with (c : ci) (ps : list R) : ci := match c with CG g => CG (gi_with g ps) | CL l => CL (li_set l ps) end.

(** all angles of a circuit, and the circuit with other angles *)
Definition cs_angles (cs : list ci) : list R := flat_map ci_angles cs.
Fixpoint cs_with (cs : list ci) (ps : list R) : list ci :=
  match cs with
  | [] => []
  | c :: cs' => let k := length (ci_angles c) in ci_with c (firstn k ps) :: cs_with cs' (skipn k ps)
  end.
(** the list with its k-th entry replaced *)
Definition set_at (k : nat) (x : R) (l : list R) : list R := firstn k l ++ x :: skipn (S k) l.

(** the operations whose TN_operation / TN_contract can be called: all gates except rxx, ryy, rzz (no TN_operation method) and
    multi_control_cnot (neither method); layers as in [li_TN] *)
Definition ci_TN (n : nat) (c : ci) : bool := match c with CG g => has_TN g | CL l => li_TN n l end.
Definition ci_con (n : nat) (c : ci) : bool := match c with CG g => negb (is_mcx g) | CL l => li_TN n l end.
