(** Classes of operations for the gradient properties.  Specification: uses no model function. *)
From Coq Require Import List Reals Bool.
From Verif Require Import Scalar CInst Spec GateSpec LayerSpec CircuitSpec.
Import ListNotations.

(** operations other than cu3: each angle enters through one rotation or phase *)
Definition two_term (c : ci) : bool := match c with CG (gi_cu3 _ _ _ _ _) => false | _ => true end.
(** operations other than u1, cphase and cu3: each angle enters through a rotation exp(-i t P / 2) *)
Definition pure_rotation (c : ci) : bool := match c with CG (gi_u1 _ _ | gi_cphase _ _ _ | gi_cu3 _ _ _ _ _) => false | _ => true end.
(** the two-qubit rotations *)
Definition two_qubit_rotation (c : ci) : bool := match c with CG (gi_rxx _ _ _ | gi_ryy _ _ _ | gi_rzz _ _ _) => true | _ => false end.
(** a self-adjoint operator *)
Definition hermitian (n : nat) (A : qop) : Prop := op_eq n (adj_op A) A.
(** [g] lists the partial derivatives at the circuit's own angles of the expectation of M after the circuit, in order *)
Definition is_gradient (n : nat) (cs : list ci) (psi : qstate) (M : qop) (g : list R) : Prop :=
  length g = length (cs_angles cs) /\
  forall k, k < length (cs_angles cs) ->
    derivable_pt_lim (fun x => expect n (cs_with cs (set_at k x (cs_angles cs))) psi M) (nth k (cs_angles cs) 0%R) (nth k g 0%R).
(** two-qubit state |00> + |10> *)
Definition plus0 : @qstate C_scalar := fun b => match b with [_; O] => RtoC 1 | _ => RtoC 0 end.
(** one-qubit state |0> + |1> *)
Definition plus : @qstate C_scalar := fun _ => RtoC 1.
(** two-qubit state |10> + |11> *)
Definition one_plus : @qstate C_scalar := fun b => match b with [S O; _] => RtoC 1 | _ => RtoC 0 end.
