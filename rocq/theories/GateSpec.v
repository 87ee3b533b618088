(** What each gate of the library is supposed to do, independently of the code: the textbook operators. *)
From Coq Require Import List ZArith Reals Bool Arith.
From Verif Require Import PyBase Scalar CInst BigSum Tensor Spec.
Import ListNotations.

Definition rh : C := RtoC (/ sqrt 2).
Definition H_op : qop := op2 rh rh rh (Copp rh).
Definition X_op : qop := op2 (RtoC 0) (RtoC 1) (RtoC 1) (RtoC 0).
Definition Y_op : qop := op2 (RtoC 0) (Copp Ci) Ci (RtoC 0).
Definition Z_op : qop := op2 (RtoC 1) (RtoC 0) (RtoC 0) (Copp (RtoC 1)).
(** rotations: exp(-i theta P / 2) *)
Definition rx_op (t : R) : qop :=
  op2 (RtoC (cos (t / 2))) (0, - sin (t / 2))%R (0, - sin (t / 2))%R (RtoC (cos (t / 2))).
Definition ry_op (t : R) : qop :=
  op2 (RtoC (cos (t / 2))) (RtoC (- sin (t / 2))) (RtoC (sin (t / 2))) (RtoC (cos (t / 2))).
Definition rz_op (t : R) : qop := op2 (Cexpi (- (t / 2))) (RtoC 0) (RtoC 0) (Cexpi (t / 2)).
(** diag(1, e^{i theta}) *)
Definition u1_op (t : R) : qop := op2 (RtoC 1) (RtoC 0) (RtoC 0) (Cexpi t).
(** the Euler-angle matrix Rz(phi) Ry(theta) Rz(lambda) *)
Definition u3_op (t p l : R) : qop :=
  op2 (Cmul (Cexpi (- ((p + l) / 2))) (RtoC (cos (t / 2)))) (Copp (Cmul (Cexpi (- ((p - l) / 2))) (RtoC (sin (t / 2)))))
      (Cmul (Cexpi ((p - l) / 2)) (RtoC (sin (t / 2)))) (Cmul (Cexpi ((p + l) / 2)) (RtoC (cos (t / 2)))).

(** exp(-i theta P_a P_b / 2) = cos(theta/2) - i sin(theta/2) P_a P_b for a Pauli matrix P *)
Definition rpp_op (P : qop) (n : nat) (t : R) (a b : nat) : qop :=
  add_op (scale_op (RtoC (cos (t / 2))) id_op)
         (scale_op (0, - sin (t / 2))%R (mul_op n (lift P [a]) (lift P [b]))).

(** one gate placed on a register (a call such as [cir.rx(theta, w)]) *)
Inductive gi :=
| gi_H (w : nat) | gi_X (w : nat) | gi_Y (w : nat) | gi_Z (w : nat)
| gi_rx (t : R) (w : nat) | gi_ry (t : R) (w : nat) | gi_rz (t : R) (w : nat)
| gi_u1 (t : R) (w : nat) | gi_u3 (t p l : R) (w : nat)
| gi_rxx (t : R) (a b : nat) | gi_ryy (t : R) (a b : nat) | gi_rzz (t : R) (a b : nat)
| gi_cnot (c t : nat) | gi_cz (c t : nat) | gi_cphase (th : R) (c t : nat) | gi_cu3 (th p l : R) (c t : nat)
| gi_swap (a b : nat) | gi_toffoli (c1 c2 t : nat) | gi_mcx (cs : list nat) (t : nat).

Definition gi_wires (g : gi) : list nat :=
  match g with
  | gi_H w | gi_X w | gi_Y w | gi_Z w | gi_rx _ w | gi_ry _ w | gi_rz _ w | gi_u1 _ w | gi_u3 _ _ _ w => [w]
  | gi_rxx _ a b | gi_ryy _ a b | gi_rzz _ a b | gi_swap a b => [a; b]
  | gi_cnot c t | gi_cz c t | gi_cphase _ c t | gi_cu3 _ _ _ c t => [c; t]
  | gi_toffoli c1 c2 t => [c1; c2; t]
  | gi_mcx cs t => cs ++ [t]
  end.

(** distinct wires inside the register, and at least one control for the multi-controlled gate *)
Definition gi_ok (n : nat) (g : gi) : Prop :=
  good_wires n (gi_wires g) /\ match g with gi_mcx cs _ => cs <> [] | _ => True end.

(** its effect on the n-qubit register *)
Definition gi_op (n : nat) (g : gi) : qop :=
  match g with
  | gi_H w => lift H_op [w]
  | gi_X w => lift X_op [w]
  | gi_Y w => lift Y_op [w]
  | gi_Z w => lift Z_op [w]
  | gi_rx t w => lift (rx_op t) [w]
  | gi_ry t w => lift (ry_op t) [w]
  | gi_rz t w => lift (rz_op t) [w]
  | gi_u1 t w => lift (u1_op t) [w]
  | gi_u3 t p l w => lift (u3_op t p l) [w]
  | gi_rxx t a b => rpp_op X_op n t a b
  | gi_ryy t a b => rpp_op Y_op n t a b
  | gi_rzz t a b => rpp_op Z_op n t a b
  | gi_cnot c t => ctrl [c] (lift X_op [t])
  | gi_cz c t => ctrl [c] (lift Z_op [t])
  | gi_cphase th c t => ctrl [c] (lift (u1_op th) [t])
  | gi_cu3 th p l c t => ctrl [c] (lift (u3_op th p l) [t])
  | gi_swap a b => swap_op a b
  | gi_toffoli c1 c2 t => ctrl [c1; c2] (lift X_op [t])
  | gi_mcx cs t => ctrl cs (lift X_op [t])
  end.

(** the inverse gate *)
Definition gi_inv (g : gi) : gi :=
  match g with
  | gi_rx t w => gi_rx (- t) w
  | gi_ry t w => gi_ry (- t) w
  | gi_rz t w => gi_rz (- t) w
  | gi_u1 t w => gi_u1 (- t) w
  | gi_u3 t p l w => gi_u3 (- t) (- l) (- p) w
  | gi_rxx t a b => gi_rxx (- t) a b
  | gi_ryy t a b => gi_ryy (- t) a b
  | gi_rzz t a b => gi_rzz (- t) a b
  | gi_cphase th c t => gi_cphase (- th) c t
  | gi_cu3 th p l c t => gi_cu3 (- th) (- l) (- p) c t
  | g => g
  end.

(** the gates that can act on a matrix product state (qoperator.py: these classes have a TN_operation method) *)
Definition has_TN (g : gi) : bool :=
  match g with gi_rxx _ _ _ | gi_ryy _ _ _ | gi_rzz _ _ _ | gi_mcx _ _ => false | _ => true end.

(** multi_control_cnot, the one gate class without tensor-network methods *)
Definition is_mcx (g : gi) : bool := match g with gi_mcx _ _ => true | _ => false end.
