(** Layers of one-qubit gates on any list of wires, repeated or negative (C72): what each form computes.
    Specification: uses no model function. *)
From Coq Require Import List ZArith Reals Arith.
From Verif Require Import Scalar CInst Spec GateSpec MPSSpec LayerSpec.
Import ListNotations.

(** a layer of one-qubit gates without its wires: three or two rotations with the angles of the list in order, or H *)
Inductive sg := sg_rot (k : rot_kind) (ps : list R) | sg_H.
(** as many angles as rotations for [L] entries *)
Definition sg_angles (s : sg) (L : nat) : Prop := match s with sg_rot k ps => length ps = length (kind_axes k) * L | sg_H => True end.
(** the gate of the i-th entry of the list of wires *)
Definition sg_gate (s : sg) (i : nat) : qop :=
  match s with
  | sg_rot k ps => fold_left (fun A ap => mul_op 1 (axis_op (fst ap) (snd ap)) A) (combine (kind_axes k) (skipn (length (kind_axes k) * i) ps)) id_op
  | sg_H => H_op
  end.
Definition sg_gates (s : sg) (L : nat) : list qop := map (sg_gate s) (seq 0 L).

(** the qubit meant by wire [z] of a register of n qubits, and the dimension meant by it in a tensor with a leading batch dimension:
    0 is the batch *)
Definition qubit (n : nat) (z : Z) : nat := Z.to_nat (z mod Z.of_nat n).
Definition batch_dim (n : nat) (z : Z) : nat := Z.to_nat ((z + 1) mod Z.of_nat (S n)).
Definition in_register (n : nat) (z : Z) : Prop := (- Z.of_nat n <= z < Z.of_nat n)%Z.

(** the gate written last for qubit w; the identity if w is not listed *)
Definition last_gate (ws : list nat) (Gs : list qop) (w : nat) : qop :=
  fold_left (fun A (wg : nat * qop) => if fst wg =? w then snd wg else A) (combine ws Gs) id_op.
Fixpoint pow_op (m : nat) (A : qop) : qop := match m with 0 => id_op | S m' => mul_op 1 (pow_op m' A) A end.

(** one operator on every qubit *)
Definition each_qubit (n : nat) (F : nat -> qop) : qop := obs_op n (seq 0 n) (map F (seq 0 n)).
