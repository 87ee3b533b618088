(** Sizes of matrix product states.  Specification: uses no model function. *)
From Coq Require Import List Arith.
From Verif Require Import PyBase Scalar Tensor Spec MPSSpec.
Import ListNotations.

Section BondSpec.
  Context {SC : Scalar}.
  (** no bond is larger than the smaller of the two state spaces it connects: 2^(i+1) on its left, 2^(n-i-1) on its right *)
  Definition fits (n : nat) (l : list tensor) : Prop := forall i, S i < n -> bond l i <= Nat.min (2 ^ S i) (2 ^ (n - S i)).
  (** every site tensor has at most as many entries as the state vector *)
  Definition small_sites (n : nat) (l : list tensor) : Prop := forall t, In t l -> length (data t) <= 2 ^ n.
End BondSpec.

From Verif Require Import GateSpec LayerSpec CircuitSpec.
(** the operation does not act across the cut between qubits i and i+1: a gate with all wires on one side, or a layer of one-qubit gates *)
Definition one_side (i : nat) (c : ci) : Prop :=
  match c with
  | CG g => (forall w, In w (gi_wires g) -> w <= i) \/ (forall w, In w (gi_wires g) -> i < w)
  | CL (li_rot _ _ _) | CL (li_H _) => True
  | CL _ => False
  end.
