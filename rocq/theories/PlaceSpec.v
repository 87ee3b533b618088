(** A circuit written for the wires 0, ..., k-1, moved to the wires ws of a larger register: wire i becomes the i-th element of ws.
    Specification: uses no model function. *)
From Coq Require Import List Reals Arith.
From Verif Require Import GateSpec LayerSpec CircuitSpec.
Import ListNotations.

Definition move_gate (f : nat -> nat) (g : gi) : gi :=
  match g with
  | gi_H w => gi_H (f w) | gi_X w => gi_X (f w) | gi_Y w => gi_Y (f w) | gi_Z w => gi_Z (f w)
  | gi_rx t w => gi_rx t (f w) | gi_ry t w => gi_ry t (f w) | gi_rz t w => gi_rz t (f w)
  | gi_u1 t w => gi_u1 t (f w) | gi_u3 t p l w => gi_u3 t p l (f w)
  | gi_rxx t a b => gi_rxx t (f a) (f b) | gi_ryy t a b => gi_ryy t (f a) (f b) | gi_rzz t a b => gi_rzz t (f a) (f b)
  | gi_cnot a b => gi_cnot (f a) (f b) | gi_cz a b => gi_cz (f a) (f b)
  | gi_cphase t a b => gi_cphase t (f a) (f b) | gi_cu3 t p l a b => gi_cu3 t p l (f a) (f b)
  | gi_swap a b => gi_swap (f a) (f b) | gi_toffoli a b c => gi_toffoli (f a) (f b) (f c)
  | gi_mcx cs t => gi_mcx (map f cs) (f t)
  end.
Definition move_layer (f : nat -> nat) (l : li) : li :=
  match l with
  | li_rot k ws ps => li_rot k (map f ws) ps
  | li_H ws => li_H (map f ws)
  | li_ring ws => li_ring (map f ws) | li_ring_dag ws => li_ring_dag (map f ws) | li_ring2 ws => li_ring2 (map f ws)
  | li_basic rep ws ps => li_basic rep (map f ws) ps
  end.
Definition move (ws : list nat) (c : ci) : ci :=
  let f := fun i => nth i ws 0 in match c with CG g => CG (move_gate f g) | CL l => CL (move_layer f l) end.
