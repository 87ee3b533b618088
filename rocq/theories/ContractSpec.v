(** Vocabulary for contraction with wires outside 0..N-1 (C59). *)
From Coq Require Import List ZArith Bool.
From Verif Require Import PyBase CInst Tensor QOperator QGates.
Import ListNotations.

(** the same gate on other wires, and on another number of qubits *)
Definition on_wires (g : gate) (w : pywires) : gate := mkG (g_cls g) (g_N g) w (g_params g) (g_matrix g) (g_umatrix g).
Definition on_register (g : gate) (N : Z) (w : pywires) : gate := mkG (g_cls g) N w (g_params g) (g_matrix g) (g_umatrix g).
(** how many wires a contraction of a gate on more than one qubit reads *)
Definition wires_read (c : gcls) : option nat :=
  match c with
  | crxx | cryy | crzz | ccnot | ccz | ccphase | ccu3 | cSWAP => Some 2
  | ctoffoli => Some 3
  | _ => None
  end.
