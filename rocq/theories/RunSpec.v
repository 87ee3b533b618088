(** Sequences of gates.  Specification: uses no model function. *)
From Coq Require Import List Reals Arith.
From Verif Require Import Scalar CInst Spec GateSpec.
Import ListNotations.

(** the ordered product ... g_3 g_2 g_1: the first gate of the list acts first *)
Definition gs_op (n : nat) (gs : list gi) : qop := fold_left (fun A g => mul_op n (gi_op n g) A) gs id_op.
