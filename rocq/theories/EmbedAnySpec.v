(** PauliEncoding on any list of wires, repeated or negative (C74): what each form computes.  Specification: uses no model function. *)
From Coq Require Import List ZArith Reals Arith.
From Verif Require Import Scalar CInst Spec GateSpec LayerSpec LayerAnySpec.
Import ListNotations.

(** the angles of L wires: the inputs, used cyclically *)
Definition enc_angles (xs : list R) (L : nat) : list R := map (fun i => nth (i mod length xs) xs 0%R) (seq 0 L).
(** the angle written last for qubit w; 0 if w is not listed *)
Definition last_angle (ws : list nat) (ts : list R) (w : nat) : R :=
  fold_left (fun t (wt : nat * R) => if fst wt =? w then snd wt else t) (combine ws ts) 0%R.
(** a rotation about axis a by its own angle on every qubit *)
Definition rotate_each (n : nat) (a : axis) (t : nat -> R) : qop := each_qubit n (fun w => axis_op a (t w)).
