(** How the error of a truncated evolution is counted.  Specification: uses no model function. *)
From Coq Require Import List Arith.
From Verif Require Import GateSpec CircuitSpec.
Import ListNotations.

(** the distance between the outermost wires of a gate *)
Definition reach (ws : list nat) : nat := fold_right Nat.max 0 ws - fold_right Nat.min (hd 0 ws) ws.
(** 0 for a gate on one wire, 1 for neighbours, 2 d - 1 for a gate whose outermost wires are d apart *)
Definition moves (gs : list gi) : nat := list_sum (map (fun g => 2 * reach (gi_wires g) - 1) gs).
Definition ci_moves (cs : list ci) : nat := moves (flat_map ci_gates cs).
