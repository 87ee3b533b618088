(** Wires an operation was given, circuits that stay away from some wires.  Specification: uses no model function. *)
From Coq Require Import List Reals Arith.
From Verif Require Import GateSpec LayerSpec CircuitSpec.
Import ListNotations.

Definition li_wires (l : li) : list nat :=
  match l with li_rot _ ws _ | li_H ws | li_ring ws | li_ring_dag ws | li_ring2 ws | li_basic _ ws _ => ws end.
Definition ci_wires (c : ci) : list nat := match c with CG g => gi_wires g | CL l => li_wires l end.
(** all wires of all operations are in ws / none is in ws *)
Definition within (ws : list nat) (cs : list ci) : Prop := forall c w, In c cs -> In w (ci_wires c) -> In w ws.
Definition apart (ws : list nat) (cs : list ci) : Prop := forall c w, In c cs -> In w (ci_wires c) -> ~ In w ws.
