(** The operations that have an inverse in the library.  Specification: uses no model function. *)
From Coq Require Import List.
From Verif Require Import GateSpec LayerSpec CircuitSpec.
Definition invertible (c : ci) : bool := match c with CG _ => true | CL l => has_inverse l end.
