(** Vocabulary for objects that occur several times (C76).  Specification: uses no model function. *)
From Coq Require Import List Reals Arith.
From Verif Require Import PyBase Scalar CInst Index Tensor Spec GateSpec RunSpec LayerSpec CircuitSpec.
Import ListNotations.
Local Close Scope R_scope.
Local Open Scope nat_scope.

(** operation r of the list xs of operations; the Hadamard stands for a missing one *)
Definition the_op (xs : list ci) (r : nat) : ci := nth r xs (CG (gi_H 0)).
(** the operations that the references refs name, in order *)
Definition meant (xs : list ci) (refs : list nat) : list ci := map (the_op xs) refs.
(** operation r with its i-th angle set to y *)
Definition with_angle (xs : list ci) (r i : nat) (y : R) : list ci := set_nth r (ci_with (the_op xs r) (set_at i y (ci_angles (the_op xs r)))) xs.
(** operations whose angles are given as a list, even when there is one: layers, u3 and cu3 *)
Definition takes_list (x : ci) : bool := match x with CL _ | CG (gi_u3 _ _ _ _ | gi_cu3 _ _ _ _ _) => true | _ => false end.
