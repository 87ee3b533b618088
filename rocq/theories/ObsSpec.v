(** Observables.  Specification: uses no model function. *)
From Coq Require Import List Reals.
From Verif Require Import Scalar CInst Spec MeasSpec.
Import ListNotations.
Local Open Scope R_scope.

(** a A + b B *)
Definition mix (a : R) (A : qop) (b : R) (B : qop) : @qop C_scalar := add_op (scale_op (RtoC a) A) (scale_op (RtoC b) B).
(** the real part of <h|M|h> lies between lo and hi times the squared length of h, for every h; for a self-adjoint M this says that its eigenvalues lie between lo and hi *)
Definition values_in (n : nat) (lo hi : R) (M : @qop C_scalar) : Prop :=
  forall h, lo * norm2 n h <= Re (inner n h (act n M h)) <= hi * norm2 n h.
