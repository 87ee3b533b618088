(** A circuit seen as a function of one of its angles.  Specification: uses no model function. *)
From Coq Require Import List Reals.
From Verif Require Import Scalar CInst Spec GateSpec LayerSpec CircuitSpec.
Import ListNotations.
Local Open Scope R_scope.

(** the circuit cs1, c, cs2 with the i-th angle of c replaced by x *)
Definition one_angle (cs1 : list ci) (c : ci) (cs2 : list ci) (i : nat) (x : R) : list ci := cs1 ++ ci_with c (set_at i x (ci_angles c)) :: cs2.

(** E is the sinusoid of period 2 pi through its values at 0, pi/2 and pi *)
Definition middle (E : R -> R) : R := (E 0 + E PI) / 2.
Definition sinusoid (E : R -> R) : Prop := forall x, E x = middle E + (E 0 - E PI) / 2 * cos x + (E (PI / 2) - middle E) * sin x.
(** its amplitude *)
Definition amplitude (E : R -> R) : R := sqrt (Rsqr ((E 0 - E PI) / 2) + Rsqr (E (PI / 2) - middle E)).

(** the difference quotient with four evaluations *)
Definition four_term (E : R -> R) (x : R) : R :=
  (sqrt 2 + 1) / (4 * sqrt 2) * (E (x + PI / 2) - E (x - PI / 2)) - (sqrt 2 - 1) / (4 * sqrt 2) * (E (x + 3 * (PI / 2)) - E (x - 3 * (PI / 2))).
