(** How far two lists of angles are apart.  Specification: uses no model function. *)
From Coq Require Import List Reals.
Import ListNotations.
Local Open Scope R_scope.

(** the sum of the changes of all angles *)
Fixpoint total_change (u v : list R) : R :=
  match u, v with
  | x :: u', y :: v' => Rabs (x - y) + total_change u' v'
  | _, _ => 0
  end.
(** the change that the slopes g predict when the angles go from u to v *)
Fixpoint predicted (g u v : list R) : R :=
  match g, u, v with
  | a :: g', x :: u', y :: v' => a * (y - x) + predicted g' u' v'
  | _, _, _ => 0
  end.
(** one step of gradient descent with learning rate e *)
Definition descend (e : R) (u g : list R) : list R := map (fun p => fst p - e * snd p) (combine u g).
(** the sum of the squares *)
Definition sum_sq (g : list R) : R := fold_right (fun a s => a * a + s) 0 g.
(** the angles after i steps of descent, when gs lists the slopes used at each step *)
Definition after_steps (e : R) (u : list R) (gs : list (list R)) (i : nat) : list R := fold_left (descend e) (firstn i gs) u.
