(** What each layer of the library is supposed to do: the sequence of elementary gates it stands for.
    Specification: uses no model function. *)
From Coq Require Import List Reals Arith Bool.
From Verif Require Import Scalar CInst Spec GateSpec RunSpec.
Import ListNotations.

Inductive axis := AX | AY | AZ.
Definition axis_gate (a : axis) (t : R) (w : nat) : gi :=
  match a with AX => gi_rx t w | AY => gi_ry t w | AZ => gi_rz t w end.

(** its 2x2 matrix *)
Definition axis_op (a : axis) (t : R) : qop := match a with AX => rx_op t | AY => ry_op t | AZ => rz_op t end.

(** the rotation layers, named by the rotations in the order in which they act *)
Inductive rot_kind := KXYZ | KZYX | KYZY | KXZX | KXZ | KZX.
Definition kind_axes (k : rot_kind) : list axis :=
  match k with
  | KXYZ => [AX; AY; AZ] | KZYX => [AZ; AY; AX] | KYZY => [AY; AZ; AY]
  | KXZX => [AX; AZ; AX] | KXZ => [AX; AZ] | KZX => [AZ; AX]
  end.

(** rotations about [axes] on every wire, taking the angles from the list in order *)
Fixpoint rot_gates (axes : list axis) (ws : list nat) (ps : list R) : list gi :=
  match ws with
  | [] => []
  | w :: ws' => map (fun ap => axis_gate (fst ap) (snd ap) w) (combine axes ps) ++ rot_gates axes ws' (skipn (length axes) ps)
  end.

(** cnots from every wire to the d-th next one, cyclically; with two wires only the first *)
Definition ring_gates (d : nat) (ws : list nat) : list gi :=
  match ws with
  | [a; b] => [gi_cnot a b]
  | _ => map (fun i => gi_cnot (nth i ws 0) (nth ((i + d) mod length ws) ws 0)) (seq 0 (length ws))
  end.

(** [rep] times: a YZY layer with the next 3*|ws| angles, then a ring *)
Fixpoint basic_gates (rep : nat) (ws : list nat) (ps : list R) : list gi :=
  match rep with
  | 0 => []
  | S r => rot_gates (kind_axes KYZY) ws ps ++ ring_gates 1 ws ++ basic_gates r ws (skipn (3 * length ws) ps)
  end.

(** one layer placed on a register *)
Inductive li :=
| li_rot (k : rot_kind) (ws : list nat) (ps : list R)
| li_H (ws : list nat)
| li_ring (ws : list nat) | li_ring_dag (ws : list nat) | li_ring2 (ws : list nat)
| li_basic (rep : nat) (ws : list nat) (ps : list R).

(** distinct wires inside the register, and as many angles as rotations *)
Definition li_ok (n : nat) (l : li) : Prop :=
  match l with
  | li_rot k ws ps => good_wires n ws /\ length ps = length (kind_axes k) * length ws
  | li_H ws => good_wires n ws
  | li_ring ws | li_ring_dag ws | li_ring2 ws => good_wires n ws /\ 2 <= length ws
  | li_basic rep ws ps => good_wires n ws /\ 2 <= length ws /\ 1 <= rep /\ length ps = 3 * length ws * rep
  end.

Definition li_gates (l : li) : list gi :=
  match l with
  | li_rot k ws ps => rot_gates (kind_axes k) ws ps
  | li_H ws => map gi_H ws
  | li_ring ws => ring_gates 1 ws
  | li_ring_dag ws => rev (ring_gates 1 ws)
  | li_ring2 ws => ring_gates 2 ws
  | li_basic rep ws ps => basic_gates rep ws ps
  end.

(** the layers with an inverse layer in the library *)
Definition has_inverse (l : li) : bool := match l with li_ring2 _ | li_basic _ _ _ => false | _ => true end.

(** the same layer with other angles *)
Definition li_set (l : li) (ps : list R) : li :=
  match l with li_rot k ws _ => li_rot k ws ps | li_basic rep ws _ => li_basic rep ws ps | l => l end.

(** its effect on the register *)
Definition li_op (n : nat) (l : li) : qop := gs_op n (li_gates l).

(** the layers whose tensor-network methods accept this call: a ring must cover the whole register in order *)
Definition li_TN (n : nat) (l : li) : bool :=
  match l with
  | li_rot _ _ _ | li_H _ => true
  | li_ring ws | li_ring_dag ws => if list_eq_dec Nat.eq_dec ws (seq 0 n) then true else false
  | li_ring2 _ | li_basic _ _ _ => false
  end.
