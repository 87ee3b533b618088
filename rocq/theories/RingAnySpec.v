(** Rings of cnots and entangling layers on any list of wires (C73).  Specification: uses no model function. *)
From Coq Require Import List ZArith Reals Arith.
From Verif Require Import Scalar CInst Spec GateSpec RunSpec LayerSpec LayerAnySpec.
Import ListNotations.

(** control and target of each cnot: every wire with the d-th next one, cyclically; two wires make a single cnot *)
Definition pairs (d : nat) (zs : list Z) : list (Z * Z) :=
  match zs with
  | [a; b] => [(a, b)]
  | _ => map (fun i => (nth i zs 0%Z, nth ((i + d) mod length zs) zs 0%Z)) (seq 0 (length zs))
  end.
(** two different qubits of the register *)
Definition good_pair (n : nat) (p : Z * Z) : Prop := (0 <= fst p < Z.of_nat n)%Z /\ (0 <= snd p < Z.of_nat n)%Z /\ fst p <> snd p.
Definition cnots (l : list (Z * Z)) : list gi := map (fun p => gi_cnot (Z.to_nat (fst p)) (Z.to_nat (snd p))) l.

Inductive ring_kind := RK | RKdag | RK2.
Definition step_of (k : ring_kind) : nat := match k with RK2 => 2 | _ => 1 end.
(** the cnots in the order in which they act *)
Definition ring_seq (k : ring_kind) (zs : list Z) : list gi :=
  match k with RKdag => rev (cnots (pairs 1 zs)) | _ => cnots (pairs (step_of k) zs) end.

(** [rep] times: a YZY layer with the next 3*|zs| angles, then a ring *)
Fixpoint entangle_op (n rep : nat) (zs : list Z) (ps : list R) : qop :=
  match rep with
  | 0 => id_op
  | S r => mul_op n (entangle_op n r zs (skipn (3 * length zs) ps))
             (mul_op n (gs_op n (ring_seq RK zs)) (each_qubit n (last_gate (map (qubit n) zs) (sg_gates (sg_rot KYZY ps) (length zs)))))
  end.
