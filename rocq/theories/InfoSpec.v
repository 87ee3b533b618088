(** How a caller reads the dict returned by [info()]: which gates, on which wires, with which angles, in which order.
    Specification: uses no model function, only the types of the values in the dict. *)
From Coq Require Import List ZArith Reals Bool Arith String DecimalString.
From Verif Require Import PyBase Scalar CInst Spec QOperator QGates GateSpec RunSpec LayerSpec QInfo.
Import ListNotations.

(** a decimal numeral *)
Definition numeral (n : nat) : string := NilZero.string_of_uint (Nat.to_uint n).

(** what a label means, given the controls, the targets and the parameters *)
Definition meaning := list nat -> list nat -> option pval -> option (list gi).
Definition plain (f : nat -> gi) : meaning := fun cs ts ps => match cs, ts, ps with [], [w], None => Some [f w] | _, _, _ => None end.
Definition turn (f : R -> nat -> gi) : meaning := fun cs ts ps => match cs, ts, ps with [], [w], Some (PS t) => Some [f t w] | _, _, _ => None end.
Definition turn3 (f : R -> R -> R -> nat -> gi) : meaning := fun cs ts ps =>
  match cs, ts, ps with [], [w], Some (PV [t; p; l]) => Some [f t p l w] | _, _, _ => None end.
Definition two (f : nat -> nat -> gi) : meaning := fun cs ts ps => match cs, ts, ps with [], [a; b], None => Some [f a b] | _, _, _ => None end.
Definition two_turn (f : R -> nat -> nat -> gi) : meaning := fun cs ts ps =>
  match cs, ts, ps with [], [a; b], Some (PS t) => Some [f t a b] | _, _, _ => None end.
Definition control (f : nat -> nat -> gi) : meaning := fun cs ts ps => match cs, ts, ps with [c], [t], None => Some [f c t] | _, _, _ => None end.
Definition control_turn (f : R -> nat -> nat -> gi) : meaning := fun cs ts ps =>
  match cs, ts, ps with [c], [t], Some (PS x) => Some [f x c t] | _, _, _ => None end.
Definition control_turn3 (f : R -> R -> R -> nat -> nat -> gi) : meaning := fun cs ts ps =>
  match cs, ts, ps with [c], [t], Some (PV [x; p; l]) => Some [f x p l c t] | _, _, _ => None end.
Definition control2 (f : nat -> nat -> nat -> gi) : meaning := fun cs ts ps =>
  match cs, ts, ps with [c; d], [t], None => Some [f c d t] | _, _, _ => None end.
(** rotations on every target, the angles of the first wire first *)
Definition rotations (axes : list axis) : meaning := fun cs ts ps =>
  match cs, ps with [], Some (PV l) => Some (rot_gates axes ts l) | _, _ => None end.
Definition every (f : nat -> gi) : meaning := fun cs ts ps => match cs, ps with [], None => Some (map f ts) | _, _ => None end.
(** one cnot from each control to the target at the same place of the lists, the first ones first *)
Definition cnots : meaning := fun cs ts ps =>
  match ps with None => Some (map (fun ct => gi_cnot (fst ct) (snd ct)) (combine cs ts)) | _ => None end.
(** the same, the last ones first *)
Definition cnots_back : meaning := fun cs ts ps => match cnots cs ts ps with Some gs => Some (rev gs) | None => None end.
(** rotations and a ring, as often as there are three angles per wire *)
Definition entangle : meaning := fun cs ts ps =>
  match cs, ps with [], Some (PV l) => Some (basic_gates (List.length l / (3 * List.length ts)) ts l) | _, _ => None end.

Definition labels : list (string * meaning) := [
  ("Hadamard", plain gi_H); ("PauliX", plain gi_X); ("PauliY", plain gi_Y); ("PauliZ", plain gi_Z);
  ("Rx", turn gi_rx); ("Ry", turn gi_ry); ("Rz", turn gi_rz); ("u1", turn gi_u1); ("u3", turn3 gi_u3);
  ("Rxx", two_turn gi_rxx); ("Ryy", two_turn gi_ryy); ("Rzz", two_turn gi_rzz);
  ("cnot", control gi_cnot); ("cz", control gi_cz); ("cphase", control_turn gi_cphase); ("cu3", control_turn3 gi_cu3);
  ("SWAP", two gi_swap); ("toffoli", control2 gi_toffoli);
  ("XYZLayer", rotations [AX; AY; AZ]); ("ZYXLayer", rotations [AZ; AY; AX]); ("YZYLayer", rotations [AY; AZ; AY]);
  ("XZXLayer", rotations [AX; AZ; AX]); ("XZLayer", rotations [AX; AZ]); ("ZXLayer", rotations [AZ; AX]);
  ("HadamardLayer", every gi_H);
  ("ring_of_cnot_Layer", cnots); ("ring_of_cnot_dagger", cnots_back); ("ring_of_cnot2_Layer", cnots);
  ("BasicEntangleLayer", entangle)]%string.

Fixpoint find_label (s : string) (l : list (string * meaning)) : option meaning :=
  match l with
  | [] => None
  | (t, m) :: l' => if String.eqb s t then Some m else find_label s l'
  end.

(** the meaning of a label: one of the list, or the number of controls followed by _control_cnot *)
Definition read_label (s : string) : meaning :=
  match find_label s labels with
  | Some m => m
  | None => fun cs ts ps =>
      match ts, ps with
      | [t], None => if String.eqb s (String.append (numeral (List.length cs)) "_control_cnot") then Some [gi_mcx cs t] else None
      | _, _ => None
      end
  end.

(** wires are non-negative integers *)
Definition wire_nat (w : pywires) : option nat := match w with WInt z => if (0 <=? z)%Z then Some (Z.to_nat z) else None | WList _ => None end.
Fixpoint wire_nats (l : list pywires) : option (list nat) :=
  match l with
  | [] => Some []
  | w :: l' => match wire_nat w, wire_nats l' with Some x, Some r => Some (x :: r) | _, _ => None end
  end.

(** the gates a description stands for *)
Definition read_info (i : info_t) : option (list gi) :=
  match wire_nats (i_contral i), wire_nats (i_target i) with
  | Some cs, Some ts => read_label (i_label i) cs ts (i_params i)
  | _, _ => None
  end.

(** the gates a list of descriptions stands for, in order *)
Fixpoint read_infos (l : list info_t) : option (list gi) :=
  match l with
  | [] => Some []
  | i :: l' => match read_info i, read_infos l' with Some a, Some b => Some (a ++ b) | _, _ => None end
  end.
