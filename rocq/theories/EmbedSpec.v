(** What the encodings are supposed to produce.  Specification only: it uses no definition of the model. *)
From Coq Require Import List ZArith Reals Lra Lia Bool Arith String.
From Verif Require Import PyBase Scalar CInst BigSum Tensor Spec GateSpec RunSpec MeasSpec LayerSpec.
Import ListNotations.
Local Open Scope nat_scope.

Definition axis_name (a : axis) : string := match a with AX => "X" | AY => "Y" | AZ => "Z" end.

(** a rotation about axis a on every wire; the angles xs are used cyclically *)
Definition enc_gates (a : axis) (ws : list nat) (xs : list R) : list gi :=
  map (fun i => axis_gate a (nth (i mod List.length xs) xs 0%R) (nth i ws 0)) (seq 0 (List.length ws)).

(** Euclidean length of a vector *)
Definition vnorm (xs : list C) : R := sqrt (rsum xs Cnorm2).

(** xs divided by its length and padded with zeros, as a state *)
Definition padded (xs : list C) : qstate := fun b =>
  if bval b <? List.length xs then Cmul (RtoC (/ vnorm xs)) (nth (bval b) xs (RtoC 0)) else RtoC 0.

(** the one of z, -z with positive real part (on the imaginary axis: with non-negative imaginary part) *)
Definition right_half (z : C) : C :=
  if Rlt_dec 0 (Re z) then z else if Rlt_dec (Re z) 0 then Copp z else if Rlt_dec (Im z) 0 then Copp z else z.
