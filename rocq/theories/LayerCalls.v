(** The constructor calls that place a layer on a register of N qubits: what the layer methods of Circuit
    (deepquantum/gates/qcircuit.py:229-254) execute, e.g. [YZYLayer(self.nqubits, wires, params)]. *)
From Coq Require Import List ZArith Reals.
From Verif Require Import PyBase Scalar CInst Tensor Spec QTN QOperator GateSpec QGates GateCalls LayerSpec QLayers.
Import ListNotations.

(** the class of a rotation layer *)
Definition kind_cls (k : rot_kind) : skind :=
  match k with
  | KXYZ => XYZLayer | KZYX => ZYXLayer | KYZY => YZYLayer | KXZX => XZXLayer | KXZ => XZLayer | KZX => ZXLayer
  end.

Definition lbuild (n : nat) (l : li) : res layer :=
  let N := Z.of_nat n in
  match l with
  | li_rot k ws ps => do s <- new_slayer (kind_cls k) N (map Z.of_nat ws) ps; Ok (LS s)
  | li_H ws => do s <- new_slayer HLayer N (map Z.of_nat ws) []; Ok (LS s)
  | li_ring ws => do r <- new_ring N (map Z.of_nat ws); Ok (LRing r)
  | li_ring_dag ws => do r <- new_ring N (map Z.of_nat ws); Ok (LRingDag r)
  | li_ring2 ws => do r <- new_ring N (map Z.of_nat ws); Ok (LRing2 r)
  | li_basic rep ws ps => do b <- new_basic N (map Z.of_nat ws) ps (Z.of_nat rep); Ok (LBasic b)
  end.
