(** The constructor calls of the rings and of BasicEntangleLayer with any list of wires
    (deepquantum/layers/qlayers.py:638-653, 794-806, 901-912, 974-997). *)
From Coq Require Import List ZArith Reals.
From Verif Require Import PyBase Scalar CInst Tensor LayerSpec QLayers LayerCalls LayerAnySpec RingAnySpec.
Import ListNotations.

Definition ring_build (k : ring_kind) (n : nat) (zs : list Z) : res layer :=
  do r <- new_ring (Z.of_nat n) zs; Ok (match k with RK => LRing r | RKdag => LRingDag r | RK2 => LRing2 r end).
Definition basic_build (n : nat) (zs : list Z) (ps : list R) (rep : nat) : res layer :=
  do b <- new_basic (Z.of_nat n) zs ps (Z.of_nat rep); Ok (LBasic b).
