(** The constructor calls of the layers of one-qubit gates with any list of wires, e.g. [YZYLayer(n, zs, ps)]
    (deepquantum/layers/qlayers.py:116-130, 189-203, 265-279, 376-390, 455-469, 527-541, 595-604). *)
From Coq Require Import List ZArith Reals.
From Verif Require Import PyBase Scalar CInst Tensor LayerSpec QLayers LayerCalls LayerAnySpec.
Import ListNotations.

Definition sg_build (n : nat) (s : sg) (zs : list Z) : res layer :=
  match s with
  | sg_rot k ps => do o <- new_slayer (kind_cls k) (Z.of_nat n) zs ps; Ok (LS o)
  | sg_H => do o <- new_slayer HLayer (Z.of_nat n) zs []; Ok (LS o)
  end.
