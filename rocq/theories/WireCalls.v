(** The constructor calls of the gates on two wires (deepquantum/gates/qoperator.py: rxx 611, ryy 744, rzz 880, cnot 1014, cz 1233, cphase 1381,
    cu3 1539, SWAP 1716) with arbitrary wires. *)
From Coq Require Import List ZArith Reals.
From Verif Require Import PyBase Scalar CInst Tensor QOperator QGates.
Import ListNotations.

Definition two_wire_calls (N : Z) (w : pywires) (th ph la : R) : list (res gate) :=
  [rxx th N w; ryy th N w; rzz th N w; cnot N w; cz N w; cphase th N w; cu3 [th; ph; la] N w; SWAP N w].
