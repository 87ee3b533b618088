(** Model of the module-level function Zmeasure of deepquantum/nn/modules/quanv.py, for an argument that is a Circuit. *)
From Coq Require Import List ZArith QArith Reals Bool Arith.
From Verif Require Import PyBase Scalar CInst Tensor QTN QOperator QGates GateCalls QCircuit.
Import ListNotations.
Local Close Scope Q_scope.
Local Close Scope R_scope.
Local Open Scope nat_scope.

(** quanv.py:18-25 Zmeasure; of the argument only the attribute nqubits is read *)
Definition circuit_Zmeasure (c : circuit) : res (list tensor) :=
  mmap (fun i => do g <- PauliZ (Z.of_nat (c_N c)) (WInt (Z.of_nat i)); U_expand g) (seq 0 (c_N c)).
