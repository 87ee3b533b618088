(** The constructor call that places a gate on a register of N qubits: what the methods of Circuit
    (deepquantum/gates/qcircuit.py:169-227) execute, e.g. [rx(theta, self.nqubits, wires)]. *)
From Coq Require Import List ZArith Reals.
From Verif Require Import PyBase Scalar CInst Tensor Spec QTN QOperator GateSpec QGates.
Import ListNotations.

Definition zi (w : nat) : pywires := WInt (Z.of_nat w).
Definition zl (ws : list nat) : pywires := WList (map Z.of_nat ws).

Definition build (n : nat) (g : gi) : res gate :=
  let N := Z.of_nat n in
  match g with
  | gi_H w => Hadamard N (zi w)
  | gi_X w => PauliX N (zi w)
  | gi_Y w => PauliY N (zi w)
  | gi_Z w => PauliZ N (zi w)
  | gi_rx t w => rx t N (zi w)
  | gi_ry t w => ry t N (zi w)
  | gi_rz t w => rz t N (zi w)
  | gi_u1 t w => u1 t N (zi w)
  | gi_u3 t p l w => u3 [t; p; l] N (zi w)
  | gi_rxx t a b => rxx t N (zl [a; b])
  | gi_ryy t a b => ryy t N (zl [a; b])
  | gi_rzz t a b => rzz t N (zl [a; b])
  | gi_cnot c t => cnot N (zl [c; t])
  | gi_cz c t => cz N (zl [c; t])
  | gi_cphase th c t => cphase th N (zl [c; t])
  | gi_cu3 th p l c t => cu3 [th; p; l] N (zl [c; t])
  | gi_swap a b => SWAP N (zl [a; b])
  | gi_toffoli c1 c2 t => toffoli N (zl [c1; c2; t])
  | gi_mcx cs t => multi_control_cnot N (zl (cs ++ [t]))
  end.

(** every gate object a caller can construct, with whatever number of qubits and wires *)
Inductive constructed : gate -> Prop :=
| con_H N w g : Hadamard N w = Ok g -> constructed g
| con_X N w g : PauliX N w = Ok g -> constructed g
| con_Y N w g : PauliY N w = Ok g -> constructed g
| con_Z N w g : PauliZ N w = Ok g -> constructed g
| con_rx t N w g : rx t N w = Ok g -> constructed g
| con_ry t N w g : ry t N w = Ok g -> constructed g
| con_rz t N w g : rz t N w = Ok g -> constructed g
| con_u1 t N w g : u1 t N w = Ok g -> constructed g
| con_u3 l N w g : u3 l N w = Ok g -> constructed g
| con_rxx t N w g : rxx t N w = Ok g -> constructed g
| con_ryy t N w g : ryy t N w = Ok g -> constructed g
| con_rzz t N w g : rzz t N w = Ok g -> constructed g
| con_cnot N w g : cnot N w = Ok g -> constructed g
| con_cz N w g : cz N w = Ok g -> constructed g
| con_cphase t N w g : cphase t N w = Ok g -> constructed g
| con_cu3 l N w g : cu3 l N w = Ok g -> constructed g
| con_SWAP N w g : SWAP N w = Ok g -> constructed g
| con_toffoli N w g : toffoli N w = Ok g -> constructed g
| con_mcx N w g : multi_control_cnot N w = Ok g -> constructed g.

(** classes by the number of wires *)
Definition one_qubit_cls (c : gcls) : bool :=
  match c with
  | cHadamard | cPauliX | cPauliY | cPauliZ | crx | cry | crz | cu1 | cu3s => true
  | _ => false
  end.
Definition controlled_cls (c : gcls) : bool :=
  match c with ccnot | ccz | ccphase | ccu3 => true | _ => false end.

(** the same call with other parameters, as given to [params_update]: a number for the one-angle gates, three numbers
    for u3 and cu3, anything for the gates without parameters (their params_update does nothing); [None] when the
    argument does not have the right form *)
Definition gi_set (g : gi) (p : pval) : option gi :=
  match g, p with
  | gi_rx _ w, PS t => Some (gi_rx t w)
  | gi_ry _ w, PS t => Some (gi_ry t w)
  | gi_rz _ w, PS t => Some (gi_rz t w)
  | gi_u1 _ w, PS t => Some (gi_u1 t w)
  | gi_u3 _ _ _ w, PV [t; p; l] => Some (gi_u3 t p l w)
  | gi_rxx _ a b, PS t => Some (gi_rxx t a b)
  | gi_ryy _ a b, PS t => Some (gi_ryy t a b)
  | gi_rzz _ a b, PS t => Some (gi_rzz t a b)
  | gi_cphase _ c t, PS th => Some (gi_cphase th c t)
  | gi_cu3 _ _ _ c t, PV [th; p; l] => Some (gi_cu3 th p l c t)
  | gi_rx _ _, _ | gi_ry _ _, _ | gi_rz _ _, _ | gi_u1 _ _, _ | gi_u3 _ _ _ _, _ | gi_rxx _ _ _, _ | gi_ryy _ _ _, _ | gi_rzz _ _ _, _
  | gi_cphase _ _ _, _ | gi_cu3 _ _ _ _ _, _ => None
  | g, _ => Some g
  end.

(** a sequence of updates *)
Fixpoint gi_sets (g : gi) (ps : list pval) : option gi :=
  match ps with
  | [] => Some g
  | p :: ps' => match gi_set g p with Some g' => gi_sets g' ps' | None => None end
  end.

(** the i-th state of a batch: [u] is the rank-n tensor t[i] *)
Definition sample (n i : nat) (t u : tensor) : Prop := is_state n (repeat 2 n) u (fun b => tget t (i :: b)).

(** every call form of a one-qubit gate on wire w, with the 2x2 operator it stands for; of a controlled gate, with the
    operator applied to the target; of a two-qubit rotation, with the Pauli operator it rotates about *)
Definition one_qubit_calls (n w : nat) (th ph la : R) : list (res gate * qop) :=
  let N := Z.of_nat n in let W := WInt (Z.of_nat w) in
  [(Hadamard N W, H_op); (PauliX N W, X_op); (PauliY N W, Y_op); (PauliZ N W, Z_op);
   (rx th N W, rx_op th); (ry th N W, ry_op th); (rz th N W, rz_op th);
   (u1 th N W, u1_op th); (u3 [th; ph; la] N W, u3_op th ph la)].
Definition controlled_calls (n c t : nat) (th ph la : R) : list (res gate * qop) :=
  let N := Z.of_nat n in let W := WList [Z.of_nat c; Z.of_nat t] in
  [(cnot N W, X_op); (cz N W, Z_op); (cphase th N W, u1_op th); (cu3 [th; ph; la] N W, u3_op th ph la)].
Definition rotation2_calls (n a b : nat) (th : R) : list (res gate * qop) :=
  let N := Z.of_nat n in let W := WList [Z.of_nat a; Z.of_nat b] in
  [(rxx th N W, X_op); (ryy th N W, Y_op); (rzz th N W, Z_op)].
