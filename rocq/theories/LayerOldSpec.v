(** Specification for the functions of layers/qlayer.py: the calls a user can make and which of them are documented as valid. *)
From Coq Require Import List ZArith Reals Bool Arith String Ascii.
From Verif Require Import PyBase Scalar CInst BigSum Tensor Spec GateSpec RunSpec LayerSpec.
Import ListNotations.
Local Close Scope R_scope.
Local Open Scope Z_scope.

(** a call; N is the number of qubits, ps the parameters, the boolean is up2down, the string single_gate *)
Inductive old_call :=
| oc_XYZLayer (N : Z) (ps : list R) | oc_YZYLayer (N : Z) (ps : list R) | oc_XZXLayer (N : Z) (ps : list R) | oc_XZLayer (N : Z) (ps : list R)
| oc_HLayer (N : Z)
| oc_ring_of_cnot (N : Z) (up2down : bool) | oc_ring_of_cnot2 (N : Z) (up2down : bool) | oc_ring_of_cz (N : Z) (up2down : bool)
| oc_nearest_neighbor_cnot (N : Z) (up2down : bool) | oc_nearest_neighbor_cz (N : Z) (up2down : bool) | oc_all2all_cnot (N : Z) (up2down : bool)
| oc_basic_entangle_layer (N : Z) (ps : list R) (single_gate : string)
| oc_basic_entangle_layer2 (N : Z) (ps : list R) (single_gate : string)
| oc_strong_entangle_layer (N : Z) (ps : list R) (single_gate : string)
| oc_RxxLayer (N : Z) (ps : list R) | oc_RyyLayer (N : Z) (ps : list R) | oc_RzzLayer (N : Z) (ps : list R).

(** the number of angles per qubit of an entangling layer *)
Definition gate_angles (single_gate : string) : option Z :=
  if existsb (String.eqb single_gate) ["YZY"; "XZX"; "XYZ"]%string then Some 3 else if String.eqb single_gate "XZ" then Some 2 else None.

(** enough qubits and the documented number of parameters *)
Definition old_valid (c : old_call) : Prop :=
  match c with
  | oc_XYZLayer N ps | oc_YZYLayer N ps | oc_XZXLayer N ps => 1 <= N /\ Z.of_nat (List.length ps) = 3 * N
  | oc_XZLayer N ps => 1 <= N /\ Z.of_nat (List.length ps) = 2 * N
  | oc_HLayer N => 1 <= N
  | oc_ring_of_cnot N _ | oc_ring_of_cnot2 N _ | oc_ring_of_cz N _ | oc_nearest_neighbor_cnot N _ | oc_nearest_neighbor_cz N _ | oc_all2all_cnot N _ => 2 <= N
  | oc_basic_entangle_layer N ps g => 2 <= N /\ exists w, gate_angles g = Some w /\ Z.of_nat (List.length ps) = w * N
  | oc_basic_entangle_layer2 N ps g | oc_strong_entangle_layer N ps g => 2 <= N /\ exists w, gate_angles g = Some w /\ Z.of_nat (List.length ps) = 2 * w * N
  | oc_RxxLayer N ps | oc_RyyLayer N ps | oc_RzzLayer N ps => 2 <= N /\ Z.of_nat (List.length ps) = N - 1
  end.
(** the layers made of CNOT or CZ gates only *)
Definition only_controlled (c : old_call) : bool :=
  match c with
  | oc_ring_of_cnot _ _ | oc_ring_of_cnot2 _ _ | oc_ring_of_cz _ _ | oc_nearest_neighbor_cnot _ _ | oc_nearest_neighbor_cz _ _ | oc_all2all_cnot _ _ => true
  | _ => false
  end.

(** ** what the functions are documented to return *)
Local Open Scope nat_scope.

Definition old_qubits (c : old_call) : nat :=
  match c with
  | oc_XYZLayer N _ | oc_YZYLayer N _ | oc_XZXLayer N _ | oc_XZLayer N _ | oc_HLayer N
  | oc_ring_of_cnot N _ | oc_ring_of_cnot2 N _ | oc_ring_of_cz N _ | oc_nearest_neighbor_cnot N _ | oc_nearest_neighbor_cz N _ | oc_all2all_cnot N _
  | oc_basic_entangle_layer N _ _ | oc_basic_entangle_layer2 N _ _ | oc_strong_entangle_layer N _ _
  | oc_RxxLayer N _ | oc_RyyLayer N _ | oc_RzzLayer N _ => Z.to_nat N
  end.

(** (control, target) in the order in which the gates act, for up2down=True; two qubits: a single gate *)
Definition ring_pairs (d n : nat) : list (nat * nat) := if n =? 2 then [(0, 1)] else map (fun i => (i, (i + d) mod n)) (seq 0 n).
Definition nearest_pairs (n : nat) : list (nat * nat) := map (fun i => (i, i + 1)) (filter Nat.even (seq 0 (n - 1)) ++ filter Nat.odd (seq 0 (n - 1))).
Definition all_pairs (n : nat) : list (nat * nat) :=
  if n =? 2 then [(0, 1)] else flat_map (fun i => map (fun j => (i, j)) (filter (fun j => negb (j =? i)) (seq 0 n))) (seq 0 n).
(** up2down=False: the register upside down *)
Definition turned (n : nat) (up2down : bool) (ps : list (nat * nat)) : list (nat * nat) :=
  if up2down then ps else map (fun p => (n - 1 - fst p, n - 1 - snd p)) ps.
Definition pair_gates (g : nat -> nat -> gi) (ps : list (nat * nat)) : list gi := map (fun p => g (fst p) (snd p)) ps.

(** the rotations named by a word such as YZY, first letter first *)
Fixpoint word_axes (s : string) : list axis :=
  match s with
  | EmptyString => []
  | String a s' => (if Ascii.eqb a "X" then [AX] else if Ascii.eqb a "Y" then [AY] else if Ascii.eqb a "Z" then [AZ] else []) ++ word_axes s'
  end.
(** a rotation layer followed by a ring *)
Definition entangle_gates (s : string) (d n : nat) (ps : list R) : list gi := rot_gates (word_axes s) (seq 0 n) ps ++ pair_gates gi_cnot (ring_pairs d n).
(** two-qubit rotations on the pairs (0,1), (2,3), ... and then on (1,2), (3,4), ... *)
Definition brick_gates (g : R -> nat -> nat -> gi) (n : nat) (ps : list R) : list gi :=
  map (fun k => g (nth k ps 0%R) (2 * k) (2 * k + 1)) (seq 0 (n / 2)) ++
  map (fun k => g (nth (n / 2 + k) ps 0%R) (2 * k + 1) (2 * k + 2)) (seq 0 ((n - 1) / 2)).

Definition old_gates (c : old_call) : list gi :=
  let n := old_qubits c in
  match c with
  | oc_XYZLayer _ ps => rot_gates [AX; AY; AZ] (seq 0 n) ps
  | oc_YZYLayer _ ps => rot_gates [AY; AZ; AY] (seq 0 n) ps
  | oc_XZXLayer _ ps => rot_gates [AX; AZ; AX] (seq 0 n) ps
  | oc_XZLayer _ ps => rot_gates [AX; AZ] (seq 0 n) ps
  | oc_HLayer _ => map gi_H (seq 0 n)
  | oc_ring_of_cnot _ b => pair_gates gi_cnot (turned n b (ring_pairs 1 n))
  | oc_ring_of_cnot2 _ b => pair_gates gi_cnot (turned n b (ring_pairs 2 n))
  | oc_ring_of_cz _ b => pair_gates gi_cz (turned n b (ring_pairs 1 n))
  | oc_nearest_neighbor_cnot _ b => pair_gates gi_cnot (turned n b (nearest_pairs n))
  | oc_nearest_neighbor_cz _ b => pair_gates gi_cz (turned n b (nearest_pairs n))
  | oc_all2all_cnot _ b => pair_gates gi_cnot (turned n b (all_pairs n))
  | oc_basic_entangle_layer _ ps s => entangle_gates s 1 n ps
  | oc_basic_entangle_layer2 _ ps s => entangle_gates s 1 n ps ++ entangle_gates s 1 n (skipn (String.length s * n) ps)
  | oc_strong_entangle_layer _ ps s => entangle_gates s 1 n ps ++ entangle_gates s 2 n (skipn (String.length s * n) ps)
  | oc_RxxLayer _ ps => brick_gates gi_rxx n ps
  | oc_RyyLayer _ ps => brick_gates gi_ryy n ps
  | oc_RzzLayer _ ps => brick_gates gi_rzz n ps
  end.

(** the gate functions that the layers call, by their names in the code: rx(theta), Hadamard(), multi_kron(list), cnot(N, control, target),
    rxx(theta), ... *)
Record gatefns := mkG {
  g_rx : R -> res tensor; g_ry : R -> res tensor; g_rz : R -> res tensor; g_Had : res tensor;
  g_kron : list tensor -> res tensor;
  g_cnot : Z -> Z -> Z -> res tensor; g_cz : Z -> Z -> Z -> res tensor;
  g_rxx : R -> res tensor; g_ryy : R -> res tensor; g_rzz : R -> res tensor }.

(** [r] is a matrix, and it is that of the k-qubit operator A *)
Definition gives (r : res tensor) (k : nat) (A : qop) : Prop := exists u, r = Ok u /\ is_op k u A.
(** the tensor product of operators on consecutive groups of qubits *)
Fixpoint kron_ops (fs : list (nat * qop)) : qop :=
  match fs with
  | [] => fun _ _ => RtoC 1
  | (k, A) :: fs' => fun r c => Cmul (A (firstn k r) (firstn k c)) (kron_ops fs' (skipn k r) (skipn k c))
  end.
(** every gate function returns the matrix of the gate with its name *)
Record documented (G : gatefns) : Prop := {
  doc_rx : forall t, gives (g_rx G t) 1 (rx_op t);
  doc_ry : forall t, gives (g_ry G t) 1 (ry_op t);
  doc_rz : forall t, gives (g_rz G t) 1 (rz_op t);
  doc_Had : gives (g_Had G) 1 H_op;
  doc_kron : forall ts fs, fs <> [] -> Forall2 (fun t f => is_op (fst f) t (snd f)) ts fs -> gives (g_kron G ts) (list_sum (map fst fs)) (kron_ops fs);
  doc_cnot : forall n c t, good_wires n [c; t] -> gives (g_cnot G (Z.of_nat n) (Z.of_nat c) (Z.of_nat t)) n (gi_op n (gi_cnot c t));
  doc_cz : forall n c t, good_wires n [c; t] -> gives (g_cz G (Z.of_nat n) (Z.of_nat c) (Z.of_nat t)) n (gi_op n (gi_cz c t));
  doc_rxx : forall t, gives (g_rxx G t) 2 (gi_op 2 (gi_rxx t 0 1));
  doc_ryy : forall t, gives (g_ryy G t) 2 (gi_op 2 (gi_ryy t 0 1));
  doc_rzz : forall t, gives (g_rzz G t) 2 (gi_op 2 (gi_rzz t 0 1)) }.
