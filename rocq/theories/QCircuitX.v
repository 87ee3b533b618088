(** Model of a Circuit (deepquantum/gates/qcircuit.py:23-154) to which objects are added that are not gates or layers: a PauliEncoding
    (qembedding.py:64, which sets neither num_params nor supportTN) or None (what operation_dagger of a layer without an inverse returns).
    For gates and layers this is the model of QCircuit.v. *)
From Coq Require Import List ZArith Reals Bool Arith.
From Verif Require Import PyBase Scalar CInst Tensor QMath QTN QOperator QGates QLayers QCircuit QEmbedding.
Import ListNotations.
Local Close Scope R_scope.
Local Open Scope nat_scope.

(** anything appended by Circuit.add (qcircuit.py:42-43): a gate or layer, a PauliEncoding (qembedding.py), or None *)
Inductive item := IOper (o : oper) | IEnc (e : pauli_enc) | INone.

(** the attributes nqubits, gate, cir_params, cir_num_params *)
Record xcircuit := mkX { x_N : nat; x_gate : list item; x_params : list (nat * option pval); x_num : nat }.

(** qcircuit.py:42-48 add: the object is appended before [gate.num_params] is read.  Returns the new state and the exception, if any *)
Definition x_add (c : xcircuit) (i : item) : xcircuit * option exn :=
  let gate := x_gate c ++ [i] in
  match i with
  | IOper o =>
      if o_num_params o =? 0
      then (mkX (x_N c) gate (dict_set (x_params c) (length gate - 1) None) (x_num c), None)
      else (mkX (x_N c) gate (dict_set (x_params c) (length gate - 1) (o_params o)) (x_num c + o_num_params o), None)
  | IEnc _ | INone => (mkX (x_N c) gate (x_params c) (x_num c), Some AttributeError)
  end.

(** [for g in gs: cir.add(g)], up to the first exception *)
Fixpoint x_adds (c : xcircuit) (is : list item) : xcircuit * option exn :=
  match is with
  | [] => (c, None)
  | i :: is' => match x_add c i with (c', None) => x_adds c' is' | (c', Some e) => (c', Some e) end
  end.

(** [each_oper.U_expand()], [oper.supportTN], [oper.TN_operation(MPS)], [oper.TN_contract(MPS, batch_mod)] *)
Definition item_U (i : item) : res tensor := match i with IOper o => o_U o | IEnc e => pe_U e | INone => Err AttributeError end.
(** [oper.supportTN] (qcircuit.py:64-77, 82-96, 130-137) *)
Definition item_supportTN (i : item) : res bool := match i with IOper o => Ok (o_supportTN o) | IEnc _ | INone => Err AttributeError end.
(** [oper.TN_operation(MPS)] (qcircuit.py:64-77) *)
Definition item_TN_operation (svd : tensor -> tensor * tensor * tensor) (i : item) (MPS : list tensor) : res (list tensor) :=
  match i with IOper o => o_TN_operation svd o MPS | IEnc e => pe_TN_operation e MPS | INone => Err AttributeError end.
(** [oper.TN_contract(MPS, batch_mod)] (qcircuit.py:82-96) *)
Definition item_TN_contract (i : item) (MPS : tensor) (batch_mod : bool) : res tensor :=
  match i with IOper o => o_TN_contract o MPS batch_mod | IEnc e => pe_TN_contract e MPS batch_mod | INone => Err AttributeError end.

(** qcircuit.py:51-62 U *)
Definition xU (c : xcircuit) (left_to_right : bool) : res tensor :=
  mfold (fun U_overall i =>
    do u_matrix <- item_U i;
    if left_to_right then matmul u_matrix U_overall else matmul U_overall u_matrix) (x_gate c) (eye (2 ^ x_N c)).

(** qcircuit.py:64-77 TN_evolution *)
Definition x_TN_evolution (svd : tensor -> tensor * tensor * tensor) (c : xcircuit) (MPS : list tensor) : res (list tensor) :=
  raise_if (negb (length MPS =? x_N c)) ValueError (
  mfold (fun MPS i => do s <- item_supportTN i; if s then item_TN_operation svd i MPS else Err ValueError) (x_gate c) MPS).

(** qcircuit.py:82-96 TN_contract_evolution *)
Definition x_TN_contract_evolution (c : xcircuit) (MPS : tensor) (batch_mod : bool) : res tensor :=
  raise_if (negb (length (shape MPS) =? (if batch_mod then x_N c + 1 else x_N c))) AssertionError (
  mfold (fun MPS i => do s <- item_supportTN i; if s then item_TN_contract i MPS batch_mod else Err ValueError) (x_gate c) MPS).

(** qcircuit.py:130-137 TN_check: returns False at the first operation without support *)
Fixpoint items_check (l : list item) : res bool :=
  match l with
  | [] => Ok true
  | i :: l' => do s <- item_supportTN i; if s then items_check l' else Ok false
  end.
(** qcircuit.py:130-137 TN_check *)
Definition x_TN_check (c : xcircuit) : res bool := items_check (x_gate c).

(** qcircuit.py:153-154 clear *)
Definition x_clear (c : xcircuit) : xcircuit := mkX (x_N c) [] (x_params c) (x_num c).

(** a circuit that so far has only gates and layers *)
Definition as_x (c : circuit) : xcircuit := mkX (c_N c) (map IOper (c_gate c)) (c_params c) (c_num c).

(** the method operation_dagger of a gate (QGates.v) or layer (QLayers.v); [None] for the layers without an inverse *)
Definition o_dagger (o : oper) : res item :=
  match o with
  | OG g => do d <- operation_dagger g; Ok (IOper (OG d))
  | OL l => do d <- layer_dagger l; Ok (match d with Some l' => IOper (OL l') | None => INone end)
  end.
