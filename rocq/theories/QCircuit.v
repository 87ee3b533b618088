(** Model of class Circuit of deepquantum/gates/qcircuit.py (lines 23-255).
    Simplifications: a circuit holds gates and layers of the two model types ([add] of anything else, e.g. of a PauliEncoding
    object, is outside); python's dict is an association list in insertion order; the flag cuda and printing are left out. *)
From Coq Require Import List ZArith QArith Reals Bool Arith.
From Verif Require Import PyBase Scalar CInst BigSum Index Tensor QMath QTN QOperator QGates QLayers GateSpec GateCalls LayerSpec LayerCalls CircuitSpec.
Import ListNotations.
Local Close Scope Q_scope.
Local Close Scope R_scope.
Local Open Scope nat_scope.

(** an object in Circuit.gate, with the methods and attributes the circuit uses *)
Inductive oper := OG (g : gate) | OL (l : layer).
(** [each_oper.U_expand()] (qcircuit.py:55) *)
Definition o_U (o : oper) : res tensor := match o with OG g => U_expand g | OL l => layer_U l end.
(** [oper.TN_operation(MPS)] (qcircuit.py:64-77) *)
Definition o_TN_operation (svd : tensor -> tensor * tensor * tensor) (o : oper) (MPS : list tensor) : res (list tensor) :=
  match o with OG g => TN_operation svd g MPS | OL l => layer_TN_operation svd l MPS end.
(** [oper.TN_contract(MPS, batch_mod)] (qcircuit.py:82-96) *)
Definition o_TN_contract (o : oper) (MPS : tensor) (batch_mod : bool) : res tensor :=
  match o with OG g => TN_contract g MPS batch_mod | OL l => layer_TN_contract l MPS batch_mod end.
(** [oper.supportTN] (qcircuit.py:130-137) *)
Definition o_supportTN (o : oper) : bool := match o with OG g => g_supportTN g | OL l => layer_supportTN l end.
(** [gate.num_params] (qcircuit.py:44) *)
Definition o_num_params (o : oper) : nat := match o with OG g => g_num_params g | OL l => layer_num_params l end.
(** the attribute params; read only when num_params is not 0 *)
Definition o_params (o : oper) : option pval :=
  match o with
  | OG g => g_params g
  | OL (LS s) => Some (PV (sl_params s))
  | OL (LBasic b) => Some (PV (b_params b))
  | OL _ => None
  end.

(** dict: [d[k] = v] and [d[k]] *)
Fixpoint dict_set {A} (d : list (nat * A)) (k : nat) (v : A) : list (nat * A) :=
  match d with
  | [] => [(k, v)]
  | (k', v') :: d' => if k' =? k then (k, v) :: d' else (k', v') :: dict_set d' k v
  end.
(** [d[k]] for the dictionary cir_params (qcircuit.py:25) *)
Fixpoint dict_get {A} (d : list (nat * A)) (k : nat) : res A :=
  match d with
  | [] => Err KeyError
  | (k', v') :: d' => if k' =? k then Ok v' else dict_get d' k
  end.

(** the attributes nqubits, gate, cir_params, cir_num_params *)
Record circuit := mkC { c_N : nat; c_gate : list oper; c_params : list (nat * option pval); c_num : nat }.

(** qcircuit.py:24-29 Circuit.__init__ *)
Definition Circuit (N : nat) : circuit := mkC N [] [] 0.

(** qcircuit.py:33-40 state_init *)
Definition state_init (c : circuit) : tensor := tbuild [2 ^ c_N c] (fun idx => if nth 0 idx 0 =? 0 then cR 1 else cR 0).

(** qcircuit.py:42-48 add *)
Definition add (c : circuit) (o : oper) : circuit :=
  let gate := c_gate c ++ [o] in
  if o_num_params o =? 0
  then mkC (c_N c) gate (dict_set (c_params c) (length gate - 1) None) (c_num c)
  else mkC (c_N c) gate (dict_set (c_params c) (length gate - 1) (o_params o)) (c_num c + o_num_params o).

(** qcircuit.py:51-62 U *)
Definition cU (c : circuit) (left_to_right : bool) : res tensor :=
  mfold (fun U_overall o =>
    do u_matrix <- o_U o;
    if left_to_right then matmul u_matrix U_overall else matmul U_overall u_matrix) (c_gate c) (eye (2 ^ c_N c)).

Section TN.
  Variable svd : tensor -> tensor * tensor * tensor.
  (** qcircuit.py:64-77 TN_evolution *)
  Definition TN_evolution (c : circuit) (MPS : list tensor) : res (list tensor) :=
    raise_if (negb (length MPS =? c_N c)) ValueError (
    mfold (fun MPS o => if o_supportTN o then o_TN_operation svd o MPS else Err ValueError) (c_gate c) MPS).

  (** [( psi_f.view(1,-1).conj() @ M @ psi_f.view(-1,1) ).real.squeeze()]; a result with several elements (M of rank 3) is
      outside the model *)
  Definition quad_form (psi_f M : tensor) : res R :=
    do a <- view psi_f [1%Z; (-1)%Z];
    do b <- view psi_f [(-1)%Z; 1%Z];
    do x <- matmul (tconj a) M;
    do y <- matmul x b;
    match data y with [z] => Ok (Re z) | _ => Err TorchError end.

  (** qcircuit.py:130-137 TN_check *)
  Definition TN_check (c : circuit) : bool := forallb o_supportTN (c_gate c).

  (** [t.shape[i]] *)
  Definition shape_at (t : tensor) (i : nat) : res nat := match nth_error (shape t) i with Some d => Ok d | None => Err IndexError end.

  (** qcircuit.py:100-115 cir_expectation *)
  Definition cir_expectation (c : circuit) (init_state M : tensor) (TN : bool) : res R :=
    do s0 <- shape_at init_state 0;
    raise_if (negb (s0 =? 1)) ValueError (
    do s1 <- shape_at init_state 1;
    raise_if (negb (s1 =? 2 ^ c_N c)) ValueError (
    do m0 <- shape_at M 0;
    do m1 <- shape_at M 1;
    raise_if (negb (m0 =? m1)) ValueError (
    if TN_check c && TN then
      do v <- view init_state [1%Z; (-1)%Z];
      do MPS <- StateVec2MPS svd v (c_N c);
      do MPS' <- TN_evolution c MPS;
      do psi_f <- MPS2StateVec MPS';
      quad_form psi_f M
    else
      do u <- cU c true;
      do v <- view init_state [(-1)%Z; 1%Z];
      do psi_f <- matmul u v;
      quad_form psi_f M))).
End TN.

(** qcircuit.py:82-96 TN_contract_evolution *)
Definition TN_contract_evolution (c : circuit) (MPS : tensor) (batch_mod : bool) : res tensor :=
  raise_if (negb (length (shape MPS) =? (if batch_mod then c_N c + 1 else c_N c))) AssertionError (
  mfold (fun MPS o => if o_supportTN o then o_TN_contract o MPS batch_mod else Err ValueError) (c_gate c) MPS).

(** qcircuit.py:153-154 clear *)
Definition clear (c : circuit) : circuit := mkC (c_N c) [] (c_params c) (c_num c).

(** the gate and layer methods, qcircuit.py:169-254: every one is [self.add(Class(..., self.nqubits, wires))];
    [Hadamard] of a list is HLayer; ring_of_cnot_dagger has no method and is added with [add] *)
Definition obuild (n : nat) (c : ci) : res oper :=
  match c with
  | CG g => do o <- build n g; Ok (OG o)
  | CL l => do o <- lbuild n l; Ok (OL o)
  end.
(** one method call, qcircuit.py:169-254 *)
Definition method (c : circuit) (x : ci) : res circuit := do o <- obuild (c_N c) x; Ok (add c o).
(** [cir = Circuit(n)] followed by the given method calls *)
Definition circuit_of (n : nat) (xs : list ci) : res circuit := mfold method xs (Circuit n).
