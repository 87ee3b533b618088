(** Model of deepquantum/embeddings/qembedding.py and deepquantum/embeddings/qstate.py. *)
From Coq Require Import List ZArith QArith Reals Bool Arith String.
From Verif Require Import PyBase Scalar CInst BigSum Index Tensor QMath QTN QOperator QGates QLayers.
Import ListNotations.
Local Close Scope Q_scope.
Local Close Scope R_scope.
Local Open Scope nat_scope.

(** ** PauliEncoding (qembedding.py:64-100) *)

(** a PauliEncoding object: nqubits, input_lst, pauli, wires.  [input_lst] is a list of angles (a list or a 1-dimensional
    tensor), [wires] a list of ints.  The other attributes of layers (num_params, supportTN, label) are never set. *)
Record pauli_enc := mkPE { pe_N : Z; pe_inputs : list R; pe_pauli : string; pe_wires : list Z }.

(** qembedding.py:65-72 __init__ *)
Definition PauliEncoding (N : Z) (input_lst : list R) (wires : list Z) (pauli : string) : res pauli_enc :=
  raise_if (N <? Z.of_nat (List.length input_lst))%Z ValueError (Ok (mkPE N input_lst pauli wires)).

(** [r(self.input_lst[i % num]).matrix] for r = rx, ry, rz, i.e. for the Pauli matrix P *)
Definition enc_matrix (P : tensor) (input_lst : list R) (i : nat) : res tensor :=
  let num := List.length input_lst in
  raise_if (num =? 0) ZeroDivisionError (
  do t <- py_nth input_lst (Z.of_nat (i mod num));
  rot_m P 2 t).

(** qembedding.py:82-96 _cal_single_gates *)
Definition pe_single_gates (e : pauli_enc) : res (list tensor) :=
  if String.eqb (pe_pauli e) "X" then fill_wires (enc_matrix PauliX_m (pe_inputs e)) (pe_N e) (pe_wires e)
  else if String.eqb (pe_pauli e) "Y" then fill_wires (enc_matrix PauliY_m (pe_inputs e)) (pe_N e) (pe_wires e)
  else if String.eqb (pe_pauli e) "Z" then fill_wires (enc_matrix PauliZ_m (pe_inputs e)) (pe_N e) (pe_wires e)
  else Err ValueError.

(** qembedding.py:98-100 U_expand *)
Definition pe_U (e : pauli_enc) : res tensor := do lst1 <- pe_single_gates e; multi_kron lst1.

(** the methods inherited from SingleGateLayer: qlayers.py:37-48 TN_operation, 50-70 TN_contract *)
Definition pe_TN_operation (e : pauli_enc) (MPS : list tensor) : res (list tensor) :=
  do lst1 <- pe_single_gates e; base_TN_operation lst1 (pe_wires e) MPS.
(** inherited from SingleGateLayer, qlayers.py:50-70 TN_contract *)
Definition pe_TN_contract (e : pauli_enc) (MPS : tensor) (batch_mod : bool) : res tensor :=
  do lst1 <- pe_single_gates e; base_TN_contract lst1 (pe_N e) (pe_wires e) MPS batch_mod.

(** ** AmplitudeEncoding (qembedding.py:109-139) *)

(** an AmplitudeEncoding object: nqubits, input_lst (a 1-dimensional tensor), state0, rho0.  A negative number of qubits is
    outside the model. *)
Record amp_enc := mkAE { ae_N : nat; ae_inputs : list C; ae_state0 : tensor; ae_rho0 : tensor }.

(** qembedding.py:111-124 __init__ *)
Definition AmplitudeEncoding (N : nat) (input_lst : list C) : res amp_enc :=
  raise_if (2 ^ N <? List.length input_lst) ValueError (
  Ok (mkAE N input_lst
    (tbuild [2 ^ N] (fun idx => if nth 0 idx 0 =? 0 then cR 1 else cR 0))
    (tbuild [2 ^ N; 2 ^ N] (fun idx => if (nth 0 idx 0 =? 0) && (nth 1 idx 0 =? 0) then cR 1 else cR 0)))).

(** qembedding.py:126-139 encoded_state.  With no input [norm] is the float 0.0, which torch.sqrt refuses (TypeError); with
    norm 0 the factor 1/sqrt(0) is infinite and every product with 0 is NaN (NotFinite). *)
Definition encoded_state (e : amp_enc) : res tensor :=
  let num := List.length (ae_inputs e) in
  let norm := fold_left (fun norm each => (norm + Cabs each ^ 2)%R) (ae_inputs e) 0%R in
  raise_if (num =? 0) TypeError (
  if Req_EM_T norm 0 then Err NotFinite else
  let input_lst := map (Cmul (cR (1 / sqrt norm))) (ae_inputs e) in
  do d <- mfold (fun state i =>
    do x <- py_nth input_lst (Z.of_nat i);
    py_set state (Z.of_nat i) x) (seq 0 num) (data (zeros [2 ^ ae_N e]));
  Ok (mkT [2 ^ ae_N e] d)).

(** ** gram_encoding (qembedding.py:44-62) *)

(** torch's complex square root (principal branch; the sign of a zero imaginary part is not modelled) *)
Definition Csqrt (z : C) : C :=
  (sqrt ((Cabs z + Re z) / 2), if Rlt_dec (Im z) 0 then (- sqrt ((Cabs z - Re z) / 2))%R else sqrt ((Cabs z - Re z) / 2))%R.

(** [x.T] of a matrix *)
Definition transpose (x : tensor) : res tensor := permute x [1%Z; 0%Z].

(** [t.norm()]: square root of the sum of the squared moduli *)
Definition fro (t : tensor) : R := sqrt (fold_left (fun s z => (s + Cabs z ^ 2)%R) (data t) 0%R).

(** qembedding.py:44-62 gram_encoding of a matrix; the comparison with 1 is exact (rounding is not modelled).  A tensor of
    another rank is outside the model. *)
Definition gram_encoding (x : tensor) : res tensor :=
  do xt <- transpose x;
  do x <- matmul xt x;
  if Req_EM_T (fro x) 1 then Ok x else
  do xd <- diag x;
  do xds <- unsqueeze (tmap Csqrt xd) 1;
  let xdsn := tscale (cR (1 / (fro xds + 1 / 10 ^ 12))) xds in
  do xdag <- dag xdsn;
  matmul xdsn xdag.

(** ** qstate.py *)

(** qstate.py:8-9 PrepareState *)
Definition PrepareState (state : list C) : tensor := mkT [List.length state] state.

(** qstate.py:12-14 PrepareRho *)
Definition PrepareRho (state : list C) : res tensor :=
  do basic_rho <- unsqueeze (PrepareState state) 0;
  do t <- transpose basic_rho;
  matmul t basic_rho.
