(** Model of the older class Circuit of deepquantum/gates/qgate.py (lines 6-413).
    Simplifications: qubit arguments are ints (the isinstance assertions always hold); angles are real numbers (a float, an int
    or a 0-dimensional tensor in the code); the attributes paulix, pauliy, pauliz and _U, which nothing reads, and printing are
    left out.  A method changes the object even when it raises, so it returns the new object and the exception, if any. *)
From Coq Require Import List ZArith Reals Bool Arith String.
From Verif Require Import PyBase Scalar CInst BigSum Index Tensor QMath QTN QOperator GateSpec QGates.
Import ListNotations.
Local Close Scope R_scope.
Local Open Scope nat_scope.

(** the attributes n_qubits, gate_list (name, which_qubit, theta) and u *)
Record lcirc := mkL { l_N : Z; l_gates : list (string * list Z * option R); l_u : list tensor }.

(** qgate.py:7-16 Circuit.__init__ *)
Definition LCircuit (N : Z) : lcirc := mkL N [] [].

(** qgate.py:19-24 _add_gate *)
Definition l_add_gate (c : lcirc) (name : string) (ws : list Z) (phi : option R) : lcirc := mkL (l_N c) (l_gates c ++ [(name, ws, phi)]) (l_u c).
(** qgate.py:26-31 _add_u, applied to a value that may raise while it is computed *)
Definition l_add_u (c : lcirc) (r : res tensor) : lcirc * option exn :=
  match r with Ok u => (mkL (l_N c) (l_gates c) (l_u c ++ [u]), None) | Err e => (c, Some e) end.

(** qgate.py:34-43 multi_kron: starts from torch.ones(1) *)
Definition l_multi_kron (x_list : list tensor) : res tensor :=
  match x_list with [] => Err ValueError | _ => Ok (fold_left kron x_list (mkT [1] [k1])) end.

(** qgate.py:45-58 gate_expand_1toN: the lower bound of target is not checked *)
Definition l_expand (U : tensor) (N target : Z) : res tensor :=
  raise_if (N <? 1)%Z ValueError (
  raise_if (N <=? target)%Z ValueError (
  do lst1 <- py_set (eyes N) target U;
  l_multi_kron lst1)).

(** qgate.py:75-88 gate_sequence_product *)
Definition l_product (c : lcirc) (left_to_right : bool) : res tensor :=
  mfold (fun U_overall U => if left_to_right then matmul U U_overall else matmul U_overall U) (l_u c) (eye (2 ^ Z.to_nat (l_N c))).

(** qgate.py:90-108 two_qubit_control_gate: lower bounds are not checked *)
Definition l_control (U : tensor) (N control target : Z) : res tensor :=
  raise_if (N <? 1)%Z ValueError (
  raise_if (N <=? control)%Z ValueError (
  raise_if (N <=? target)%Z ValueError (
  raise_if (target =? control)%Z ValueError (
  do list1 <- py_set (eyes N) control zero_zero;
  do list2 <- py_set (eyes N) control one_one;
  do list2 <- py_set list2 target U;
  do a <- l_multi_kron list1;
  do b <- l_multi_kron list2;
  tadd a b)))).

(** qgate.py:110-133 two_qubit_rotation_gate; [P] is the Pauli matrix chosen by [way] *)
Definition l_rotation (P : tensor) (theta : R) (N qbit1 qbit2 : Z) : res tensor :=
  raise_if (N <? 1)%Z ValueError (
  raise_if ((qbit1 <? 0)%Z || (N - 1 <? qbit1)%Z || (qbit2 <? 0)%Z || (N - 1 <? qbit2)%Z) ValueError (
  raise_if (qbit1 =? qbit2)%Z ValueError (
  do lst2 <- py_set (eyes N) qbit1 P;
  do lst2 <- py_set lst2 qbit2 P;
  do a <- l_multi_kron (eyes N);
  do b <- l_multi_kron lst2;
  tsub (tscale (cR (cos (theta / 2))) a) (tscale (cI (sin (theta / 2))) b)))).

(** qgate.py:135-167 multi_control_gate *)
Definition l_multi_control (U : tensor) (N : Z) (control_lst : list Z) (target : Z) : res tensor :=
  raise_if (N <? 1)%Z ValueError (
  do mx <- py_max control_lst;
  raise_if (N - 1 <? Z.max mx target)%Z ValueError (
  do mn <- py_min control_lst;
  raise_if (Z.min mn target <? 0)%Z ValueError (
  raise_if (existsb (fun each => each =? target)%Z control_lst) ValueError (
  do lst1 <- mfold (fun l each => py_set l each one_one) control_lst (eyes N);
  do lst1 <- py_set lst1 target U;
  let lst2 := eyes N in
  do lst3 <- mfold (fun l each => py_set l each one_one) control_lst (eyes N);
  do m2 <- l_multi_kron lst2;
  do m3 <- l_multi_kron lst3;
  do d <- tsub m2 m3;
  do m1 <- l_multi_kron lst1;
  tadd d m1)))).

(** qgate.py:327-386 _Hadamard, _rx, _ry, _rz, _x_gate, _y_gate, _z_gate *)
Definition l_H : tensor := tscale (cR (sqrt (1 / 2))) (mat_of [[cR 1; cR 1]; [cR 1; cR (-1)]]).
(** qgate.py:340 _rx *)
Definition l_rx (phi : R) : tensor := mat_of [[cR (cos (phi / 2)); cI (- sin (phi / 2))]; [cI (- sin (phi / 2)); cR (cos (phi / 2))]].
(** qgate.py:351 _ry *)
Definition l_ry (phi : R) : tensor := mat_of [[cR (cos (phi / 2)); cR (- sin (phi / 2))]; [cR (sin (phi / 2)); cR (cos (phi / 2))]].
(** qgate.py:361 _rz *)
Definition l_rz (phi : R) : tensor := mat_of [[Cexpi (- (phi / 2)); cR 0]; [cR 0; Cexpi (phi / 2)]].
(** qgate.py:370 _x_gate *)
Definition l_x : tensor := mat_of [[cR 0; cR 1]; [cR 1; cR 0]].
(** qgate.py:376 _y_gate *)
Definition l_y : tensor := mat_of [[cR 0; cI (-1)]; [cI 1; cR 0]].
(** qgate.py:382 _z_gate *)
Definition l_z : tensor := mat_of [[cR 1; cR 0]; [cR 0; cR (-1)]].

(** the body shared by rx (qgate.py:170-180), ry (182-192), rz (194-204), x_gate (217-223), z_gate (225-231), y_gate (233-239) and
    Hadamard (253-259) *)
Definition l_single (name : string) (m : tensor) (phi : option R) (c : lcirc) (q : Z) : lcirc * option exn :=
  if negb ((0 <=? q)%Z && (q <? l_N c)%Z) then (c, Some AssertionError) else
  let c := l_add_gate c name [q] phi in
  l_add_u c (l_expand m (l_N c) q).
(** cnot (qgate.py:206-215), cz (241-251) *)
Definition l_ctrl (name : string) (m : tensor) (c : lcirc) (control target : Z) : lcirc * option exn :=
  if negb (control <=? l_N c)%Z then (c, Some AssertionError) else
  if negb ((0 <=? target)%Z && (target <? l_N c)%Z) then (c, Some AssertionError) else
  let c := l_add_gate c name [control; target] None in
  l_add_u c (l_control m (l_N c) control target).
(** rxx (qgate.py:261-278), ryy (280-300), rzz (302-319); ryy has one more assertion ([distinct]).  [if not target_qubit02] replaces a
    second qubit 0 by the successor of the first *)
Definition l_rot2 (name : string) (P : tensor) (distinct : bool) (c : lcirc) (q1 q2 : Z) (phi : R) : lcirc * option exn :=
  let q2 := if (q2 =? 0)%Z then (q1 + 1)%Z else q2 in
  if negb (q1 <=? l_N c)%Z then (c, Some AssertionError) else
  if negb (q2 <=? l_N c)%Z then (c, Some AssertionError) else
  if distinct && (q1 =? q2)%Z then (c, Some AssertionError) else
  let c := l_add_gate c name [q1; q2] (Some phi) in
  l_add_u c (l_rotation P phi (l_N c) q1 q2).
(** multi_control_cnot (qgate.py:321-322), not entered in gate_list *)
Definition l_mcx (c : lcirc) (control_lst : list Z) (target : Z) : lcirc * option exn :=
  l_add_u c (l_multi_control l_x (l_N c) control_lst target).

(** qgate.py:324-325 U *)
Definition l_U (c : lcirc) : res tensor := l_product c true.

(** the call that places the gate g; [None] when the class has no such method *)
Definition l_call (c : lcirc) (g : gi) : option (lcirc * option exn) :=
  let z := Z.of_nat in
  match g with
  | gi_H w => Some (l_single "H" l_H None c (z w))
  | gi_X w => Some (l_single "X" l_x None c (z w))
  | gi_Y w => Some (l_single "Y" l_y None c (z w))
  | gi_Z w => Some (l_single "Z" l_z None c (z w))
  | gi_rx t w => Some (l_single "rx" (l_rx t) (Some t) c (z w))
  | gi_ry t w => Some (l_single "ry" (l_ry t) (Some t) c (z w))
  | gi_rz t w => Some (l_single "rz" (l_rz t) (Some t) c (z w))
  | gi_rxx t a b => Some (l_rot2 "rxx" l_x false c (z a) (z b) t)
  | gi_ryy t a b => Some (l_rot2 "ryy" l_y true c (z a) (z b) t)
  | gi_rzz t a b => Some (l_rot2 "rzz" l_z false c (z a) (z b) t)
  | gi_cnot a b => Some (l_ctrl "cnot" l_x c (z a) (z b))
  | gi_cz a b => Some (l_ctrl "cz" l_z c (z a) (z b))
  | gi_mcx cs t => Some (l_mcx c (map z cs) (z t))
  | _ => None
  end.
(** a sequence of calls, stopping at the first exception; [None] as above *)
Fixpoint l_calls (c : lcirc) (gs : list gi) : option (lcirc * option exn) :=
  match gs with
  | [] => Some (c, None)
  | g :: gs' => match l_call c g with
    | None => None
    | Some (c', Some e) => Some (c', Some e)
    | Some (c', None) => l_calls c' gs'
    end
  end.

(** qgate.py:389-402 expecval_ZI *)
Definition l_expecval_ZI (rho : tensor) (nqubit target : Z) : res R :=
  do H <- l_expand l_z nqubit target;
  do p <- matmul rho H; do t <- ttrace p; Ok (Re t).
(** qgate.py:404-413 measure: the entries of the returned column *)
Definition l_measure (rho : tensor) (nqubit : nat) : res (list R) :=
  mmap (fun i => l_expecval_ZI rho (Z.of_nat nqubit) i) (zrange nqubit).
