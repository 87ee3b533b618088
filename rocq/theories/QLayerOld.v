(** Model of the functions of deepquantum/layers/qlayer.py (lines 13-368), which [from deepquantum.layers import *] exports.
    Simplifications: N is an int, parameter_lst and param_lst are lists of numbers, single_gate is a string, up2down a bool.

    The functions reach the gates through [cir], the name they give to the class qgate.Circuit itself (qlayer.py:11): no object is ever
    made.  What [cir.f(...)] does is kept apart ([gatefns], LayerOldSpec.v), so that the text of each function is transcribed as it stands. *)
From Coq Require Import List ZArith Reals Bool Arith String.
From Verif Require Import PyBase Scalar CInst BigSum Index Tensor QMath QTN QOperator QGates QLayers LayerOldSpec.
Import ListNotations.
Local Close Scope R_scope.
Local Open Scope nat_scope.

(** python: calling a function of [params] positional parameters without defaults with [args] arguments *)
Definition call_with (params args : nat) (body : res tensor) : res tensor := if params =? args then body else Err TypeError.
(** what [cir] is: the functions of class Circuit taken from the class, so that the first argument given is bound to [self].
    qgate.py: rx 170, ry 182, rz 194 and cnot 206, cz 241 have parameters (self, _, _), Hadamard 253 and multi_kron 34 (self, _),
    rxx 261, ryy 280, rzz 302 (self, _, _, _).  In cnot (206-213) and cz (241-248) self is then the integer N: the two isinstance assertions
    hold (the qubits are ints) and [self.n_qubits] has no value.  The other bodies are never entered. *)
Definition cir_class : gatefns := mkG
  (fun _ => call_with 3 1 (Err AttributeError)) (fun _ => call_with 3 1 (Err AttributeError)) (fun _ => call_with 3 1 (Err AttributeError))
  (call_with 2 0 (Err AttributeError))
  (fun _ => call_with 2 1 (Err AttributeError))
  (fun _ _ _ => call_with 3 3 (Err AttributeError)) (fun _ _ _ => call_with 3 3 (Err AttributeError))
  (fun _ => call_with 4 1 (Err AttributeError)) (fun _ => call_with 4 1 (Err AttributeError)) (fun _ => call_with 4 1 (Err AttributeError)).

(** not in the code: gate functions that return what the classes of gates/qoperator.py with the same names compute (U_expand), and
    multi_kron of gates/qmath.py *)
Definition U_of (o : res gate) : res tensor := do g <- o; U_expand g.
(** not in the code, see above *)
Definition class_gates : gatefns := mkG
  (fun t => U_of (rx t 1 (WInt 0))) (fun t => U_of (ry t 1 (WInt 0))) (fun t => U_of (rz t 1 (WInt 0))) (U_of (Hadamard 1 (WInt 0)))
  multi_kron
  (fun N c t => U_of (cnot N (WList [c; t]))) (fun N c t => U_of (cz N (WList [c; t])))
  (fun t => U_of (rxx t 2 (WList [0; 1]%Z))) (fun t => U_of (ryy t 2 (WList [0; 1]%Z))) (fun t => U_of (rzz t 2 (WList [0; 1]%Z))).

(** [range(a,b,s)], s <> 0 *)
Definition zrange_by (a b s : Z) : list Z :=
  map (fun k => (a + s * Z.of_nat k)%Z) (seq 0 (Z.to_nat (if (0 <? s)%Z then (b - a + s - 1) / s else (a - b - s - 1) / - s)%Z)).

Section Old.
  Variable G : gatefns.

  (** qlayer.py:13-27 XYZLayer, 30-44 YZYLayer, 47-61 XZXLayer: [g1] is applied first; python evaluates the last one first *)
  Definition old3 (g1 g2 g3 : R -> res tensor) (N : Z) (ps : list R) : res tensor :=
    raise_if (N <? 1)%Z ValueError (
    raise_if (negb (Z.of_nat (List.length ps) =? 3 * N)%Z) ValueError (
    do l <- mmap (fun i =>
      do t1 <- py_nth ps (3 * i + 0)%Z; do t2 <- py_nth ps (3 * i + 1)%Z; do t3 <- py_nth ps (3 * i + 2)%Z;
      do c <- g3 t3; do b <- g2 t2; do a <- g1 t1; do ba <- matmul b a; matmul c ba) (zrange2 0 N);
    g_kron G l)).
  (** qlayer.py:13-27 XYZLayer *)
  Definition old_XYZ := old3 (g_rx G) (g_ry G) (g_rz G).
  (** qlayer.py:30-44 YZYLayer *)
  Definition old_YZY := old3 (g_ry G) (g_rz G) (g_ry G).
  (** qlayer.py:47-61 XZXLayer *)
  Definition old_XZX := old3 (g_rx G) (g_rz G) (g_rx G).
  (** qlayer.py:64-77 XZLayer *)
  Definition old_XZ (N : Z) (ps : list R) : res tensor :=
    raise_if (N <? 1)%Z ValueError (
    raise_if (negb (Z.of_nat (List.length ps) =? 2 * N)%Z) ValueError (
    do l <- mmap (fun i =>
      do t1 <- py_nth ps (2 * i + 0)%Z; do t2 <- py_nth ps (2 * i + 1)%Z;
      do b <- g_rz G t2; do a <- g_rx G t1; matmul b a) (zrange2 0 N);
    g_kron G l)).
  (** qlayer.py:80-86 HLayer *)
  Definition old_H (N : Z) : res tensor :=
    raise_if (N <? 1)%Z ValueError (do l <- mmap (fun _ => g_Had G) (zrange2 0 N); g_kron G l).

  (** the loops [rst = matmul(gate, rst)] over a list of (control, target), starting from the identity *)
  Definition old_loop (gate : Z -> Z -> Z -> res tensor) (N : Z) (ps : list (Z * Z)) : res tensor :=
    mfold (fun rst '(c, t) => do u <- gate N c t; matmul u rst) ps (eye (2 ^ Z.to_nat N)).
  (** the checks shared by qlayer.py:90-112, 115-138, 141-160, 163-189, 192-218, 221-243: [up] and [down] are the pairs of the loops *)
  Definition old_pairs (gate : Z -> Z -> Z -> res tensor) (up down : list (Z * Z)) (N : Z) (up2down : bool) : res tensor :=
    raise_if (N <? 2)%Z ValueError (
    if (N =? 2)%Z then (if up2down then gate 2%Z 0%Z 1%Z else gate 2%Z 1%Z 0%Z) else
    old_loop gate N (if up2down then up else down)).
  (** qlayer.py:90-112 ring_of_cnot, 141-160 ring_of_cz (d = 1), 115-138 ring_of_cnot2 (d = 2) *)
  Definition old_ring (gate : Z -> Z -> Z -> res tensor) (d N : Z) : bool -> res tensor :=
    old_pairs gate (map (fun i => (i, (i + d) mod N)%Z) (zrange2 0 N)) (map (fun i => (i, (i - d) mod N)%Z) (zrange_down (N - 1) (-1))) N.
  (** qlayer.py:90-112 *)
  Definition old_ring_of_cnot := old_ring (g_cnot G) 1.
  (** qlayer.py:115-138 *)
  Definition old_ring_of_cnot2 := old_ring (g_cnot G) 2.
  (** qlayer.py:141-160 *)
  Definition old_ring_of_cz := old_ring (g_cz G) 1.
  (** qlayer.py:163-189 nearest_neighbor_cnot, 192-218 nearest_neighbor_cz *)
  Definition old_nearest (gate : Z -> Z -> Z -> res tensor) (N : Z) : bool -> res tensor :=
    old_pairs gate (map (fun i => (i, i + 1)%Z) (zrange_by 0 (N - 1) 2 ++ zrange_by 1 (N - 1) 2))
      (map (fun i => (i, i - 1)%Z) (zrange_by (N - 1) 0 (-2) ++ zrange_by (N - 2) 0 (-2))) N.
  (** qlayer.py:163-189 *)
  Definition old_nearest_cnot := old_nearest (g_cnot G).
  (** qlayer.py:192-218 *)
  Definition old_nearest_cz := old_nearest (g_cz G).
  (** qlayer.py:221-243 all2all_cnot *)
  Definition old_all2all (N : Z) : bool -> res tensor :=
    old_pairs (g_cnot G) (flat_map (fun i => map (fun j => (i, j)) (filter (fun j => negb (j =? i)%Z) (zrange2 0 N))) (zrange2 0 N))
      (flat_map (fun i => map (fun j => (i, j)) (filter (fun j => negb (j =? i)%Z) (zrange_down (N - 1) (-1)))) (zrange_down (N - 1) (-1))) N.

  (** [l[a:b]] and [l[a:]] with python's treatment of negative bounds *)
  Definition py_bound (n : nat) (a : Z) : nat := Z.to_nat (Z.min (Z.of_nat n) (if (a <? 0)%Z then Z.max 0 (a + Z.of_nat n) else a)).
  (** [l[a:b]] (qlayer.py:256-303, 321-367) *)
  Definition py_slice {A} (l : list A) (a b : Z) : list A := pslice l (py_bound (List.length l) a) (py_bound (List.length l) b).
  (** [l[a:]] (qlayer.py:282) *)
  Definition py_from {A} (l : list A) (a : Z) : list A := skipn (py_bound (List.length l) a) l.

  (** the two length checks of qlayer.py:250-253, 275-278, 287-290; [m] is 1 or 2 *)
  Definition old_count {A} (m N : Z) (ps : list R) (single_gate : string) (k : res A) : res A :=
    raise_if ((String.length single_gate =? 3) && negb (Z.of_nat (List.length ps) =? 3 * m * N)%Z) ValueError (
    raise_if ((String.length single_gate =? 2) && negb (Z.of_nat (List.length ps) =? 2 * m * N)%Z) ValueError k).
  (** qlayer.py:249-271 basic_entangle_layer *)
  Definition old_basic (N : Z) (ps : list R) (single_gate : string) : res tensor :=
    old_count 1 N ps single_gate (
    do S1 <- (if String.eqb single_gate "YZY" then old_YZY N (py_slice ps 0 (3 * N))
              else if String.eqb single_gate "XZX" then old_XZX N (py_slice ps 0 (3 * N))
              else if String.eqb single_gate "XYZ" then old_XYZ N (py_slice ps 0 (3 * N))
              else if String.eqb single_gate "XZ" then old_XZ N (py_slice ps 0 (2 * N))
              else Err ValueError);
    do C1 <- old_ring_of_cnot N true;
    matmul C1 S1).
  (** qlayer.py:274-283 basic_entangle_layer2 *)
  Definition old_basic2 (N : Z) (ps : list R) (single_gate : string) : res tensor :=
    old_count 2 N ps single_gate (
    let nosg := Z.of_nat (String.length single_gate) in
    do L1 <- old_basic N (py_slice ps 0 (nosg * N)) single_gate;
    do L2 <- old_basic N (py_from ps (nosg * N)) single_gate;
    matmul L2 L1).
  (** qlayer.py:286-309 strong_entangle_layer *)
  Definition old_strong (N : Z) (ps : list R) (single_gate : string) : res tensor :=
    old_count 2 N ps single_gate (
    do (S1, S2) <- (
      let two f w := do a <- f N (py_slice ps 0 (w * N))%Z; do b <- f N (py_slice ps (w * N) (2 * w * N))%Z; Ok (a, b) in
      if String.eqb single_gate "YZY" then two old_YZY 3%Z
      else if String.eqb single_gate "XZX" then two old_XZX 3%Z
      else if String.eqb single_gate "XYZ" then two old_XYZ 3%Z
      else if String.eqb single_gate "XZ" then two old_XZ 2%Z
      else Err ValueError);
    do C1 <- old_ring_of_cnot N true;
    do C2 <- old_ring_of_cnot2 N true;
    do a <- matmul C2 S2; do b <- matmul a C1; matmul b S1).

  (** qlayer.py:312-329 RxxLayer, 332-349 RyyLayer, 352-368 RzzLayer *)
  Definition old_rot2 (g : R -> res tensor) (N : Z) (ps : list R) : res tensor :=
    raise_if (negb (N - 1 =? Z.of_nat (List.length ps))%Z) ValueError (
    raise_if (N <? 2)%Z ValueError (
    if (N =? 2)%Z then (do p <- py_nth ps 0; g p) else
    if (N mod 2 =? 0)%Z then
      do a <- mmap g (py_slice ps 0 (N / 2)); do U1 <- g_kron G a;
      do b <- mmap g (py_slice ps (N / 2) (N - 1)); do U2 <- g_kron G ([eye2] ++ b ++ [eye2]);
      matmul U2 U1
    else
      do a <- mmap g (py_slice ps 0 ((N - 1) / 2)); do U1 <- g_kron G (a ++ [eye2]);
      do b <- mmap g (py_slice ps ((N - 1) / 2) (N - 1)); do U2 <- g_kron G ([eye2] ++ b);
      matmul U2 U1)).
  (** qlayer.py:312-329 RxxLayer *)
  Definition old_Rxx := old_rot2 (g_rxx G).
  (** qlayer.py:332-349 RyyLayer *)
  Definition old_Ryy := old_rot2 (g_ryy G).
  (** qlayer.py:352-369 RzzLayer *)
  Definition old_Rzz := old_rot2 (g_rzz G).
End Old.

(** the call [c] of a function of the module *)
Definition run_old (G : gatefns) (c : LayerOldSpec.old_call) : res tensor :=
  match c with
  | LayerOldSpec.oc_XYZLayer N ps => old_XYZ G N ps | LayerOldSpec.oc_YZYLayer N ps => old_YZY G N ps
  | LayerOldSpec.oc_XZXLayer N ps => old_XZX G N ps | LayerOldSpec.oc_XZLayer N ps => old_XZ G N ps
  | LayerOldSpec.oc_HLayer N => old_H G N
  | LayerOldSpec.oc_ring_of_cnot N b => old_ring_of_cnot G N b | LayerOldSpec.oc_ring_of_cnot2 N b => old_ring_of_cnot2 G N b
  | LayerOldSpec.oc_ring_of_cz N b => old_ring_of_cz G N b
  | LayerOldSpec.oc_nearest_neighbor_cnot N b => old_nearest_cnot G N b | LayerOldSpec.oc_nearest_neighbor_cz N b => old_nearest_cz G N b
  | LayerOldSpec.oc_all2all_cnot N b => old_all2all G N b
  | LayerOldSpec.oc_basic_entangle_layer N ps g => old_basic G N ps g
  | LayerOldSpec.oc_basic_entangle_layer2 N ps g => old_basic2 G N ps g
  | LayerOldSpec.oc_strong_entangle_layer N ps g => old_strong G N ps g
  | LayerOldSpec.oc_RxxLayer N ps => old_Rxx G N ps | LayerOldSpec.oc_RyyLayer N ps => old_Ryy G N ps | LayerOldSpec.oc_RzzLayer N ps => old_Rzz G N ps
  end.
