(** Model of the gate classes of deepquantum/gates/qoperator.py (lines 105-2163): constructors with their matrices,
    U_expand, TN_contract, TN_operation, operation_dagger, params_update.
    Simplifications: angles are real numbers (a 0-dimensional tensor in the code) or a list of them (a 1-dimensional
    tensor); the labels and [info] are in QInfo.v; attributes nothing reads (num_wires, self_inverse, diagonal) too;
    autograd is not modelled. *)
From Coq Require Import List ZArith Reals Bool Arith.
From Verif Require Import PyBase Scalar CInst BigSum Index Tensor QMath QTN QOperator.
Import ListNotations.

(** the value of a [params] attribute: 0-dimensional or 1-dimensional tensor *)
Inductive pval := PS (x : R) | PV (l : list R).

(** the gate classes of qoperator.py:170-2165 *)
Inductive gcls :=
| cHadamard | cPauliX | cPauliY | cPauliZ | crx | cry | crz | cu1 | cu3s
| crxx | cryy | crzz | ccnot | ccz | ccphase | ccu3 | cSWAP | ctoffoli | cmcx.

(** an instance: class, nqubits, wires, params (None when the class has none), matrix, and u_matrix (only used by cu3) *)
Record gate := mkG {
  g_cls : gcls; g_N : Z; g_wires : pywires; g_params : option pval; g_matrix : tensor; g_umatrix : tensor }.

(** num_params, set by each constructor (e.g. qoperator.py:183, 339, 544) *)
Definition g_num_params (g : gate) : nat :=
  match g_cls g with
  | crx | cry | crz | cu1 | crxx | cryy | crzz | ccphase => 1
  | cu3s | ccu3 => 3
  | _ => 0
  end.

(** supportTN, set by each constructor: True except for multi_control_cnot (qoperator.py:2143) *)
Definition g_supportTN (g : gate) : bool := match g_cls g with cmcx => false | _ => true end.

(** not in the code: a real number as complex number *)
Definition cR (x : R) : K := RtoC x.
(** not in the code: a real multiple of 1j *)
Definition cI (x : R) : K := (0%R, x).

(** PauliX().matrix (qoperator.py:228), PauliY().matrix (266), PauliZ().matrix (305); an attribute without value *)
Definition PauliX_m : tensor := sigma_x.
(** qoperator.py:266 *)
Definition PauliY_m : tensor := mat_of [[cR 0; cI (-1)]; [cI 1; cR 0]].
(** qoperator.py:305 *)
Definition PauliZ_m : tensor := sigma_z.
(** not in the code: the value of an attribute that the class does not have *)
Definition no_matrix : tensor := mkT [] [].

(** [torch.cos(theta/2.0)*torch.eye(d,d) - 1j*torch.sin(theta/2.0)*P] (qoperator.py:348, 399, 449, 621, 755, 891) *)
Definition rot_m (P : tensor) (d : nat) (theta : R) : res tensor :=
  tsub (tscale (cR (cos (theta / 2))) (eye d)) (tscale (cI (sin (theta / 2))) P).

(** qoperator.py:181-192 Hadamard.__init__ *)
Definition Hadamard (N : Z) (wires : pywires) : res gate :=
  Ok (mkG cHadamard N wires None (tscale (cR (sqrt (1 / 2))) (mat_of [[cR 1; cR 1]; [cR 1; cR (-1)]])) no_matrix).
(** qoperator.py:220-231 PauliX.__init__ *)
Definition PauliX (N : Z) (wires : pywires) : res gate := Ok (mkG cPauliX N wires None PauliX_m no_matrix).
(** qoperator.py:258-269 PauliY.__init__ *)
Definition PauliY (N : Z) (wires : pywires) : res gate := Ok (mkG cPauliY N wires None PauliY_m no_matrix).
(** qoperator.py:297-308 PauliZ.__init__ *)
Definition PauliZ (N : Z) (wires : pywires) : res gate := Ok (mkG cPauliZ N wires None PauliZ_m no_matrix).
(** qoperator.py:337-352 rx.__init__ *)
Definition rx (theta : R) (N : Z) (wires : pywires) : res gate :=
  do m <- rot_m PauliX_m 2 theta; Ok (mkG crx N wires (Some (PS theta)) m no_matrix).
(** qoperator.py:389-403 ry.__init__ *)
Definition ry (theta : R) (N : Z) (wires : pywires) : res gate :=
  do m <- rot_m PauliY_m 2 theta; Ok (mkG cry N wires (Some (PS theta)) m no_matrix).
(** qoperator.py:439-453 rz.__init__ *)
Definition rz (theta : R) (N : Z) (wires : pywires) : res gate :=
  do m <- rot_m PauliZ_m 2 theta; Ok (mkG crz N wires (Some (PS theta)) m no_matrix).
(** qoperator.py:500-503 the matrix in u1.__init__ *)
Definition u1_m (theta : R) : res tensor :=
  let c := cos (1 / 2 * theta) in
  let s := sin (1 / 2 * theta) in
  let e : K := (c, s) in
  do d <- tsub (tscale (cR c) (eye 2)) (tscale (cI s) sigma_z);
  Ok (tscale e d).
(** qoperator.py:486-506 u1.__init__ *)
Definition u1 (theta : R) (N : Z) (wires : pywires) : res gate :=
  do m <- u1_m theta; Ok (mkG cu1 N wires (Some (PS theta)) m no_matrix).
(** [rz(phi).matrix @ rx(-0.5*pi).matrix @ rz(theta).matrix @ rx(0.5*pi).matrix @ rz(lambd).matrix]
    (qoperator.py:557-562, 593-598, 1556-1561, 1692-1697) *)
Definition u3_m (theta_lst : list R) : res tensor :=
  do theta <- py_nth theta_lst 0;
  do phi <- py_nth theta_lst 1;
  do lambd <- py_nth theta_lst 2;
  do m1 <- rot_m PauliZ_m 2 phi;
  do m2 <- rot_m PauliX_m 2 (- (1 / 2) * PI);
  do m3 <- rot_m PauliZ_m 2 theta;
  do m4 <- rot_m PauliX_m 2 (1 / 2 * PI);
  do m5 <- rot_m PauliZ_m 2 lambd;
  do a <- matmul m1 m2;
  do a <- matmul a m3;
  do a <- matmul a m4;
  matmul a m5.
(** qoperator.py:542-565 u3.__init__ *)
Definition u3 (theta_lst : list R) (N : Z) (wires : pywires) : res gate :=
  do m <- u3_m theta_lst; Ok (mkG cu3s N wires (Some (PV theta_lst)) m no_matrix).
(** qoperator.py:611-625 rxx.__init__, 744-759 ryy, 880-895 rzz *)
Definition rxx (theta : R) (N : Z) (wires : pywires) : res gate :=
  do m <- rot_m (kron PauliX_m PauliX_m) 4 theta; Ok (mkG crxx N wires (Some (PS theta)) m no_matrix).
(** qoperator.py:744-759 ryy.__init__ *)
Definition ryy (theta : R) (N : Z) (wires : pywires) : res gate :=
  do m <- rot_m (kron PauliY_m PauliY_m) 4 theta; Ok (mkG cryy N wires (Some (PS theta)) m no_matrix).
(** qoperator.py:880-895 rzz.__init__ *)
Definition rzz (theta : R) (N : Z) (wires : pywires) : res gate :=
  do m <- rot_m (kron PauliZ_m PauliZ_m) 4 theta; Ok (mkG crzz N wires (Some (PS theta)) m no_matrix).
(** qoperator.py:1014-1029 cnot.__init__ *)
Definition cnot_m : tensor := mat_of [[k1; k0; k0; k0]; [k0; k1; k0; k0]; [k0; k0; k0; k1]; [k0; k0; k1; k0]].
(** qoperator.py:1014-1029 cnot.__init__ *)
Definition cnot (N : Z) (wires : pywires) : res gate := Ok (mkG ccnot N wires None cnot_m no_matrix).
(** qoperator.py:1233-1248 cz.__init__ *)
Definition cz_m : tensor := mat_of [[k1; k0; k0; k0]; [k0; k1; k0; k0]; [k0; k0; k1; k0]; [k0; k0; k0; kopp k1]].
(** qoperator.py:1233-1248 cz.__init__ *)
Definition cz (N : Z) (wires : pywires) : res gate := Ok (mkG ccz N wires None cz_m no_matrix).
(** qoperator.py:1381-1405 cphase.__init__ *)
Definition mt : tensor := mat_of [[k0; k0; k0; k0]; [k0; k0; k0; k0]; [k0; k0; k0; k0]; [k0; k0; k0; k1]].
(** qoperator.py:1381-1405 cphase.__init__ *)
Definition cphase (theta : R) (N : Z) (wires : pywires) : res gate :=
  let e : K := (cos theta, sin theta) in
  do m <- tadd (eye 4) (tscale (ksub e k1) mt);
  Ok (mkG ccphase N wires (Some (PS theta)) m no_matrix).
(** qoperator.py:1539-1565 cu3.__init__ *)
Definition cu3 (theta_lst : list R) (N : Z) (wires : pywires) : res gate :=
  do u <- u3_m theta_lst;
  do m <- two_qubit_control_gate u 2 0 1;
  Ok (mkG ccu3 N wires (Some (PV theta_lst)) m u).
(** qoperator.py:1716-1730 SWAP.__init__ *)
Definition SWAP (N : Z) (wires : pywires) : res gate := Ok (mkG cSWAP N wires None swap_matrix no_matrix).
(** qoperator.py:1900-1907 the matrix in toffoli.__init__ *)
Definition toffoli_m : tensor :=
  mat_of [[k1; k0; k0; k0; k0; k0; k0; k0];
          [k0; k1; k0; k0; k0; k0; k0; k0];
          [k0; k0; k1; k0; k0; k0; k0; k0];
          [k0; k0; k0; k1; k0; k0; k0; k0];
          [k0; k0; k0; k0; k1; k0; k0; k0];
          [k0; k0; k0; k0; k0; k1; k0; k0];
          [k0; k0; k0; k0; k0; k0; k0; k1];
          [k0; k0; k0; k0; k0; k0; k1; k0]].
(** qoperator.py:1885-1910 toffoli.__init__; control_lst and target_lst are recomputed from wires where they are read *)
Definition toffoli (N : Z) (wires : pywires) : res gate :=
  do _ <- (if wires_unset wires then Ok tt
           else do l <- wire_list wires; raise_if (negb (length l =? 3)) ValueError (Ok tt));
  Ok (mkG ctoffoli N wires None toffoli_m no_matrix).
(** qoperator.py:2131-2145 multi_control_cnot.__init__: [len(-1)] raises TypeError, [wires[-1]] of [] IndexError *)
Definition multi_control_cnot (N : Z) (wires : pywires) : res gate :=
  do l <- wire_list wires;
  do _ <- py_nth l (-1);
  Ok (mkG cmcx N wires None no_matrix no_matrix).

(** the number in a 0-dimensional [params]; a 1-dimensional one never reaches the places where this is used *)
Definition p_scalar (g : gate) : res R :=
  match g_params g with Some (PS x) => Ok x | Some (PV _) => Err TypeError | None => Err AttributeError end.
(** [theta_lst[0..2]] with theta_lst = params *)
Definition p_vec (p : pval) : res (list R) :=
  match p with PV l => Ok l | PS _ => Err IndexError end.

(** U_expand of the single-qubit gates (e.g. qoperator.py:194-198): the test of N precedes the use of wires *)
Definition single_U_expand (m : tensor) (N : Z) (w : pywires) : res tensor :=
  raise_if (unset N w) ValueError (
  raise_if (N <? 1)%Z ValueError (
  do i <- wire_int w; gate_expand_1toN m N i)).
(** U_expand of rxx (qoperator.py:627-642), ryy (761-776), rzz (897-912) *)
Definition rpp_U_expand (P : tensor) (g : gate) : res tensor :=
  raise_if (unset (g_N g) (g_wires g)) ValueError (
  raise_if (g_N g <? 1)%Z ValueError (
  do w0 <- wire_at (g_wires g) 0;
  raise_if ((w0 <? 0)%Z || (g_N g - 1 <? w0)%Z) ValueError (
  do w1 <- wire_at (g_wires g) 1;
  do th <- p_scalar g;
  rpp_U P (cR (cos (th / 2))) (cI (- sin (th / 2))) (g_N g) w0 w1))).
(** U_expand of cnot (qoperator.py:1031-1038), cz (1250-1257), cphase (1407-1415), cu3 (1567-1573) *)
Definition ctrl_U_expand (u : res tensor) (g : gate) : res tensor :=
  raise_if (unset (g_N g) (g_wires g)) ValueError (
  do u <- u;
  do c <- wire_at (g_wires g) 0;
  do t <- wire_at (g_wires g) 1;
  two_qubit_control_gate u (g_N g) c t).
(** the matrix [[1,0],[0,e^{i params}]] of cphase.U_expand (qoperator.py:1409-1410) and u1.params_update (528-529) *)
Definition phase_m (th : R) : tensor := mat_of [[k1; k0]; [k0; (cos th, sin th) : K]].

(** the method U_expand *)
Definition U_expand (g : gate) : res tensor :=
  match g_cls g with
  | cHadamard | cPauliX | cPauliY | cPauliZ | crx | cry | crz | cu1 | cu3s =>
      single_U_expand (g_matrix g) (g_N g) (g_wires g)
  | crxx => rpp_U_expand PauliX_m g
  | cryy => rpp_U_expand PauliY_m g
  | crzz => rpp_U_expand PauliZ_m g
  | ccnot => ctrl_U_expand (Ok sigma_x) g
  | ccz => ctrl_U_expand (Ok sigma_z) g
  | ccphase => ctrl_U_expand (do th <- p_scalar g; Ok (phase_m th)) g
  | ccu3 => ctrl_U_expand (Ok (g_umatrix g)) g
  | cSWAP => (* 1732-1760 *)
      raise_if (unset (g_N g) (g_wires g)) ValueError (
      do a <- wire_at (g_wires g) 0;
      do b <- wire_at (g_wires g) 1;
      swap_U (g_N g) a b)
  | ctoffoli => (* 1912-1919 *)
      raise_if (unset (g_N g) (g_wires g)) ValueError (
      do c1 <- wire_at (g_wires g) 0;
      do c2 <- wire_at (g_wires g) 1;
      do t <- wire_at (g_wires g) 2;
      multi_control_gate sigma_x (g_N g) [c1; c2] t)
  | cmcx => (* 2147-2152; control_lst = wires[0:len-1], target = wires[-1] *)
      raise_if (unset (g_N g) (g_wires g)) ValueError (
      do l <- wire_list (g_wires g);
      do t <- py_nth l (-1);
      multi_control_gate sigma_x (g_N g) (firstn (length l - 1) l) t)
  end.

(** the method TN_contract; multi_control_cnot has none *)
Definition TN_contract (g : gate) (MPS : tensor) (batch_mod : bool) : res tensor :=
  match g_cls g with
  | cHadamard | cPauliX | cPauliY | cPauliZ | crx | cry | crz | cu1 | cu3s =>
      single_TN_contract (g_matrix g) (g_N g) (g_wires g) MPS batch_mod
  | crxx | cryy | crzz | ccnot | ccz | ccphase | ccu3 =>
      double_TN_contract (g_matrix g) (g_N g) (g_wires g) MPS batch_mod
  | cSWAP => swap_TN_contract (g_N g) (g_wires g) MPS batch_mod
  | ctoffoli => triple_TN_contract (g_matrix g) (g_N g) (g_wires g) MPS batch_mod
  | cmcx => Err AttributeError
  end.

(** [cnot(2,[1,0]).U_expand()] (qoperator.py:1057, 1106), [cz(2,[1,0])...] (1277), [cphase(self.params,2,[1,0]).U_expand()] (1435),
    [two_qubit_control_gate(self.u_matrix,2,1,0)] (1593), [toffoli(3,...).U_expand()] (1960, 1962) *)
Definition rev_cnot : res tensor := do g <- cnot 2 (WList [1%Z; 0%Z]); U_expand g.
(** qoperator.py:1277 *)
Definition rev_cz : res tensor := do g <- cz 2 (WList [1%Z; 0%Z]); U_expand g.
(** qoperator.py:1435 *)
Definition rev_cphase (g : gate) : res tensor := do th <- p_scalar g; do g' <- cphase th 2 (WList [1%Z; 0%Z]); U_expand g'.
(** qoperator.py:1593 *)
Definition rev_cu3 (g : gate) : res tensor := two_qubit_control_gate (g_umatrix g) 2 1 0.
(** qoperator.py:1960 *)
Definition mid_toffoli : res tensor := do g <- toffoli 3 (WList [0%Z; 2%Z; 1%Z]); U_expand g.
(** qoperator.py:1962 *)
Definition up_toffoli : res tensor := do g <- toffoli 3 (WList [1%Z; 2%Z; 0%Z]); U_expand g.

Section TN.
  Variable svd : tensor -> tensor * tensor * tensor.
  (** the method TN_operation; rxx, ryy, rzz and multi_control_cnot have none *)
  Definition TN_operation (g : gate) (MPS : list tensor) : res (list tensor) :=
    match g_cls g with
    | cHadamard | cPauliX | cPauliY | cPauliZ | crx | cry | crz | cu1 | cu3s =>
        single_TN_operation (g_matrix g) (g_N g) (g_wires g) MPS
    | crxx | cryy | crzz | cmcx => Err AttributeError
    | ccnot => cnot_TN_operation svd (g_matrix g) rev_cnot (g_N g) (g_wires g) MPS
    | ccz => ctrl_TN_operation svd (g_matrix g) rev_cz (g_N g) (g_wires g) MPS
    | ccphase => ctrl_TN_operation svd (g_matrix g) (rev_cphase g) (g_N g) (g_wires g) MPS
    | ccu3 => ctrl_TN_operation svd (g_matrix g) (rev_cu3 g) (g_N g) (g_wires g) MPS
    | cSWAP => swap_TN_operation svd (g_N g) (g_wires g) MPS
    | ctoffoli => toffoli_TN_operation svd (g_matrix g) mid_toffoli up_toffoli (g_N g) (g_wires g) MPS
    end.
End TN.

(** the method operation_dagger (qoperator.py:200, 239, 278, 316, 361, 412, 461, 515, 574-576, 715, 850, 985, 1207, 1359,
    1518, 1675-1677, 1854, 2107, 2154) *)
Definition operation_dagger (g : gate) : res gate :=
  match g_cls g with
  | crx => do t <- p_scalar g; rx (-1 * t) (g_N g) (g_wires g)
  | cry => do t <- p_scalar g; ry (-1 * t) (g_N g) (g_wires g)
  | crz => do t <- p_scalar g; rz (-1 * t) (g_N g) (g_wires g)
  | cu1 => do t <- p_scalar g; u1 (-1 * t) (g_N g) (g_wires g)
  | crxx => do t <- p_scalar g; rxx (-1 * t) (g_N g) (g_wires g)
  | cryy => do t <- p_scalar g; ryy (-1 * t) (g_N g) (g_wires g)
  | crzz => do t <- p_scalar g; rzz (-1 * t) (g_N g) (g_wires g)
  | ccphase => do t <- p_scalar g; cphase (-1 * t) (g_N g) (g_wires g)
  | cu3s | ccu3 =>
      do p <- match g_params g with Some p => p_vec p | None => Err AttributeError end;
      do theta <- py_nth p 0; do phi <- py_nth p 1; do lambd <- py_nth p 2;
      let q := [Ropp theta; Ropp lambd; Ropp phi] in
      match g_cls g with
      | ccu3 => cu3 q (g_N g) (g_wires g)
      | _ => u3 q (g_N g) (g_wires g)
      end
  | _ => Ok g
  end.

(** the argument of params_update as one angle; a 1-dimensional argument to a one-angle gate is outside the model *)
Definition arg_scalar (p : pval) : res R := match p with PS x => Ok x | PV _ => Err TypeError end.
(** [self.params = ...] and [self.matrix = ...] in the params_update methods cited below *)
Definition with_params (g : gate) (p : pval) (m u : tensor) : gate :=
  mkG (g_cls g) (g_N g) (g_wires g) (Some p) m u.

(** the method params_update (qoperator.py:208, 247, 286, 325, 371-374, 421-424, 470-473, 524-529, 584-598, 723-726, 859-862,
    993-996, 1215, 1367, 1526-1533, 1684-1698, 1862, 2115, 2162) *)
Definition params_update (g : gate) (p : pval) : res gate :=
  match g_cls g with
  | crx => do t <- arg_scalar p; do m <- rot_m PauliX_m 2 t; Ok (with_params g p m (g_umatrix g))
  | cry => do t <- arg_scalar p; do m <- rot_m PauliY_m 2 t; Ok (with_params g p m (g_umatrix g))
  | crz => do t <- arg_scalar p; do m <- rot_m PauliZ_m 2 t; Ok (with_params g p m (g_umatrix g))
  | cu1 => do t <- arg_scalar p; Ok (with_params g p (phase_m t) (g_umatrix g))
  | crxx => do t <- arg_scalar p; do m <- rot_m (kron PauliX_m PauliX_m) 4 t; Ok (with_params g p m (g_umatrix g))
  | cryy => do t <- arg_scalar p; do m <- rot_m (kron PauliY_m PauliY_m) 4 t; Ok (with_params g p m (g_umatrix g))
  | crzz => do t <- arg_scalar p; do m <- rot_m (kron PauliZ_m PauliZ_m) 4 t; Ok (with_params g p m (g_umatrix g))
  | ccphase => do t <- arg_scalar p;
      Ok (with_params g p (mat_of [[k1; k0; k0; k0]; [k0; k1; k0; k0]; [k0; k0; k1; k0]; [k0; k0; k0; (cos t, sin t) : K]])
                      (g_umatrix g))
  | cu3s => do l <- p_vec p; do m <- u3_m l; Ok (with_params g p m (g_umatrix g))
  | ccu3 => do l <- p_vec p; do u <- u3_m l; do m <- two_qubit_control_gate u 2 0 1; Ok (with_params g p m u)
  | _ => Ok g
  end.
