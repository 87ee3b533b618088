(** Model of the labels and of the method [info] of the gates (deepquantum/gates/qoperator.py) and of the layers
    (deepquantum/layers/qlayers.py).
    Simplification: the returned dict is a record with one field per key. *)
From Coq Require Import List ZArith Reals Bool Arith String DecimalString.
From Verif Require Import PyBase Scalar CInst Tensor QMath QTN QOperator QGates QLayers QCircuit.
Import ListNotations.

(** the dict {'label':..., 'contral_lst':..., 'target_lst':..., 'params':...}; an entry of the two lists is whatever the caller
    gave as wire, so that a one-qubit gate constructed with a list as wires has that list as its only target *)
Record info_t := mkInfo { i_label : string; i_contral : list pywires; i_target : list pywires; i_params : option pval }.

(** [str(n)] for a number n >= 0 *)
Definition str_nat (n : nat) : string := NilZero.string_of_uint (Nat.to_uint n).

(** the attribute label (qoperator.py:182, 221, 259, 298, 338, 390, 440, 487, 543, 612, 746, 882, 1016, 1235, 1383, 1541, 1718,
    1887, 2136).  Of the multi-controlled gate: [str(len(wires)-1)+"_control_cnot"], where wires is a list that is not empty
    because the constructor reads wires[-1] *)
Definition g_label (g : gate) : string :=
  match g_cls g with
  | cHadamard => "Hadamard" | cPauliX => "PauliX" | cPauliY => "PauliY" | cPauliZ => "PauliZ"
  | crx => "Rx" | cry => "Ry" | crz => "Rz" | cu1 => "u1" | cu3s => "u3"
  | crxx => "Rxx" | cryy => "Ryy" | crzz => "Rzz"
  | ccnot => "cnot" | ccz => "cz" | ccphase => "cphase" | ccu3 => "cu3"
  | cSWAP => "SWAP" | ctoffoli => "toffoli"
  | cmcx => String.append (str_nat (match g_wires g with WList l => List.length l - 1 | WInt _ => 0 end)) "_control_cnot"
  end%string.

(** qoperator.py:203-206, 242-245, 281-284, 320-323, 366-369, 416-419, 465-468, 519-522, 579-582, 718-721, 854-857, 988-991,
    1210-1213, 1362-1365, 1521-1524, 1679-1682, 1857-1860, 2110-2113, 2157-2160: info.
    The attributes control_lst and target_lst of toffoli (1894-1899) exist only when wires is given *)
Definition gate_info (g : gate) : res info_t :=
  match g_cls g with
  | cHadamard | cPauliX | cPauliY | cPauliZ => Ok (mkInfo (g_label g) [] [g_wires g] None)
  | crx | cry | crz | cu1 | cu3s => Ok (mkInfo (g_label g) [] [g_wires g] (g_params g))
  | crxx | cryy | crzz => do l <- wire_list (g_wires g); Ok (mkInfo (g_label g) [] (map WInt l) (g_params g))
  | ccnot | ccz =>
      do l <- wire_list (g_wires g); do a <- py_nth l 0; do b <- py_nth l 1; Ok (mkInfo (g_label g) [WInt a] [WInt b] None)
  | ccphase | ccu3 =>
      do l <- wire_list (g_wires g); do a <- py_nth l 0; do b <- py_nth l 1; Ok (mkInfo (g_label g) [WInt a] [WInt b] (g_params g))
  | cSWAP => do l <- wire_list (g_wires g); Ok (mkInfo (g_label g) [] (map WInt l) None)
  | ctoffoli =>
      match g_wires g with
      | WInt _ => Err AttributeError
      | WList l => do a <- py_nth l 0; do b <- py_nth l 1; do c <- py_nth l 2; Ok (mkInfo (g_label g) [WInt a; WInt b] [WInt c] None)
      end
  | cmcx =>
      do l <- wire_list (g_wires g); do t <- py_nth l (-1);
      Ok (mkInfo (g_label g) (map WInt (firstn (List.length l - 1) l)) [WInt t] None)
  end.

(** the attribute label of the single-gate layers (qlayers.py:121, 194, 270, 381, 460, 532, 599) *)
Definition sl_label (k : skind) : string :=
  match k with
  | XYZLayer => "XYZLayer" | ZYXLayer => "ZYXLayer" | YZYLayer => "YZYLayer" | XZXLayer => "XZXLayer"
  | XZLayer => "XZLayer" | ZXLayer => "ZXLayer" | HLayer => "HadamardLayer"
  end%string.

(** qlayers.py:177-179, 250-252, 356-358, 436-438, 505-507, 579-581, 622-624 *)
Definition slayer_info (s : slayer) : info_t :=
  mkInfo (sl_label (sl_kind s)) [] (map WInt (sl_wires s)) (match sl_kind s with HLayer => None | _ => Some (PV (sl_params s)) end).

(** qlayers.py:775-782, 882-889, 948-955: [target_lst = [self.wires[(i+d)%L] for i in range(L)]] *)
Definition ring_info (label : string) (d : nat) (r : ring) : res info_t :=
  let L := List.length (r_wires r) in
  do ts <- mmap (fun i => py_nth (r_wires r) ((i + Z.of_nat d) mod Z.of_nat L)%Z) (zrange L);
  if L =? 2 then do a <- py_nth (r_wires r) 0; do b <- py_nth (r_wires r) 1; Ok (mkInfo label [WInt a] [WInt b] None)
  else Ok (mkInfo label (map WInt (r_wires r)) (map WInt ts) None).

(** the labels qlayers.py:648, 801, 907, 984; info of BasicEntangleLayer 1010-1012 *)
Definition layer_info (l : layer) : res info_t :=
  match l with
  | LS s => Ok (slayer_info s)
  | LRing r => ring_info "ring_of_cnot_Layer" 1 r
  | LRingDag r => ring_info "ring_of_cnot_dagger" 1 r
  | LRing2 r => ring_info "ring_of_cnot2_Layer" 2 r
  | LBasic b => Ok (mkInfo "BasicEntangleLayer" [] (map WInt (b_wires b)) (Some (PV (b_params b))))
  end.

(** [each.info()] for an element of the attribute gate of a circuit (e.g. qcircuit.py:505) *)
Definition oper_info (o : oper) : res info_t := match o with OG g => gate_info g | OL l => layer_info l end.
