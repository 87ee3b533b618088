(** Textbook identities between short gate sequences on the wires 0, 1, 2.  Each entry says: on k qubits, the first sequence is the second
    one times the number z.  Specification: uses no model function. *)
From Coq Require Import List Reals.
From Verif Require Import CInst GateSpec.
Import ListNotations.

Record ident := mkId { id_k : nat; id_z : C; id_l : list gi; id_r : list gi }.
Definition same (k : nat) (l r : list gi) : ident := mkId k (RtoC 1) l r.
Definition minus (k : nat) (l r : list gi) : ident := mkId k (RtoC (-1)) l r.

(** consecutive rotations add their angles *)
Definition sums (s t : R) : list ident :=
  [same 1 [gi_rx s 0; gi_rx t 0] [gi_rx (s + t) 0]; same 1 [gi_ry s 0; gi_ry t 0] [gi_ry (s + t) 0];
   same 1 [gi_rz s 0; gi_rz t 0] [gi_rz (s + t) 0]; same 1 [gi_u1 s 0; gi_u1 t 0] [gi_u1 (s + t) 0];
   same 2 [gi_rxx s 0 1; gi_rxx t 0 1] [gi_rxx (s + t) 0 1]; same 2 [gi_ryy s 0 1; gi_ryy t 0 1] [gi_ryy (s + t) 0 1];
   same 2 [gi_rzz s 0 1; gi_rzz t 0 1] [gi_rzz (s + t) 0 1]; same 2 [gi_cphase s 0 1; gi_cphase t 0 1] [gi_cphase (s + t) 0 1]].
(** angle 0 *)
Definition zeros : list ident :=
  [same 1 [gi_rx 0 0] []; same 1 [gi_ry 0 0] []; same 1 [gi_rz 0 0] []; same 1 [gi_u1 0 0] []; same 1 [gi_u3 0 0 0 0] [];
   same 2 [gi_rxx 0 0 1] []; same 2 [gi_ryy 0 0 1] []; same 2 [gi_rzz 0 0 1] []; same 2 [gi_cphase 0 0 1] []; same 2 [gi_cu3 0 0 0 0 1] []].
(** a full turn; the controlled u3 is not periodic in 2 pi, a full turn leaves a Z on the control *)
Definition turns (t p l : R) : list ident :=
  [minus 1 [gi_rx (t + 2 * PI) 0] [gi_rx t 0]; minus 1 [gi_ry (t + 2 * PI) 0] [gi_ry t 0]; minus 1 [gi_rz (t + 2 * PI) 0] [gi_rz t 0];
   same 1 [gi_u1 (t + 2 * PI) 0] [gi_u1 t 0]; minus 1 [gi_u3 (t + 2 * PI) p l 0] [gi_u3 t p l 0];
   minus 2 [gi_rxx (t + 2 * PI) 0 1] [gi_rxx t 0 1]; minus 2 [gi_ryy (t + 2 * PI) 0 1] [gi_ryy t 0 1]; minus 2 [gi_rzz (t + 2 * PI) 0 1] [gi_rzz t 0 1];
   same 2 [gi_cphase (t + 2 * PI) 0 1] [gi_cphase t 0 1]; same 2 [gi_cu3 (t + 2 * PI) p l 0 1] [gi_cu3 t p l 0 1; gi_Z 0]].
(** half a turn *)
Definition halves : list ident :=
  [mkId 1 (Copp Ci) [gi_rx PI 0] [gi_X 0]; mkId 1 (Copp Ci) [gi_ry PI 0] [gi_Y 0]; mkId 1 (Copp Ci) [gi_rz PI 0] [gi_Z 0];
   same 1 [gi_u1 PI 0] [gi_Z 0]; same 2 [gi_cphase PI 0 1] [gi_cz 0 1];
   mkId 2 (Copp Ci) [gi_rxx PI 0 1] [gi_X 0; gi_X 1]; mkId 2 (Copp Ci) [gi_ryy PI 0 1] [gi_Y 0; gi_Y 1]; mkId 2 (Copp Ci) [gi_rzz PI 0 1] [gi_Z 0; gi_Z 1]].
(** gates that undo themselves *)
Definition involutions : list ident :=
  [same 1 [gi_H 0; gi_H 0] []; same 1 [gi_X 0; gi_X 0] []; same 1 [gi_Y 0; gi_Y 0] []; same 1 [gi_Z 0; gi_Z 0] [];
   same 2 [gi_cnot 0 1; gi_cnot 0 1] []; same 2 [gi_cz 0 1; gi_cz 0 1] []; same 2 [gi_swap 0 1; gi_swap 0 1] [];
   same 3 [gi_toffoli 0 1 2; gi_toffoli 0 1 2] []].
(** products of Pauli gates; conjugation by H, X, Z *)
Definition conjugations (t : R) : list ident :=
  [mkId 1 (Copp Ci) [gi_X 0; gi_Y 0] [gi_Z 0]; mkId 1 (Copp Ci) [gi_Y 0; gi_Z 0] [gi_X 0]; mkId 1 (Copp Ci) [gi_Z 0; gi_X 0] [gi_Y 0];
   same 1 [gi_H 0; gi_X 0; gi_H 0] [gi_Z 0]; same 1 [gi_H 0; gi_Z 0; gi_H 0] [gi_X 0]; minus 1 [gi_H 0; gi_Y 0; gi_H 0] [gi_Y 0];
   same 1 [gi_H 0; gi_rx t 0; gi_H 0] [gi_rz t 0]; same 1 [gi_H 0; gi_rz t 0; gi_H 0] [gi_rx t 0]; same 1 [gi_H 0; gi_ry t 0; gi_H 0] [gi_ry (- t) 0];
   same 1 [gi_X 0; gi_rz t 0; gi_X 0] [gi_rz (- t) 0]; same 1 [gi_X 0; gi_ry t 0; gi_X 0] [gi_ry (- t) 0]; same 1 [gi_Z 0; gi_rx t 0; gi_Z 0] [gi_rx (- t) 0]].
(** u1, u3, cu3 and the rotations *)
Definition euler (t p l : R) : list ident :=
  [mkId 1 (Cexpi (t / 2)) [gi_u1 t 0] [gi_rz t 0]; same 1 [gi_rz l 0; gi_ry t 0; gi_rz p 0] [gi_u3 t p l 0];
   same 1 [gi_u3 t 0 0 0] [gi_ry t 0]; same 1 [gi_u3 0 0 t 0] [gi_rz t 0]; same 1 [gi_u3 t (- (PI / 2)) (PI / 2) 0] [gi_rx t 0];
   mkId 1 (Copp Ci) [gi_u3 (PI / 2) 0 PI 0] [gi_H 0];
   same 2 [gi_cu3 0 0 t 0 1; gi_u1 (t / 2) 0] [gi_cphase t 0 1]].
(** exchanging the wires *)
Definition symmetries (t : R) : list ident :=
  [same 2 [gi_cz 0 1] [gi_cz 1 0]; same 2 [gi_cphase t 0 1] [gi_cphase t 1 0]; same 2 [gi_swap 0 1] [gi_swap 1 0];
   same 2 [gi_rxx t 0 1] [gi_rxx t 1 0]; same 2 [gi_ryy t 0 1] [gi_ryy t 1 0]; same 2 [gi_rzz t 0 1] [gi_rzz t 1 0];
   same 3 [gi_toffoli 0 1 2] [gi_toffoli 1 0 2]; same 2 [gi_swap 0 1; gi_cnot 0 1; gi_swap 0 1] [gi_cnot 1 0];
   same 2 [gi_swap 0 1; gi_rx t 0] [gi_rx t 1; gi_swap 0 1]; same 2 [gi_swap 0 1; gi_ry t 0] [gi_ry t 1; gi_swap 0 1]; same 2 [gi_swap 0 1; gi_rz t 0] [gi_rz t 1; gi_swap 0 1]].
(** two-qubit gates made of others *)
Definition decompositions (t : R) : list ident :=
  [same 2 [gi_swap 0 1] [gi_cnot 0 1; gi_cnot 1 0; gi_cnot 0 1]; same 2 [gi_H 1; gi_cz 0 1; gi_H 1] [gi_cnot 0 1];
   same 2 [gi_cnot 0 1; gi_rz t 1; gi_cnot 0 1] [gi_rzz t 0 1]; same 2 [gi_H 0; gi_H 1; gi_rzz t 0 1; gi_H 0; gi_H 1] [gi_rxx t 0 1];
   same 2 [gi_X 0; gi_cnot 0 1] [gi_cnot 0 1; gi_X 0; gi_X 1]; same 2 [gi_Z 1; gi_cnot 0 1] [gi_cnot 0 1; gi_Z 0; gi_Z 1];
   same 2 [gi_rz t 0; gi_cnot 0 1] [gi_cnot 0 1; gi_rz t 0]; same 2 [gi_rx t 1; gi_cnot 0 1] [gi_cnot 0 1; gi_rx t 1];
   same 2 [gi_cnot 0 1] [gi_mcx [0] 1]; same 3 [gi_toffoli 0 1 2] [gi_mcx [0; 1] 2]].

Definition identities (s t p l : R) : list ident :=
  sums s t ++ zeros ++ turns t p l ++ halves ++ involutions ++ conjugations t ++ euler t p l ++ symmetries t ++ decompositions t.
