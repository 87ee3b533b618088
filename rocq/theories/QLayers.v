(** Model of deepquantum/layers/qlayers.py.  [wires] is a python list of ints and [params] a 1-dimensional tensor (a list
    given to a constructor is converted by it); giving an int for wires, or a list to params_update, is outside the model. *)
From Coq Require Import List ZArith QArith Reals Lia Bool Arith.
From Verif Require Import PyBase Scalar CInst BigSum Index Tensor QMath QTN QOperator QGates.
Import ListNotations.
Local Close Scope Q_scope.
Local Close Scope R_scope.
Local Open Scope nat_scope.

(** the classes derived from SingleGateLayer *)
Inductive skind := XYZLayer | ZYXLayer | YZYLayer | XZXLayer | XZLayer | ZXLayer | HLayer.

(** a SingleGateLayer object: class, nqubits, wires, params ([] for HLayer, which has no such attribute) *)
Record slayer := mkSL { sl_kind : skind; sl_N : Z; sl_wires : list Z; sl_params : list R }.

(** number of angles per wire in the test of __init__ *)
Definition per_wire (k : skind) : nat :=
  match k with XYZLayer | ZYXLayer | YZYLayer | XZXLayer => 3 | XZLayer | ZXLayer => 2 | HLayer => 0 end.

(** qlayers.py:116-130 XYZLayer.__init__, 189-203 ZYXLayer, 265-279 YZYLayer, 376-390 XZXLayer, 455-469 XZLayer, 527-541 ZXLayer,
    595-604 HLayer (which takes no params: pass []) *)
Definition new_slayer (k : skind) (N : Z) (wires : list Z) (params : list R) : res slayer :=
  raise_if (negb (per_wire k * length wires =? length params)) ValueError (
  raise_if (N <? Z.of_nat (length wires))%Z ValueError (
  Ok (mkSL k N wires params))).

(** [c*I - 1j*s*P] with c, s = cos, sin of 0.5*params[k] (e.g. qlayers.py:149-151) *)
Definition half_rot (P : tensor) (params : list R) (k : nat) : res tensor :=
  do t <- py_nth params (Z.of_nat k);
  tsub (tscale (cR (cos (1 / 2 * t))) (eye 2)) (tscale (cI (sin (1 / 2 * t))) P).

(** the matrix computed for the i-th wire: XYZLayer qlayers.py:144-161, ZYXLayer 217-234, YZYLayer 281-342, XZXLayer 392-422,
    XZLayer 471-490, ZXLayer 543-565, HLayer 608-609 *)
Definition wire_matrix (k : skind) (params : list R) (i : nat) : res tensor :=
  match k with
  | XYZLayer =>
      do xm <- half_rot PauliX_m params (3 * i + 0);
      do ym <- half_rot PauliY_m params (3 * i + 1);
      do zm <- half_rot PauliZ_m params (3 * i + 2);
      do a <- matmul zm ym; matmul a xm
  | ZYXLayer =>
      do zm <- half_rot PauliZ_m params (3 * i + 0);
      do ym <- half_rot PauliY_m params (3 * i + 1);
      do xm <- half_rot PauliX_m params (3 * i + 2);
      do a <- matmul xm ym; matmul a zm
  | YZYLayer =>
      do y1m <- half_rot PauliY_m params (3 * i + 0);
      do zm <- half_rot PauliZ_m params (3 * i + 1);
      do y2m <- half_rot PauliY_m params (3 * i + 2);
      do a <- matmul y2m zm; matmul a y1m
  | XZXLayer =>
      do x1m <- half_rot PauliX_m params (3 * i + 0);
      do zm <- half_rot PauliZ_m params (3 * i + 1);
      do x2m <- half_rot PauliX_m params (3 * i + 2);
      do a <- matmul x2m zm; matmul a x1m
  | XZLayer =>
      do xm <- half_rot PauliX_m params (2 * i + 0);
      do zm <- half_rot PauliZ_m params (2 * i + 1);
      matmul zm xm
  | ZXLayer =>
      do zm <- half_rot PauliZ_m params (2 * i + 0);
      do xm <- half_rot PauliX_m params (2 * i + 1);
      matmul xm zm
  | HLayer => Ok (tscale (cR (sqrt (1 / 2))) (mat_of [[cR 1; cR 1]; [cR 1; cR (-1)]]))
  end.

(** [enumerate(l)] *)
Definition enumerate {A} (l : list A) : list (nat * A) := combine (seq 0 (length l)) l.

(** the loop of the _cal_single_gates methods: entry [qbit] of the list of N identities becomes the matrix [wm i] of the i-th wire *)
Definition fill_wires (wm : nat -> res tensor) (N : Z) (wires : list Z) : res (list tensor) :=
  mfold (fun lst1 (iq : nat * Z) => do m <- wm (fst iq); py_set lst1 (snd iq) m) (enumerate wires) (eyes N).

(** _cal_single_gates: qlayers.py:132-163, 205-236, 281-342, 392-422, 471-490, 543-565, 606-613 *)
Definition cal_single_gates (l : slayer) : res (list tensor) :=
  fill_wires (wire_matrix (sl_kind l) (sl_params l)) (sl_N l) (sl_wires l).

(** U_expand: qlayers.py:165-167, 238-240, 344-346, 424-426, 492-494, 567-569, 615-617 *)
Definition slayer_U (l : slayer) : res tensor :=
  do lst1 <- cal_single_gates l; multi_kron lst1.

(** qlayers.py:37-48 SingleGateLayer.TN_operation after [lst1 = self._cal_single_gates()] *)
Definition base_TN_operation (lst1 : list tensor) (wires : list Z) (MPS : list tensor) : res (list tensor) :=
  mfold (fun MPS qbit =>
    do m <- py_nth lst1 qbit;
    do s <- py_nth MPS qbit;
    do s' <- einsum_ab_bcd m s;
    py_set MPS qbit s') wires MPS.

(** qlayers.py:50-70 SingleGateLayer.TN_contract after [lst1 = self._cal_single_gates()]; both branches are the code of
    [contract1_at] *)
Definition base_TN_contract (lst1 : list tensor) (N : Z) (wires : list Z) (MPS : tensor) (batch_mod : bool) : res tensor :=
  mfold (fun MPS qbit =>
    do m <- py_nth lst1 qbit;
    if batch_mod then contract1_at m (N + 1) (qbit + 1) MPS else contract1_at m N qbit MPS)
    wires MPS.

(** qlayers.py:37-48 *)
Definition slayer_TN_operation (l : slayer) (MPS : list tensor) : res (list tensor) :=
  do lst1 <- cal_single_gates l; base_TN_operation lst1 (sl_wires l) MPS.

(** qlayers.py:50-70 *)
Definition slayer_TN_contract (l : slayer) (MPS : tensor) (batch_mod : bool) : res tensor :=
  do lst1 <- cal_single_gates l; base_TN_contract lst1 (sl_N l) (sl_wires l) MPS batch_mod.

(** [params_tensor = -1*params], then the exchange of entries w*i and w*i+w-1 for every wire *)
Definition swap_entries (params : list R) (a b : nat) : res (list R) :=
  do temp <- py_nth params (Z.of_nat a);
  do y <- py_nth params (Z.of_nat b);
  do p <- py_set params (Z.of_nat a) y;
  py_set p (Z.of_nat b) temp.
(** qlayers.py:169-175, 242-248, 348-354, 428-434 (w = 3) and 497-503, 571-577 (w = 2) *)
Definition dagger_params (w : nat) (l : slayer) : res (list R) :=
  mfold (fun p i => swap_entries p (w * i + 0) (w * i + (w - 1))) (seq 0 (length (sl_wires l))) (map Ropp (sl_params l)).

(** operation_dagger: qlayers.py:169-175, 242-248, 348-354, 428-434, 497-503, 571-577, 619-620 *)
Definition slayer_dagger (l : slayer) : res slayer :=
  match sl_kind l with
  | XYZLayer => do p <- dagger_params 3 l; new_slayer ZYXLayer (sl_N l) (sl_wires l) p
  | ZYXLayer => do p <- dagger_params 3 l; new_slayer XYZLayer (sl_N l) (sl_wires l) p
  | YZYLayer => do p <- dagger_params 3 l; new_slayer YZYLayer (sl_N l) (sl_wires l) p
  | XZXLayer => do p <- dagger_params 3 l; new_slayer XZXLayer (sl_N l) (sl_wires l) p
  | XZLayer => do p <- dagger_params 2 l; new_slayer ZXLayer (sl_N l) (sl_wires l) p
  | ZXLayer => do p <- dagger_params 2 l; new_slayer XZLayer (sl_N l) (sl_wires l) p
  | HLayer => Ok l
  end.

(** params_update: qlayers.py:181-183, 254-256, 360-362, 440-442, 509-511, 583-585 (no check), 626-627 (nothing) *)
Definition slayer_params_update (l : slayer) (params : list R) : slayer :=
  match sl_kind l with HLayer => l | k => mkSL k (sl_N l) (sl_wires l) params end.

(** ring_of_cnot, ring_of_cnot_dagger, ring_of_cnot2 objects *)
Record ring := mkR { r_N : Z; r_wires : list Z }.

(** qlayers.py:641-653, 794-806, 901-912: __init__ *)
Definition new_ring (N : Z) (wires : list Z) : res ring :=
  raise_if (N <? Z.of_nat (length wires))%Z ValueError (
  raise_if (length wires <? 2) ValueError (
  Ok (mkR N wires))).

(** [cnot(N,[a,b]).U_expand()] *)
Definition cnot_U (N a b : Z) : res tensor := do g <- cnot N (WList [a; b]); U_expand g.

(** [self.wires == list(range(self.nqubits))] *)
Definition is_range (r : ring) : bool := if list_eq_dec Z.eq_dec (r_wires r) (zrange (Z.to_nat (r_N r))) then true else false.

(** qlayers.py:655-666 ring_of_cnot._gate_fusion_U_expand *)
Definition ring_fusion (N : Z) : res tensor :=
  raise_if (N <? 3)%Z ValueError (
  do rst <- cnot_U 2 0 1;
  mfold (fun rst i =>
    do cur_M <- cnot_U (Z.min (2 + i) N) i ((i + 1) mod N)%Z;
    if (i =? N - 1)%Z then matmul cur_M rst else matmul cur_M (kron rst (eye 2))) (zrange2 1 N) rst).
(** qlayers.py:668-683 ring_of_cnot.U_expand; [d] is 1 there and 2 in ring_of_cnot2 (929-943) *)
Definition ring_product (d : nat) (r : ring) : res tensor :=
  let L := length (r_wires r) in
  mfold (fun rst i =>
    do a <- py_nth (r_wires r) (Z.of_nat i);
    do b <- py_nth (r_wires r) (Z.of_nat ((i + d) mod L));
    do u <- cnot_U (r_N r) a b;
    matmul u rst) (seq 0 L) (eye (2 ^ Z.to_nat (r_N r))).
(** the two-wire case, qlayers.py:668-683 *)
Definition ring_two (r : ring) : res tensor :=
  do a <- py_nth (r_wires r) 0; do b <- py_nth (r_wires r) 1; cnot_U (r_N r) a b.
(** qlayers.py:668-683 ring_of_cnot.U_expand *)
Definition ring_U (r : ring) : res tensor :=
  if length (r_wires r) =? 2 then ring_two r
  else if is_range r then ring_fusion (r_N r)
  else ring_product 1 r.

(** qlayers.py:808-821 ring_of_cnot_dagger._gate_fusion_U_expand *)
Definition ring_dag_fusion (N : Z) : res tensor :=
  raise_if (N <? 3)%Z ValueError (
  do rst <- cnot_U 2 0 1;
  mfold (fun rst i =>
    do cur_M <- cnot_U (Z.min (2 + i) N) i ((i + 1) mod N)%Z;
    if (i =? N - 1)%Z then matmul rst cur_M else matmul (kron rst (eye 2)) cur_M) (zrange2 1 N) rst).
(** qlayers.py:823-835 ring_of_cnot_dagger.U_expand *)
Definition ring_dag_product (r : ring) : res tensor :=
  let L := length (r_wires r) in
  mfold (fun rst i =>
    do a <- py_nth (r_wires r) (Z.of_nat i);
    do b <- py_nth (r_wires r) (Z.of_nat ((i + 1) mod L));
    do u <- cnot_U (r_N r) a b;
    matmul rst u) (seq 0 L) (eye (2 ^ Z.to_nat (r_N r))).
(** qlayers.py:823-835 ring_of_cnot_dagger.U_expand *)
Definition ring_dag_U (r : ring) : res tensor :=
  if length (r_wires r) =? 2 then ring_two r
  else if is_range r then ring_dag_fusion (r_N r)
  else ring_dag_product r.

(** qlayers.py:915-926 ring_of_cnot2._gate_fusion_U_expand *)
Definition ring2_fusion (N : Z) : res tensor :=
  raise_if (N <? 3)%Z ValueError (
  do rst <- cnot_U 3 0 2;
  mfold (fun rst i =>
    do cur_M <- cnot_U (Z.min (3 + i) N) i ((i + 2) mod N)%Z;
    if (i =? N - 2)%Z || (i =? N - 1)%Z then matmul cur_M rst else matmul cur_M (kron rst (eye 2))) (zrange2 1 N) rst).
(** qlayers.py:929-943 ring_of_cnot2.U_expand *)
Definition ring2_U (r : ring) : res tensor :=
  if length (r_wires r) =? 2 then ring_two r
  else if is_range r then ring2_fusion (r_N r)
  else ring_product 2 r.

Section TN.
  Variable svd : tensor -> tensor * tensor * tensor.
  (** [cnot(N,[a,b]).TN_operation(MPS)], [SWAP(N,[a,b]).TN_operation(MPS)] *)
  Definition cnot_TN (N a b : Z) (MPS : list tensor) : res (list tensor) :=
    do g <- cnot N (WList [a; b]); TN_operation svd g MPS.
  (** [SWAP(N,[a,b]).TN_operation(MPS)] (qlayers.py:709-742) *)
  Definition swap_TN (N a b : Z) (MPS : list tensor) : res (list tensor) :=
    do g <- SWAP N (WList [a; b]); TN_operation svd g MPS.
  (** the closing cnot: qlayers.py:709-742 and 848-854 *)
  Definition closing_TN (N L : Z) (MPS : list tensor) : res (list tensor) :=
    do MPS <- mfold (fun MPS i =>
        if negb (i =? L - 2)%Z then swap_TN N i (i + 1)%Z MPS else cnot_TN N (i + 1)%Z i MPS) (zrange2 0 (L - 1)) MPS;
    mfold (fun MPS i => swap_TN N i (i + 1)%Z MPS) (zrange_down (L - 3) (-1)) MPS.
  (** qlayers.py:685-744 ring_of_cnot.TN_operation *)
  Definition ring_TN_operation (r : ring) (MPS : list tensor) : res (list tensor) :=
    raise_if (negb (is_range r)) ValueError (
    let L := Z.of_nat (length (r_wires r)) in
    do MPS <- mfold (fun MPS i => cnot_TN (r_N r) i (i + 1)%Z MPS) (zrange2 0 (L - 1)) MPS;
    if (r_N r =? 2)%Z then Ok MPS else closing_TN (r_N r) L MPS).
  (** qlayers.py:837-859 ring_of_cnot_dagger.TN_operation *)
  Definition ring_dag_TN_operation (r : ring) (MPS : list tensor) : res (list tensor) :=
    raise_if (negb (is_range r)) ValueError (
    let L := Z.of_nat (length (r_wires r)) in
    if (r_N r =? 2)%Z then cnot_TN 2 0 1 MPS else
    do MPS <- closing_TN (r_N r) L MPS;
    mfold (fun MPS i => cnot_TN (r_N r) i (i + 1)%Z MPS) (zrange_down (L - 2) (-1)) MPS).
End TN.

(** [cnot(N,[wires[i],wires[(i+1)%L]]).TN_contract(MPS,batch_mod)] *)
Definition ring_contract_step (r : ring) (batch_mod : bool) (N : Z) (MPS : tensor) (i : nat) : res tensor :=
  do a <- py_nth (r_wires r) (Z.of_nat i);
  do b <- py_nth (r_wires r) (Z.of_nat ((i + 1) mod length (r_wires r)));
  do g <- cnot N (WList [a; b]);
  TN_contract g MPS batch_mod.
(** qlayers.py:746-764 ring_of_cnot.TN_contract *)
Definition ring_TN_contract (r : ring) (MPS : tensor) (batch_mod : bool) : res tensor :=
  raise_if (negb (is_range r)) ValueError (
  if (r_N r =? 2)%Z then ring_contract_step r batch_mod 2 MPS 0
  else mfold (ring_contract_step r batch_mod (r_N r)) (seq 0 (length (r_wires r))) MPS).
(** qlayers.py:862-875 ring_of_cnot_dagger.TN_contract: i from L-1 down to 0 *)
Definition ring_dag_TN_contract (r : ring) (MPS : tensor) (batch_mod : bool) : res tensor :=
  raise_if (negb (is_range r)) ValueError (
  if (r_N r =? 2)%Z then ring_contract_step r batch_mod 2 MPS 0
  else mfold (ring_contract_step r batch_mod (r_N r)) (rev (seq 0 (length (r_wires r)))) MPS).

(** a BasicEntangleLayer object *)
Record basic := mkB { b_N : Z; b_wires : list Z; b_params : list R; b_repeat : Z; b_part1 : list slayer; b_part2 : list ring }.

(** [params[i*3*len(wires):(i+1)*3*len(wires)]] *)
Definition pslice {A} (l : list A) (a b : nat) : list A := firstn (b - a) (skipn a l).

(** qlayers.py:992-995, 1017-1021: the parts *)
Definition basic_parts (N : Z) (wires : list Z) (params : list R) (repeat : Z) : res (list slayer * list ring) :=
  let L := 3 * length wires in
  mfold (fun (ps : list slayer * list ring) i =>
    do y <- new_slayer YZYLayer N wires (pslice params (i * L) ((i + 1) * L));
    do c <- new_ring N wires;
    Ok (fst ps ++ [y], snd ps ++ [c])) (seq 0 (Z.to_nat repeat)) ([], []).
(** qlayers.py:974-997 BasicEntangleLayer.__init__ *)
Definition new_basic (N : Z) (wires : list Z) (params : list R) (repeat : Z) : res basic :=
  raise_if (negb (3 * Z.of_nat (length wires) * repeat =? Z.of_nat (length params))%Z) ValueError (
  raise_if (N <? Z.of_nat (length wires))%Z ValueError (
  raise_if (length wires <? 2) ValueError (
  raise_if (repeat <? 1)%Z ValueError (
  do ps <- basic_parts N wires params repeat;
  Ok (mkB N wires params repeat (fst ps) (snd ps)))))).
(** qlayers.py:999-1005 BasicEntangleLayer.U_expand *)
Definition basic_U (b : basic) : res tensor :=
  do r0 <- py_nth (b_part2 b) 0;
  do cnot_ring <- ring_U r0;
  mfold (fun rst i =>
    do p <- py_nth (b_part1 b) (Z.of_nat i);
    do u <- slayer_U p;
    do a <- matmul cnot_ring u;
    matmul a rst) (seq 0 (Z.to_nat (b_repeat b))) (eye (2 ^ Z.to_nat (b_N b))).
(** qlayers.py:1014-1021 BasicEntangleLayer.params_update.  (When a slice has the wrong length the exception leaves the
    object with the new params and fewer parts: that object is not modelled.) *)
Definition basic_params_update (b : basic) (params : list R) : res basic :=
  do ps <- basic_parts (b_N b) (b_wires b) params (b_repeat b);
  Ok (mkB (b_N b) (b_wires b) params (b_repeat b) (fst ps) (snd ps)).

(** any layer *)
Inductive layer := LS (l : slayer) | LRing (r : ring) | LRingDag (r : ring) | LRing2 (r : ring) | LBasic (b : basic).

(** U_expand of each layer class *)
Definition layer_U (l : layer) : res tensor :=
  match l with
  | LS s => slayer_U s | LRing r => ring_U r | LRingDag r => ring_dag_U r | LRing2 r => ring2_U r | LBasic b => basic_U b
  end.
(** TN_operation; ring_of_cnot2 and BasicEntangleLayer have none *)
Definition layer_TN_operation (svd : tensor -> tensor * tensor * tensor) (l : layer) (MPS : list tensor) : res (list tensor) :=
  match l with
  | LS s => slayer_TN_operation s MPS
  | LRing r => ring_TN_operation svd r MPS
  | LRingDag r => ring_dag_TN_operation svd r MPS
  | LRing2 _ | LBasic _ => Err AttributeError
  end.
(** TN_contract; likewise *)
Definition layer_TN_contract (l : layer) (MPS : tensor) (batch_mod : bool) : res tensor :=
  match l with
  | LS s => slayer_TN_contract s MPS batch_mod
  | LRing r => ring_TN_contract r MPS batch_mod
  | LRingDag r => ring_dag_TN_contract r MPS batch_mod
  | LRing2 _ | LBasic _ => Err AttributeError
  end.
(** operation_dagger: qlayers.py:771-772, 878-879; [None] (python's None) for ring_of_cnot2 (945-946) and BasicEntangleLayer
    (1007-1008), whose method has an empty body *)
Definition layer_dagger (l : layer) : res (option layer) :=
  match l with
  | LS s => do s' <- slayer_dagger s; Ok (Some (LS s'))
  | LRing r => do r' <- new_ring (r_N r) (r_wires r); Ok (Some (LRingDag r'))
  | LRingDag r => do r' <- new_ring (r_N r) (r_wires r); Ok (Some (LRing r'))
  | LRing2 _ | LBasic _ => Ok None
  end.
(** params_update: nothing happens for the rings (qlayers.py:784-785, 891-892, 957-958) *)
Definition layer_params_update (l : layer) (params : list R) : res layer :=
  match l with
  | LS s => Ok (LS (slayer_params_update s params))
  | LBasic b => do b' <- basic_params_update b params; Ok (LBasic b')
  | l => Ok l
  end.
(** the attribute supportTN *)
Definition layer_supportTN (l : layer) : bool := match l with LRing2 _ | LBasic _ => false | _ => true end.
(** the attribute num_params *)
Definition layer_num_params (l : layer) : nat :=
  match l with
  | LS s => length (sl_params s)
  | LBasic b => length (b_params b)
  | _ => 0
  end.
