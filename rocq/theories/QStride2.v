(** Whole circuits with memory layouts: the functions of qlayers.py and qcircuit.py that evolve a state, on top of
    QStride.v.

    The matrix of a gate or layer is built by torch.tensor, cat, kron, einsum and products; which layout it has in
    memory is the argument [lay] (simplified: the layout is a function of the matrix, so two equal matrices have the
    same layout). *)
From Coq Require Import List ZArith QArith Reals Lia Bool Arith.
From Coquelicot Require Import Complex.
From Verif Require Import PyBase Scalar CInst BigSum Index Tensor QMath QTN QOperator QGates QMathC QLayers QCircuit QStride.
Import ListNotations.
Local Close Scope Q_scope.
Local Open Scope nat_scope.

Section QStride2.
  Variable svd : tensor -> tensor * tensor * tensor.
  Variable svd_lay : stensor -> list nat * list nat * list nat.
  Variable mmT : stensor -> stensor -> bool.
  Variable ein_lay : stensor -> stensor -> list nat.
  Variable lay : tensor -> list nat.

  (** a gate matrix in memory *)
  Definition place (t : tensor) : stensor := mkS t (lay t).
  (** a gate matrix in memory, or the exception computing it *)
  Definition place_res (r : res tensor) : res stensor := do t <- r; Ok (place t).

  (** qoperator.py: TN_operation of each gate class; the model without layouts is [TN_operation] of QGates.v *)
  Definition s_TN_operation (g : gate) (MPS : list stensor) : res (list stensor) :=
    let M := place (g_matrix g) in
    match g_cls g with
    | cHadamard | cPauliX | cPauliY | cPauliZ | crx | cry | crz | cu1 | cu3s => s_single_TN_operation ein_lay M (g_N g) (g_wires g) MPS
    | crxx | cryy | crzz | cmcx => Err AttributeError
    | ccnot => s_cnot_TN_operation svd svd_lay mmT M (place_res rev_cnot) (g_N g) (g_wires g) MPS
    | ccz => s_ctrl_TN_operation svd svd_lay mmT M (place_res rev_cz) (g_N g) (g_wires g) MPS
    | ccphase => s_ctrl_TN_operation svd svd_lay mmT M (place_res (rev_cphase g)) (g_N g) (g_wires g) MPS
    | ccu3 => s_ctrl_TN_operation svd svd_lay mmT M (place_res (rev_cu3 g)) (g_N g) (g_wires g) MPS
    | cSWAP => s_swap_TN_operation svd svd_lay mmT (g_N g) (g_wires g) MPS
    | ctoffoli => s_toffoli_TN_operation svd svd_lay mmT M (place_res mid_toffoli) (place_res up_toffoli) (g_N g) (g_wires g) MPS
    end.

  (** qoperator.py: TN_contract of each gate class *)
  Definition s_TN_contract (g : gate) (MPS : stensor) (batch_mod : bool) : res stensor :=
    let M := place (g_matrix g) in
    match g_cls g with
    | cHadamard | cPauliX | cPauliY | cPauliZ | crx | cry | crz | cu1 | cu3s => s_single_TN_contract mmT M (g_N g) (g_wires g) MPS batch_mod
    | crxx | cryy | crzz | ccnot | ccz | ccphase | ccu3 => s_double_TN_contract mmT M (g_N g) (g_wires g) MPS batch_mod
    | cSWAP => s_swap_TN_contract (g_N g) (g_wires g) MPS batch_mod
    | ctoffoli => s_triple_TN_contract mmT M (g_N g) (g_wires g) MPS batch_mod
    | cmcx => Err AttributeError
    end.

  (** qlayers.py:37-48 SingleGateLayer.TN_operation *)
  Definition s_slayer_TN_operation (l : slayer) (MPS : list stensor) : res (list stensor) :=
    do lst1 <- cal_single_gates l;
    mfold (fun MPS qbit =>
      do m <- py_nth lst1 qbit;
      do s <- py_nth MPS qbit;
      do s' <- s_einsum_ab_bcd ein_lay (place m) s;
      py_set MPS qbit s') (sl_wires l) MPS.

  (** qlayers.py:50-70 SingleGateLayer.TN_contract *)
  Definition s_slayer_TN_contract (l : slayer) (MPS : stensor) (batch_mod : bool) : res stensor :=
    do lst1 <- cal_single_gates l;
    mfold (fun MPS qbit =>
      do m <- py_nth lst1 qbit;
      if batch_mod then s_contract1_at mmT (place m) (sl_N l + 1) (qbit + 1) MPS else s_contract1_at mmT (place m) (sl_N l) qbit MPS)
      (sl_wires l) MPS.

  (** [cnot(N,[a,b]).TN_operation(MPS)], [SWAP(N,[a,b]).TN_operation(MPS)] *)
  Definition s_cnot_TN (N a b : Z) (MPS : list stensor) : res (list stensor) :=
    do g <- cnot N (WList [a; b]); s_TN_operation g MPS.
  (** [SWAP(N,[a,b]).TN_operation(MPS)] (qlayers.py:709-742) *)
  Definition s_swap_TN (N a b : Z) (MPS : list stensor) : res (list stensor) :=
    do g <- SWAP N (WList [a; b]); s_TN_operation g MPS.
  (** qlayers.py:709-742 and 848-854 *)
  Definition s_closing_TN (N L : Z) (MPS : list stensor) : res (list stensor) :=
    do MPS <- mfold (fun MPS i =>
        if negb (i =? L - 2)%Z then s_swap_TN N i (i + 1)%Z MPS else s_cnot_TN N (i + 1)%Z i MPS) (zrange2 0 (L - 1)) MPS;
    mfold (fun MPS i => s_swap_TN N i (i + 1)%Z MPS) (zrange_down (L - 3) (-1)) MPS.
  (** qlayers.py:685-744 ring_of_cnot.TN_operation *)
  Definition s_ring_TN_operation (r : ring) (MPS : list stensor) : res (list stensor) :=
    raise_if (negb (is_range r)) ValueError (
    let L := Z.of_nat (length (r_wires r)) in
    do MPS <- mfold (fun MPS i => s_cnot_TN (r_N r) i (i + 1)%Z MPS) (zrange2 0 (L - 1)) MPS;
    if (r_N r =? 2)%Z then Ok MPS else s_closing_TN (r_N r) L MPS).
  (** qlayers.py:837-859 ring_of_cnot_dagger.TN_operation *)
  Definition s_ring_dag_TN_operation (r : ring) (MPS : list stensor) : res (list stensor) :=
    raise_if (negb (is_range r)) ValueError (
    let L := Z.of_nat (length (r_wires r)) in
    if (r_N r =? 2)%Z then s_cnot_TN 2 0 1 MPS else
    do MPS <- s_closing_TN (r_N r) L MPS;
    mfold (fun MPS i => s_cnot_TN (r_N r) i (i + 1)%Z MPS) (zrange_down (L - 2) (-1)) MPS).

  (** qlayers.py:746-764, 862-875: one cnot of a ring on a rank-N tensor *)
  Definition s_ring_contract_step (r : ring) (batch_mod : bool) (N : Z) (MPS : stensor) (i : nat) : res stensor :=
    do a <- py_nth (r_wires r) (Z.of_nat i);
    do b <- py_nth (r_wires r) (Z.of_nat ((i + 1) mod length (r_wires r)));
    do g <- cnot N (WList [a; b]);
    s_TN_contract g MPS batch_mod.
  (** qlayers.py:746-764 ring_of_cnot.TN_contract *)
  Definition s_ring_TN_contract (r : ring) (MPS : stensor) (batch_mod : bool) : res stensor :=
    raise_if (negb (is_range r)) ValueError (
    if (r_N r =? 2)%Z then s_ring_contract_step r batch_mod 2 MPS 0
    else mfold (s_ring_contract_step r batch_mod (r_N r)) (seq 0 (length (r_wires r))) MPS).
  (** qlayers.py:862-875 ring_of_cnot_dagger.TN_contract *)
  Definition s_ring_dag_TN_contract (r : ring) (MPS : stensor) (batch_mod : bool) : res stensor :=
    raise_if (negb (is_range r)) ValueError (
    if (r_N r =? 2)%Z then s_ring_contract_step r batch_mod 2 MPS 0
    else mfold (s_ring_contract_step r batch_mod (r_N r)) (rev (seq 0 (length (r_wires r)))) MPS).

  (** the TN_operation and TN_contract methods of any gate or layer object *)
  Definition s_o_TN_operation (o : oper) (MPS : list stensor) : res (list stensor) :=
    match o with
    | OG g => s_TN_operation g MPS
    | OL (LS s) => s_slayer_TN_operation s MPS
    | OL (LRing r) => s_ring_TN_operation r MPS
    | OL (LRingDag r) => s_ring_dag_TN_operation r MPS
    | OL (LRing2 _) | OL (LBasic _) => Err AttributeError
    end.
  (** [oper.TN_contract(MPS, batch_mod)] (qcircuit.py:82-96) *)
  Definition s_o_TN_contract (o : oper) (MPS : stensor) (batch_mod : bool) : res stensor :=
    match o with
    | OG g => s_TN_contract g MPS batch_mod
    | OL (LS s) => s_slayer_TN_contract s MPS batch_mod
    | OL (LRing r) => s_ring_TN_contract r MPS batch_mod
    | OL (LRingDag r) => s_ring_dag_TN_contract r MPS batch_mod
    | OL (LRing2 _) | OL (LBasic _) => Err AttributeError
    end.

  (** qcircuit.py:64-77 TN_evolution *)
  Definition s_TN_evolution (c : circuit) (MPS : list stensor) : res (list stensor) :=
    raise_if (negb (length MPS =? c_N c)) ValueError (
    mfold (fun MPS o => if o_supportTN o then s_o_TN_operation o MPS else Err ValueError) (c_gate c) MPS).

  (** qcircuit.py:82-96 TN_contract_evolution *)
  Definition s_TN_contract_evolution (c : circuit) (MPS : stensor) (batch_mod : bool) : res stensor :=
    raise_if (negb (length (shape (val MPS)) =? (if batch_mod then c_N c + 1 else c_N c))) AssertionError (
    mfold (fun MPS o => if o_supportTN o then s_o_TN_contract o MPS batch_mod else Err ValueError) (c_gate c) MPS).

  (** qcircuit.py:51-62 U, left_to_right=True *)
  Definition s_cU (c : circuit) : res stensor :=
    mfold (fun U_overall o => do u <- place_res (o_U o); s_matmul mmT u U_overall) (c_gate c) (fresh (eye (2 ^ c_N c))).

  (** [( psi_f.view(1,-1).conj() @ M @ psi_f.view(-1,1) ).real.squeeze()], qcircuit.py:110, 113 *)
  Definition s_quad_form (psi_f M : stensor) : res R :=
    do a <- s_view psi_f [1%Z; (-1)%Z];
    do b <- s_view psi_f [(-1)%Z; 1%Z];
    do x <- s_matmul mmT (s_conj a) M;
    do y <- s_matmul mmT x b;
    match data (val y) with [z] => Ok (Re z) | _ => Err TorchError end.

  (** qcircuit.py:100-115 cir_expectation *)
  Definition s_cir_expectation (c : circuit) (init_state M : stensor) (TN : bool) : res R :=
    do s0 <- shape_at (val init_state) 0;
    raise_if (negb (s0 =? 1)) ValueError (
    do s1 <- shape_at (val init_state) 1;
    raise_if (negb (s1 =? 2 ^ c_N c)) ValueError (
    do m0 <- shape_at (val M) 0;
    do m1 <- shape_at (val M) 1;
    raise_if (negb (m0 =? m1)) ValueError (
    if TN_check c && TN then
      do v <- s_view init_state [1%Z; (-1)%Z];
      do MPS <- s_StateVec2MPS svd svd_lay mmT v (c_N c);
      do MPS' <- s_TN_evolution c MPS;
      do psi_f <- s_MPS2StateVec mmT MPS';
      s_quad_form psi_f M
    else
      do u <- s_cU c;
      do v <- s_view init_state [(-1)%Z; 1%Z];
      do psi_f <- s_matmul mmT u v;
      s_quad_form psi_f M))).

  (** qmath.py:18-26 dag *)
  Definition s_dag (x : stensor) : res stensor :=
    raise_if (negb (length (shape (val x)) =? 2)) ValueError (s_permute (s_conj x) [1%Z; 0%Z]).

  (** qmath.py:225-239 expval; [torch.trace] reads the elements, whatever the layout *)
  Definition s_expval (state M : stensor) (rho : bool) : res R :=
    if rho then
      do tr <- ttrace (val state);
      raise_if (Cabsgt (Csub tr (RtoC 1)) (1 # 10000)) ValueError (
      do p <- s_matmul mmT state M; do t <- ttrace (val p); Ok (Re t))
    else
      do state <- s_view state [(-1)%Z; 1%Z];
      do d <- s_dag state;
      do a <- s_matmul mmT d M; do m1 <- s_matmul mmT a state;
      do r <- s_diag m1;
      Ok (Re (nth 0 (data (val (s_squeeze r))) (RtoC 0))).

  (** qmath.py:242-253 measure *)
  Definition s_measure (n_qubit : Z) (state : stensor) (ith : ith_arg) : res (list R) :=
    let state := s_squeeze state in
    let rho := negb (length (shape (val state)) =? 1) in
    do M_lst <- Zmeasure n_qubit ith;
    mmap (fun Mi => s_expval state (place Mi) rho) M_lst.
End QStride2.
