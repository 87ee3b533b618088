(** Properties of matrix product states (C11-C13, C36, C37, C42, C47, C49).  Specifications used in the statements:
    Spec.v, GateSpec.v, RunSpec.v, MPSSpec.v; GateCalls.v lists the constructor calls.  [svd] stands for torch.svd:
    what is assumed of it is written in each statement. *)
From Coq Require Import List ZArith QArith Reals Lra Lia Bool Arith.
From Verif Require Import PyBase Scalar CInst BigSum Index Tensor Spec SpecFacts QMath QTN QMathC QOperator
  GateSpec QGates GateCalls RunSpec MPSSpec ExpandFacts ExpandFacts2 MPSFacts7 MPSFacts8 MPSFacts9 MPSFacts10 MPSFacts11 MPSFacts12 MPSCases.
Import ListNotations.
Local Close Scope Q_scope.
Local Close Scope R_scope.
Local Open Scope nat_scope.

(** C11: one gate applied to a matrix product state of any bonds, on any valid wires *)
Theorem C11_gate_on_mps : forall svd n g l psi, exact_svd svd -> gi_ok n g -> has_TN g = true -> is_mps n l psi -> nonzero n psi ->
  exists o u l', build n g = Ok o /\ U_expand o = Ok u /\ TN_operation svd o l = Ok l' /\ is_mps n l' (act n (op_of u) psi).
Proof. exact mps_gate. Qed.
Print Assumptions C11_gate_on_mps.
Example C11_case : exact_svd triv_svd /\ gi_ok 3 (gi_toffoli 2 0 1) /\ has_TN (gi_toffoli 2 0 1) = true /\
  is_mps 3 ghz_mps ghz /\ nonzero 3 ghz.
Proof.
  split; [exact some_exact_svd|]. split; [|split; [reflexivity|split; [exact ghz_is_mps|exact ghz_nonzero]]].
  giok.
Qed.

(** C11: any sequence of gates *)
Theorem C11_gates_on_mps : forall svd n gs l psi, exact_svd svd -> Forall (gi_ok n) gs -> forallb has_TN gs = true ->
  is_mps n l psi -> nonzero n psi ->
  exists os l', mmap (build n) gs = Ok os /\ mfold (fun l o => TN_operation svd o l) os l = Ok l' /\ is_mps n l' (act n (gs_op n gs) psi).
Proof. exact mps_run. Qed.
Print Assumptions C11_gates_on_mps.
Example C11_sequence_case : Forall (gi_ok 3) [gi_cnot 2 0; gi_u3 1 2 3 1; gi_swap 0 2].
Proof.
  repeat (constructor; [giok|]). constructor.
Qed.

(** C11: the decomposition need only be exact on the matrices that occur (the set [ok]) *)
Theorem C11_gates_on_mps_where_exact : forall ok svd n gs os l psi l', (forall A, ok A = true -> exact_at svd A) ->
  Forall (gi_ok n) gs -> forallb has_TN gs = true -> is_mps n l psi -> nonzero n psi ->
  mmap (build n) gs = Ok os -> mfold (fun l o => TN_operation (strict ok svd) o l) os l = Ok l' ->
  mfold (fun l o => TN_operation svd o l) os l = Ok l' /\ is_mps n l' (act n (gs_op n gs) psi).
Proof. exact mps_run_strict. Qed.
Print Assumptions C11_gates_on_mps_where_exact.
Example C11_where_exact_case : exists os l', mmap (build 3) [gi_cnot 2 0] = Ok os /\
  mfold (fun l o => TN_operation (strict (fun _ => true) triv_svd) o l) os ghz_mps = Ok l'.
Proof.
  destruct (mps_run (strict (fun _ => true) triv_svd) 3 [gi_cnot 2 0] ghz_mps ghz) as (os & l' & E & F & _).
  - exact some_exact_svd.
  - constructor; [|constructor]. giok.
  - reflexivity.
  - exact ghz_is_mps.
  - exact ghz_nonzero.
  - now exists os, l'.
Qed.

(** C12: from a state vector to a matrix product state and back *)
Theorem C12_round_trip : forall (SC : Scalar) svd N t psi, exact_svd svd -> 0 < N -> is_state N [1; 2 ^ N] t psi -> nonzero N psi ->
  exists l t', StateVec2MPS svd t N = Ok l /\ is_mps N l psi /\ MPS2StateVec l = Ok t /\
    MPS2StateTensor l = Ok t' /\ is_state N (repeat 2 N) t' psi.
Proof. exact @round_trip. Qed.
Print Assumptions C12_round_trip.
Example C12_case : is_state 3 [1; 8] (tbuild [1; 8] (fun i => if (nth 1 i 0 =? 0) || (nth 1 i 0 =? 7) then RtoC 1 else RtoC 0)) ghz /\
  nonzero 3 ghz.
Proof.
  split; [|exact ghz_nonzero]. split; [reflexivity|]. split; [reflexivity|]. intros b Hb. cbn in Hb.
  repeat (destruct Hb as [<-|Hb]); [..|destruct Hb]; reflexivity.
Qed.
(** C12: a matrix product state gives its amplitudes back, in both formats *)
Theorem C12_amplitudes : forall (SC : Scalar) n l psi, 0 < n -> is_mps n l psi ->
  exists t t', MPS2StateVec l = Ok t /\ is_state n [1; 2 ^ n] t psi /\ MPS2StateTensor l = Ok t' /\ is_state n (repeat 2 n) t' psi.
Proof. exact @mps_amplitudes. Qed.
Print Assumptions C12_amplitudes.
Example C12_amplitudes_case : is_mps 3 ghz_mps ghz.
Proof. exact ghz_is_mps. Qed.
Theorem C12_wrong_shapes_rejected : forall (SC : Scalar) svd t N, shape t <> [1; 2 ^ N] ->
  StateVec2MPS svd t N = Err ValueError /\ MatrixProductState t N = Err ValueError.
Proof. exact @wrong_shape. Qed.
Print Assumptions C12_wrong_shapes_rejected.
Example C12_wrong_case : shape (zeros [8]) <> [1; 2 ^ 3].
Proof. discriminate. Qed.

(** C13: only the shapes of the factors returned by torch.svd matter *)
Theorem C13_initial_shape : forall (SC : Scalar) svd N t l, svd_shapes svd -> 0 < N -> wf t -> StateVec2MPS svd t N = Ok l -> mps_shape N l.
Proof. intros SC svd N t l Hs. exact (StateVec2MPS_shape svd Hs N t l). Qed.
Print Assumptions C13_initial_shape.
Example C13_initial_case : exists l, StateVec2MPS triv_svd (mkT [1; 8] (map ghz (bits 3))) 3 = Ok l.
Proof.
  destruct (round_trip (SC := C_scalar) triv_svd 3 (mkT [1; 8] (map ghz (bits 3))) ghz some_exact_svd) as (l & t' & E & _).
  - lia.
  - split; [reflexivity|]. split; [reflexivity|]. intros b Hb. cbn in Hb. repeat (destruct Hb as [<-|Hb]; [reflexivity|]). destruct Hb.
  - exact ghz_nonzero.
  - now exists l.
Qed.
Theorem C13_shape_preserved : forall svd n gs os l l', svd_shapes svd -> Forall (gi_ok n) gs -> mps_shape n l ->
  mmap (build n) gs = Ok os -> mfold (fun l o => TN_operation svd o l) os l = Ok l' -> mps_shape n l'.
Proof. exact mps_run_shape. Qed.
Print Assumptions C13_shape_preserved.
Example C13_case : svd_shapes triv_svd /\ mps_shape 3 ghz_mps.
Proof. split; [exact (exact_shapes _ some_exact_svd)|exact (proj1 ghz_is_mps)]. Qed.

(** C36: the inner product, when every inner bond of both states is at least 2 *)
Theorem C36_inner_product : forall (SC : Scalar) n ket bra f g, 2 <= n -> is_mps n ket f -> is_mps n bra g ->
  (forall i, S i < n -> 2 <= bond ket i /\ 2 <= bond bra i) ->
  MPS_inner_product ket bra = Ok (inner n g f).
Proof. exact @inner_product_ok. Qed.
Print Assumptions C36_inner_product.
Example C36_case : forall i, S i < 3 -> 2 <= bond ghz_mps i /\ 2 <= bond ghz_mps i.
Proof. intros [|[|i]] H; [cbn; lia..|lia]. Qed.
(** C36: otherwise it fails (never a wrong number) *)
Theorem C36_bond_one_fails : forall (SC : Scalar) n ket bra i, 2 <= n -> mps_shape n ket -> mps_shape n bra -> S i < n ->
  bond ket i = 1 \/ bond bra i = 1 -> MPS_inner_product ket bra = Err TorchError.
Proof. exact @inner_product_narrow. Qed.
Print Assumptions C36_bond_one_fails.
Theorem C36_one_qubit_fails : forall (SC : Scalar) ket bra, mps_shape 1 ket -> mps_shape 1 bra ->
  MPS_inner_product ket bra = Err UnboundLocalError.
Proof. exact @inner_product_one. Qed.
Print Assumptions C36_one_qubit_fails.
Example C36_one_qubit_case : mps_shape 1 [tbuild [2; 1; 1] (fun _ => RtoC 1)].
Proof. split; [reflexivity|]. exists 1. repeat split. lia. Qed.
Definition plus_mps : list (@tensor C_scalar) := [tbuild [2; 1; 1] (fun _ => RtoC 1); tbuild [2; 1; 1] (fun _ => RtoC 1)].
Example C36_bond_one_case : mps_shape 2 plus_mps /\ bond plus_mps 0 = 1.
Proof. split; [|reflexivity]. split; [reflexivity|]. exists 1. split; [lia|]. repeat split. exists 1. split; [lia|]. repeat split. Qed.

(** C37: the value of MPS_expec, and what the caller's list holds afterwards *)
Theorem C37_expectation : forall n l psi ws obs As, 0 < n -> is_mps n l psi -> (forall w, In w ws -> w < n) ->
  length ws = length obs -> Forall2 (is_op 1) obs As ->
  exists l', MPS_expec_real l (map Z.of_nat ws) obs = Ok (Re (inner n psi (act n (obs_op n ws As) psi)), l') /\
    is_mps n l' (act n (obs_op n ws As) psi).
Proof. exact expec_real_ok. Qed.
Print Assumptions C37_expectation.
Example C37_case : is_mps 3 ghz_mps ghz /\ Forall2 (is_op 1) [op_tensor 1 Z_op; op_tensor 1 X_op] [Z_op; X_op].
Proof. split; [exact ghz_is_mps|]. repeat constructor; apply is_op_tensor. Qed.
(** C37: the claim that the argument is left alone is false *)
Theorem C37_argument_unchanged_refuted : exists l', MPS_expec_real ghz_mps [0%Z] [PauliZ_m] = Ok (0%R, l') /\ l' <> ghz_mps /\
  exists phi, is_mps 3 l' phi /\ ~ st_eq 3 phi ghz.
Proof. exact expec_mutates. Qed.
Print Assumptions C37_argument_unchanged_refuted.

(** C42 *)
Theorem C42_matrix_product_state : forall (SC : Scalar) t N psi, is_state N [1; 2 ^ N] t psi ->
  exists t', MatrixProductState t N = Ok t' /\ shape t' = repeat 2 N /\ wf t' /\ forall b, In b (bits N) -> tget t' b = psi b.
Proof. exact @MPState_ok. Qed.
Print Assumptions C42_matrix_product_state.
Example C42_state_case : is_state 3 [1; 2 ^ 3] (mkT [1; 8] (map ghz (bits 3))) ghz.
Proof. split; [reflexivity|]. split; [reflexivity|]. intros b Hb. cbn in Hb. repeat (destruct Hb as [<-|Hb]; [reflexivity|]). destruct Hb. Qed.
Theorem C42_density_operator : forall (SC : Scalar) t N A, is_op N t A ->
  exists t', MatrixProductDensityOperator t N = Ok t' /\ shape t' = repeat 2 (N + N) /\ wf t' /\
    forall r c, In r (bits N) -> In c (bits N) -> tget t' (r ++ c) = A r c.
Proof. exact @MPDO_ok. Qed.
Print Assumptions C42_density_operator.
Example C42_case : is_op 2 (op_tensor 2 (ctrl [0] (lift X_op [1]))) (ctrl [0] (lift X_op [1])).
Proof. apply is_op_tensor. Qed.
Theorem C42_wrong_shapes_rejected : forall (SC : Scalar) svd t N, shape t <> [2 ^ N; 2 ^ N] ->
  Rho2MPS svd t N = Err ValueError /\ MatrixProductDensityOperator t N = Err ValueError.
Proof. exact @wrong_shape_rho. Qed.
Print Assumptions C42_wrong_shapes_rejected.
Example C42_wrong_case : shape (zeros [4; 2]) <> [2 ^ 2; 2 ^ 2].
Proof. discriminate. Qed.

(** C47: gates on disjoint wires commute on matrix product states *)
Theorem C47_mps_commute : forall svd n g h l psi, exact_svd svd -> gi_ok n g -> gi_ok n h -> has_TN g = true -> has_TN h = true ->
  (forall w, In w (gi_wires g) -> ~ In w (gi_wires h)) -> is_mps n l psi -> nonzero n psi ->
  exists a b l1 l12 l2 l21, build n g = Ok a /\ build n h = Ok b /\
    TN_operation svd a l = Ok l1 /\ TN_operation svd b l1 = Ok l12 /\
    TN_operation svd b l = Ok l2 /\ TN_operation svd a l2 = Ok l21 /\
    exists psi', is_mps n l12 psi' /\ is_mps n l21 psi'.
Proof. exact mps_commute. Qed.
Print Assumptions C47_mps_commute.
Example C47_mps_case : gi_ok 3 (gi_cnot 2 0) /\ gi_ok 3 (gi_ry 1 1) /\
  (forall w, In w (gi_wires (gi_cnot 2 0)) -> ~ In w (gi_wires (gi_ry 1 1))).
Proof.
  split; [|split]; [..|cbn; intros w Hw; lia].
  all: split; [|exact I]; (split; [repeat constructor; cbn; lia|]); cbn; intros w Hw; lia.
Qed.

(** C49: the claim that equal wires are rejected in MPS form is false: U_expand rejects them, TN_operation acts as the gate
    controlled by the preceding qubit *)
Theorem C49_equal_wires_accepted_refuted : forall svd n q th ph la k A l psi, exact_svd svd -> 0 < q < n ->
  In (k, A) (controlled_calls n q q th ph la) -> is_mps n l psi -> nonzero n psi ->
  exists o l', k = Ok o /\ U_expand o = Err ValueError /\ TN_operation svd o l = Ok l' /\
    is_mps n l' (act n (ctrl [q - 1] (lift A [q])) psi).
Proof. exact equal_wires. Qed.
Print Assumptions C49_equal_wires_accepted_refuted.
Example C49_case : In (cnot 3 (WList [2; 2]%Z), X_op) (controlled_calls 3 2 2 0 0 0) /\ is_mps 3 ghz_mps ghz /\ nonzero 3 ghz.
Proof. split; [cbn; tauto|]. split; [exact ghz_is_mps|exact ghz_nonzero]. Qed.
