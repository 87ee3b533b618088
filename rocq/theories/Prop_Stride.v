(** Property C80: the memory layout of tensors.  The functions [s_...] of QStride.v are those of the other properties with strides kept and
    torch's rule for [view]; value_of and values_of forget the strides of a result.  For any scalars. *)
From Coq Require Import List ZArith Lia Bool Arith.
From Verif Require Import PyBase Scalar Index Tensor Spec MPSSpec MPDOSpec QTN QOperator QStride StrideAddr StrideCases.
Import ListNotations.
Local Open Scope nat_scope.

(** a view that is granted has at every index the element that a row-major reshape has there, without moving it in memory *)
Theorem C80_view_reads_row_major : forall s st new st' k, length st = length s -> prodn new = prodn s ->
  view_strides s st new = Some st' -> k < prodn s -> address st' (unflat new k) = address st (unflat s k).
Proof. exact view_same_memory. Qed.
Print Assumptions C80_view_reads_row_major.
(** not every view is granted *)
Theorem C80_view_refuses : view_strides [2; 2] [1; 2] [1; 4] = None /\ view_strides [3; 4] [1; 3] [2; 6] = None.
Proof. exact refuses. Qed.
Print Assumptions C80_view_refuses.

(** gates on site tensors in any layout, whatever layouts torch.svd, torch.einsum and the matrix product give their results: value or exception
    as without layouts *)
Theorem C80_single_any_layout : forall (SC : Scalar) svd_lay ein_lay M N w l, torch_layouts svd_lay ein_lay -> laid_out M -> Forall laid_out l ->
  values_of (s_single_TN_operation ein_lay M N w l) = single_TN_operation (val M) N w (map val l).
Proof. intros SC svd_lay ein_lay. exact (any_layout_single svd_lay ein_lay). Qed.
Print Assumptions C80_single_any_layout.
Theorem C80_swap_any_layout : forall (SC : Scalar) svd svd_lay mmT ein_lay N w l, torch_svd svd -> torch_layouts svd_lay ein_lay -> Forall laid_out l ->
  values_of (s_swap_TN_operation svd svd_lay mmT N w l) = swap_TN_operation svd N w (map val l).
Proof. intros SC. exact any_layout_swap. Qed.
Print Assumptions C80_swap_any_layout.
Theorem C80_cnot_any_layout : forall (SC : Scalar) svd svd_lay mmT ein_lay M R N w l, torch_svd svd -> torch_layouts svd_lay ein_lay ->
  laid_out M -> laid_out_res R -> Forall laid_out l ->
  values_of (s_cnot_TN_operation svd svd_lay mmT M R N w l) = cnot_TN_operation svd (val M) (value_of R) N w (map val l).
Proof. intros SC. exact any_layout_cnot. Qed.
Print Assumptions C80_cnot_any_layout.
(** cz, cphase, cu3 *)
Theorem C80_ctrl_any_layout : forall (SC : Scalar) svd svd_lay mmT ein_lay M R N w l, torch_svd svd -> torch_layouts svd_lay ein_lay ->
  laid_out M -> laid_out_res R -> Forall laid_out l ->
  values_of (s_ctrl_TN_operation svd svd_lay mmT M R N w l) = ctrl_TN_operation svd (val M) (value_of R) N w (map val l).
Proof. intros SC. exact any_layout_ctrl. Qed.
Print Assumptions C80_ctrl_any_layout.
Theorem C80_toffoli_any_layout : forall (SC : Scalar) svd svd_lay mmT ein_lay M A B N w l, torch_svd svd -> torch_layouts svd_lay ein_lay ->
  laid_out M -> laid_out_res A -> laid_out_res B -> Forall laid_out l ->
  values_of (s_toffoli_TN_operation svd svd_lay mmT M A B N w l) = toffoli_TN_operation svd (val M) (value_of A) (value_of B) N w (map val l).
Proof. intros SC. exact any_layout_toffoli. Qed.
Print Assumptions C80_toffoli_any_layout.
(** the order in which two_site merges the qubit dimensions matters: the other order would be refused *)
Theorem C80_merge_order : view_strides [3; 5; 2; 2] (map (fun d => nth d (cstrides [2; 2; 3; 5]) 0) [2; 3; 1; 0]) [3; 5; 4; 1] = None.
Proof. exact wrong_order_refused. Qed.
Print Assumptions C80_merge_order.

(** gates on a rank-N tensor in any layout, such as the transposed ones that earlier gates return *)
Theorem C80_contract_any_layout : forall (SC : Scalar) mmT M N w b x, laid_out M -> laid_out x ->
  value_of (s_single_TN_contract mmT M N w x b) = single_TN_contract (val M) N w (val x) b /\
  value_of (s_double_TN_contract mmT M N w x b) = double_TN_contract (val M) N w (val x) b /\
  value_of (s_swap_TN_contract N w x b) = swap_TN_contract N w (val x) b /\
  value_of (s_triple_TN_contract mmT M N w x b) = triple_TN_contract (val M) N w (val x) b.
Proof. intros SC. exact any_layout_contract. Qed.
Print Assumptions C80_contract_any_layout.
(** ... but their result cannot be read as a state vector with [view]; [reshape] works *)
Theorem C80_contract_view_refuted : forall (SC : Scalar) t x, shape t = [2; 2] -> s_swap_TN_contract 2 (WList [0%Z; 1%Z]) (fresh t) false = Ok x ->
  s_view x [1%Z; (-1)%Z] = Err TorchError /\ exists y, s_reshape x [1%Z; (-1)%Z] = Ok y /\ shape (val y) = [1; 4].
Proof. intros SC. exact swapped_view. Qed.
Print Assumptions C80_contract_view_refuted.

(** conversions *)
Theorem C80_state_any_layout : forall (SC : Scalar) svd svd_lay mmT ein_lay N x, torch_svd svd -> torch_layouts svd_lay ein_lay -> laid_out x ->
  values_of (s_StateVec2MPS svd svd_lay mmT x N) = StateVec2MPS svd (val x) N /\
  value_of (s_MatrixProductState x N) = MatrixProductState (val x) N.
Proof. intros SC. exact any_layout_state. Qed.
Print Assumptions C80_state_any_layout.
Theorem C80_vector_any_layout : forall (SC : Scalar) mmT n l, Forall laid_out l -> mps_shape n (map val l) ->
  value_of (s_MPS2StateVec mmT l) = MPS2StateVec (map val l).
Proof. intros SC. exact any_layout_vector. Qed.
Print Assumptions C80_vector_any_layout.
Theorem C80_operator_any_layout : forall (SC : Scalar) N x, laid_out x ->
  value_of (s_MatrixProductDensityOperator x N) = MatrixProductDensityOperator (val x) N.
Proof. intros SC. exact any_layout_operator. Qed.
Print Assumptions C80_operator_any_layout.
Theorem C80_mps2rho_any_layout : forall (SC : Scalar) mmT l, Forall laid_out l -> chain4 1 (map val l) 1 ->
  value_of (s_MPS2Rho_raw mmT l) = MPS2Rho_raw (map val l).
Proof. intros SC. exact any_layout_mps2rho. Qed.
Print Assumptions C80_mps2rho_any_layout.

(** Rho2MPS: a density matrix stored row by row is handled, one stored column by column (a transpose) is refused, whatever its entries *)
Theorem C80_rho_row_major : forall (SC : Scalar) svd svd_lay mmT ein_lay N t m k, torch_svd svd -> torch_layouts svd_lay ein_lay -> shape t = [m; k] ->
  values_of (s_Rho2MPS svd svd_lay mmT (mkS t [k; 1]) N) = Rho2MPS svd t N.
Proof. intros SC. exact rho_row_major. Qed.
Print Assumptions C80_rho_row_major.
Theorem C80_rho_transposed_refuted : forall (SC : Scalar) svd svd_lay mmT N t, 0 < N -> shape t = [2 ^ N; 2 ^ N] ->
  s_Rho2MPS svd svd_lay mmT (mkS t [1; 2 ^ N]) N = Err TorchError.
Proof. intros SC. exact rho_columns. Qed.
Print Assumptions C80_rho_transposed_refuted.

(** cases meeting the hypotheses: column-wise layouts for every torch result, and two sites with a bond of size 3, stored oddly *)
Theorem C80_layouts_case : forall (SC : Scalar), torch_svd eye_svd /\ forall svd, torch_layouts (col_svd_lay svd) col_ein_lay.
Proof. exact (fun SC => conj (eye_meets SC) (columns_meet SC)). Qed.
Print Assumptions C80_layouts_case.
Theorem C80_sites_case : forall SC : Scalar, Forall laid_out [bent [2; 1; 3] [3; 3; 1]; bent [2; 3; 1] [1; 2; 7]] /\
  mps_shape 2 (map val [bent [2; 1; 3] [3; 3; 1]; bent [2; 3; 1] [1; 2; 7]]).
Proof. exact bent_meets. Qed.
Print Assumptions C80_sites_case.
Theorem C80_vector_case : forall SC : Scalar,
  match s_MPS2StateVec (fun _ _ => true) [bent [2; 1; 3] [3; 3; 1]; bent [2; 3; 1] [1; 2; 7]] with Ok x => shape (val x) = [1; 4] | Err _ => False end.
Proof. exact bent_runs. Qed.
Print Assumptions C80_vector_case.
