(** C80: statements and cases. *)
From Coq Require Import List ZArith QArith Lia Bool Arith.
From Verif Require Import PyBase Scalar CInst BigSum Index Tensor Spec MPSSpec MPDOSpec QTN QOperator QStride StrideFacts StrideProofs StrideProofs2 StrideProofs3 StrideAddr.
Import ListNotations.
Local Close Scope Q_scope.
Local Open Scope nat_scope.

(** the result without its memory layout *)
Definition value_of {SC : Scalar} (r : res stensor) : res tensor := match r with Ok x => Ok (val x) | Err e => Err e end.
Definition values_of {SC : Scalar} (r : res (list stensor)) : res (list tensor) := match r with Ok l => Ok (map val l) | Err e => Err e end.

(** a tensor with one stride for each of its dimensions: any memory layout *)
Definition laid_out {SC : Scalar} (x : stensor) : Prop := length (strd x) = length (shape (val x)).
Definition laid_out_res {SC : Scalar} (r : res stensor) : Prop := match r with Ok x => laid_out x | Err _ => True end.

(** any layout of the results of torch.svd (two matrices and a vector) and of torch.einsum *)
Definition torch_svd {SC : Scalar} (svd : tensor -> tensor * tensor * tensor) : Prop :=
  forall c U S V, svd c = (U, S, V) -> length (shape U) = 2 /\ length (shape S) = 1 /\ length (shape V) = 2.
Definition torch_layouts {SC : Scalar} (svd_lay : stensor -> list nat * list nat * list nat) (ein_lay : stensor -> stensor -> list nat) : Prop :=
  (forall x lu ls lv, svd_lay x = (lu, ls, lv) -> length lu = 2 /\ length ls = 1 /\ length lv = 2) /\ (forall a b, length (ein_lay a b) = 3).

Section Cases.
  Context {SC : Scalar}.

  Lemma value_eq : forall x y, rres SR x y -> value_of x = y.
  Proof. intros [x|e] [y|f] H; cbn in *; try contradiction; [destruct H; congruence|congruence]. Qed.
  Lemma values_eq : forall x y, rres (Forall2 SR) x y -> values_of x = y.
  Proof. intros [x|e] [y|f] H; cbn in *; try contradiction; [now rewrite (vals _ _ H)|congruence]. Qed.
  Lemma laid_SR : forall x, laid_out x -> SR x (val x).
  Proof. intros x H. split; [reflexivity|exact H]. Qed.
  Lemma laid_F2 : forall l, Forall laid_out l -> Forall2 SR l (map val l).
  Proof. induction 1; constructor; auto using laid_SR. Qed.
  Lemma laid_res : forall r, laid_out_res r -> rres SR r (value_of r).
  Proof. intros [x|e] H; cbn in *; [apply laid_SR; exact H|reflexivity]. Qed.

  Section Args.
  Variables (svd : tensor -> tensor * tensor * tensor) (svd_lay : stensor -> list nat * list nat * list nat)
            (mmT : stensor -> stensor -> bool) (ein_lay : stensor -> stensor -> list nat).

  (** TN_operation *)
  Lemma any_layout_single : forall M N w l, torch_layouts svd_lay ein_lay -> laid_out M -> Forall laid_out l ->
    values_of (s_single_TN_operation ein_lay M N w l) = single_TN_operation (val M) N w (map val l).
  Proof. intros. apply values_eq. eapply rsingle_op; auto using laid_SR, laid_F2. eassumption. Qed.
  Lemma any_layout_swap : forall N w l, torch_svd svd -> torch_layouts svd_lay ein_lay -> Forall laid_out l ->
    values_of (s_swap_TN_operation svd svd_lay mmT N w l) = swap_TN_operation svd N w (map val l).
  Proof. intros. apply values_eq. eapply rswap_op; eauto using laid_SR, laid_F2. Qed.
  Lemma any_layout_ctrl : forall M R N w l, torch_svd svd -> torch_layouts svd_lay ein_lay -> laid_out M -> laid_out_res R -> Forall laid_out l ->
    values_of (s_ctrl_TN_operation svd svd_lay mmT M R N w l) = ctrl_TN_operation svd (val M) (value_of R) N w (map val l).
  Proof. intros. apply values_eq. eapply rctrl_op; eauto using laid_SR, laid_F2, laid_res. Qed.
  Lemma any_layout_cnot : forall M R N w l, torch_svd svd -> torch_layouts svd_lay ein_lay -> laid_out M -> laid_out_res R -> Forall laid_out l ->
    values_of (s_cnot_TN_operation svd svd_lay mmT M R N w l) = cnot_TN_operation svd (val M) (value_of R) N w (map val l).
  Proof. intros. apply values_eq. eapply rcnot_op; eauto using laid_SR, laid_F2, laid_res. Qed.
  Lemma any_layout_toffoli : forall M A B N w l, torch_svd svd -> torch_layouts svd_lay ein_lay ->
    laid_out M -> laid_out_res A -> laid_out_res B -> Forall laid_out l ->
    values_of (s_toffoli_TN_operation svd svd_lay mmT M A B N w l) = toffoli_TN_operation svd (val M) (value_of A) (value_of B) N w (map val l).
  Proof. intros. apply values_eq. eapply rtoffoli_op; eauto using laid_SR, laid_F2, laid_res. Qed.

  (** TN_contract *)
  Lemma any_layout_contract : forall M N w b x, laid_out M -> laid_out x ->
    value_of (s_single_TN_contract mmT M N w x b) = single_TN_contract (val M) N w (val x) b /\
    value_of (s_double_TN_contract mmT M N w x b) = double_TN_contract (val M) N w (val x) b /\
    value_of (s_swap_TN_contract N w x b) = swap_TN_contract N w (val x) b /\
    value_of (s_triple_TN_contract mmT M N w x b) = triple_TN_contract (val M) N w (val x) b.
  Proof.
    intros M N w b x HM Hx. repeat split; apply value_eq;
      [apply rsingle_ct|apply rdouble_ct|apply rswap_ct|apply rtriple_ct]; auto using laid_SR.
  Qed.

  (** conversions *)
  Lemma any_layout_state : forall N x, torch_svd svd -> torch_layouts svd_lay ein_lay -> laid_out x ->
    values_of (s_StateVec2MPS svd svd_lay mmT x N) = StateVec2MPS svd (val x) N /\
    value_of (s_MatrixProductState x N) = MatrixProductState (val x) N.
  Proof.
    intros N x Hs Hl Hx. split; [apply values_eq; eapply rStateVec2MPS; eauto using laid_SR|].
    apply value_eq, rMatrixProductState. auto using laid_SR.
  Qed.
  Lemma any_layout_vector : forall n l, Forall laid_out l -> mps_shape n (map val l) ->
    value_of (s_MPS2StateVec mmT l) = MPS2StateVec (map val l).
  Proof. intros n l H Hm. apply value_eq. eapply rMPS2StateVec; [apply laid_F2; exact H|exact Hm]. Qed.
  Lemma any_layout_operator : forall N x, laid_out x ->
    value_of (s_MatrixProductDensityOperator x N) = MatrixProductDensityOperator (val x) N.
  Proof. intros N x Hx. apply value_eq, rMPDO. auto using laid_SR. Qed.
  Lemma any_layout_mps2rho : forall l, Forall laid_out l -> chain4 1 (map val l) 1 ->
    value_of (s_MPS2Rho_raw mmT l) = MPS2Rho_raw (map val l).
  Proof. intros l H Hm. apply value_eq. apply rMPS2Rho_raw; [apply laid_F2; exact H|exact Hm]. Qed.

  (** a density matrix stored row by row *)
  Lemma rho_row_major : forall N t m k, torch_svd svd -> torch_layouts svd_lay ein_lay -> shape t = [m; k] ->
    values_of (s_Rho2MPS svd svd_lay mmT (mkS t [k; 1]) N) = Rho2MPS svd t N.
  Proof.
    intros N t m k Hs Hl Ht. apply values_eq. replace (mkS t [k; 1]) with (fresh t).
    - eapply rRho2MPS; eassumption.
    - unfold fresh. rewrite Ht. cbn. now rewrite Nat.mul_1_r.
  Qed.

  (** a density matrix stored column by column (a transpose, a conjugate transpose): refused *)
  Lemma view_columns : forall m, 2 <= m -> view_strides [m; m] [1; m] [1; m * m] = None.
  Proof.
    intros m Hm. unfold view_strides. cbn [prodn length]. rewrite Nat.mul_1_r.
    replace (m * m =? 0) with false by (symmetry; apply Nat.eqb_neq; nia). change (2 =? 0) with false. cbn [orb combine rev app hd snd lay_out].
    rewrite Nat.mul_1_l. replace (m =? 1) with false by (symmetry; apply Nat.eqb_neq; lia).
    replace (1 =? m * m) with false by (symmetry; apply Nat.eqb_neq; nia). cbn [negb andb fill].
    replace (1 <? m) with true by (symmetry; apply Nat.ltb_lt; lia). cbn [orb]. rewrite Nat.mul_1_l, Nat.eqb_refl, orb_true_r. rewrite Nat.mul_1_r.
    replace (m * m =? m) with false by (symmetry; apply Nat.eqb_neq; nia). reflexivity.
  Qed.
  Lemma rho_columns : forall N t, 0 < N -> shape t = [2 ^ N; 2 ^ N] ->
    s_Rho2MPS svd svd_lay mmT (mkS t [1; 2 ^ N]) N = Err TorchError.
  Proof.
    intros N t HN Ht. unfold s_Rho2MPS, raise_if. cbn [val]. rewrite Ht. cbn [length Nat.eqb negb nth]. rewrite Nat.eqb_refl. cbn [negb orb].
    assert (H2 : 2 <= 2 ^ N) by (change 2 with (2 ^ 1) at 1; apply Nat.pow_le_mono_r; lia).
    unfold s_view. cbn [val strd]. rewrite Ht.
    assert (E : infer_shape (prodn [2 ^ N; 2 ^ N]) [1%Z; (-1)%Z] = Some [1; 2 ^ N * 2 ^ N]).
    { cbn [prodn]. rewrite Nat.mul_1_r. generalize (2 ^ N * 2 ^ N). intros n. unfold infer_shape. cbn -[Nat.modulo Nat.div].
      rewrite Nat.mod_1_r, Nat.div_1_r. reflexivity. }
    rewrite E. rewrite view_columns by exact H2. reflexivity.
  Qed.
  End Args.

  (** the state after SWAP.TN_contract, read as a row vector with [view] instead of [reshape]: refused *)
  Lemma swapped_view : forall t x, shape t = [2; 2] -> s_swap_TN_contract 2 (WList [0%Z; 1%Z]) (fresh t) false = Ok x ->
    s_view x [1%Z; (-1)%Z] = Err TorchError /\ exists y, s_reshape x [1%Z; (-1)%Z] = Ok y /\ shape (val y) = [1; 4].
  Proof.
    intros [sh d] x Ht H. cbn in Ht. subst sh. cbn in H. injection H as <-. split; [reflexivity|]. eexists. split; reflexivity.
  Qed.
End Cases.

(** the hypotheses are met: layouts in which everything is stored column by column *)
Definition col_svd_lay {SC : Scalar} (svd : tensor -> tensor * tensor * tensor) (x : stensor) : list nat * list nat * list nat :=
  let '(U, _, V) := svd (val x) in ([1; nth 0 (shape U) 0], [1], [1; nth 0 (shape V) 0]).
Definition col_ein_lay {SC : Scalar} (a b : stensor) : list nat := [1; 2; 2 * nth 1 (shape (val b)) 0].

Lemma columns_meet : forall (SC : Scalar) (svd : tensor -> tensor * tensor * tensor), torch_layouts (col_svd_lay svd) col_ein_lay.
Proof.
  intros SC svd. split; [|reflexivity]. intros x lu ls lv H. unfold col_svd_lay in H. destruct (svd (val x)) as [[U S] V].
  injection H as <- <- <-. repeat split.
Qed.

(** two sites with a bond of size 3, stored with the bond dimensions first *)
Definition bent {SC : Scalar} (s : list nat) (st : list nat) : stensor := mkS (tbuild s (fun idx => if nth 0 idx 0 =? nth 1 idx 0 then k1 else k0)) st.
Lemma bent_meets : forall SC : Scalar, Forall laid_out [bent [2; 1; 3] [3; 3; 1]; bent [2; 3; 1] [1; 2; 7]] /\
  mps_shape 2 (map val [bent [2; 1; 3] [3; 3; 1]; bent [2; 3; 1] [1; 2; 7]]).
Proof.
  intros SC. split; [repeat constructor|]. split; [reflexivity|]. exists 3. repeat split; try lia.
  exists 1. repeat split; lia.
Qed.
(** [view] does refuse layouts: a transposed matrix as a row *)
Lemma refuses : view_strides [2; 2] [1; 2] [1; 4] = None /\ view_strides [3; 4] [1; 3] [2; 6] = None.
Proof. split; reflexivity. Qed.
(** and merging the two qubit dimensions in the other order would be refused *)
Lemma wrong_order_refused : view_strides [3; 5; 2; 2] (map (fun d => nth d (cstrides [2; 2; 3; 5]) 0) [2; 3; 1; 0]) [3; 5; 4; 1] = None.
Proof. reflexivity. Qed.
Lemma bent_runs : forall SC : Scalar, match s_MPS2StateVec (fun _ _ => true) [bent [2; 1; 3] [3; 3; 1]; bent [2; 3; 1] [1; 2; 7]] with
  | Ok x => shape (val x) = [1; 4] | Err _ => False end.
Proof. intros SC. vm_compute. reflexivity. Qed.
Definition eye_svd {SC : Scalar} (c : tensor) : tensor * tensor * tensor := (eye 2, tbuild [2] (fun _ => k1), eye 2).
Lemma eye_meets : forall SC : Scalar, torch_svd eye_svd.
Proof. intros SC c U S V H. injection H as <- <- <-. repeat split. Qed.
