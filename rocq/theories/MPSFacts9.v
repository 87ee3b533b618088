(** Lemmas: sequences of gates on a matrix product state. *)
From Coq Require Import List ZArith QArith Qreals Reals Lra Lia ZifyBool Bool Arith Permutation.
From Verif Require Import PyBase Scalar CInst BigSum Index Tensor TensorFacts Spec SpecFacts QMath QTN QOperator
  ExpandFacts ExpandFacts2 ContractFacts ContractFacts2 GateSpec QGates GateCalls GateFacts GateFacts2 GateFacts3 GateFacts4 GateFacts5
  GateProofs RunSpec MPSSpec MPSFacts1 MPSFacts2 MPSFacts3 MPSFacts4 MPSFacts5 MPSFacts6 MPSFacts7 MPSFacts8.
Import ListNotations.
Local Close Scope Q_scope.
Local Close Scope R_scope.
Local Open Scope nat_scope.

Lemma Cabsgt_1 : kabsgt (Scalar := C_scalar) k1 (1 # 100000000)%Q = true.
Proof.
  change (Cabsgt (RtoC 1) (1 # 100000000)%Q = true). unfold Cabsgt, Cabs, Cnorm2, RtoC. cbn [fst snd].
  replace (1 * 1 + 0 * 0)%R with 1%R by ring. rewrite sqrt_1. destruct Rlt_dec as [|H]; [reflexivity|]. exfalso. apply H.
  unfold Q2R. cbn [Qnum Qden]. apply Rmult_lt_reg_r with (IZR 100000000); [lra|]. rewrite Rmult_assoc, Rinv_l by lra. lra.
Qed.

Lemma TN_operation_mono : forall ok svd svd' g l, (forall A, ok A = true -> svd' A = svd A) ->
  leR (TN_operation (strict ok svd) g l) (TN_operation svd' g l).
Proof.
  intros ok svd svd' g l H. unfold TN_operation. destruct (g_cls g);
    lazymatch goal with
    | |- leR (cnot_TN_operation _ _ _ _ _ _) _ => now apply cnot_TN_mono
    | |- leR (ctrl_TN_operation _ _ _ _ _ _) _ => now apply ctrl_TN_mono
    | |- leR (swap_TN_operation _ _ _ _) _ => now apply swap_TN_mono
    | |- leR (toffoli_TN_operation _ _ _ _ _ _ _) _ => now apply toffoli_TN_mono
    | _ => apply leR_refl
    end.
Qed.

Lemma TN_operation_shape : forall svd n g l l', svd_shapes svd -> gi_ok n g -> mps_shape n l ->
  TN_operation svd (obj n g) l = Ok l' -> mps_shape n l'.
Proof.
  intros svd n g l l' Hs [W _] HM. destruct g; cbn [gi_wires] in *; unfold TN_operation; cbn [obj gi_cls g_cls g_N g_matrix g_wires gi_wires gi_loc length gi_pywires];
    try (intros E; discriminate E);
    try (apply gw1 in W; apply single_shape; auto; fail);
    try (apply gw2 in W; destruct W as (Wa & Wb & Wn)).
  - rewrite rev_cnot_ok. apply cnot_TN_shape; auto.
  - rewrite rev_cz_ok. apply ctrl_TN_shape; auto.
  - rewrite (rev_cphase_ok n th c t). apply ctrl_TN_shape; auto.
  - rewrite (rev_cu3_ok n th p l0 c t). apply ctrl_TN_shape; auto.
  - apply swap_TN_shape; auto; lia.
  - rewrite mid_toffoli_ok, up_toffoli_ok. apply toffoli_TN_shape; auto.
Qed.

Lemma mmap_build : forall n gs, mmap (build n) gs = Ok (map (obj n) gs).
Proof. intros n gs. induction gs as [|g gs IH]; [reflexivity|]. cbn [mmap map]. rewrite build_ok. cbn [bind]. now rewrite IH. Qed.

Lemma gs_op_gen : forall n gs A psi, st_eq n (act n (fold_left (fun A g => mul_op n (gi_op n g) A) gs A) psi)
  (fold_left (fun psi g => act n (gi_op n g) psi) gs (act n A psi)).
Proof.
  intros n gs. induction gs as [|g gs IH]; intros A psi b Hb; [reflexivity|]. cbn [fold_left]. rewrite (IH (mul_op n (gi_op n g) A) psi b Hb).
  clear IH.
  assert (X : forall gs f f', st_eq n f f' -> st_eq n (fold_left (fun psi g => act n (gi_op n g) psi) gs f) (fold_left (fun psi g => act n (gi_op n g) psi) gs f')).
  { clear. intros gs. induction gs as [|g gs IH]; intros f f' H; [exact H|]. cbn [fold_left]. apply IH.
    intros b Hb. apply act_proper; [reflexivity|exact H|exact Hb]. }
  apply X; auto. intros c Hc. apply act_mul; auto.
Qed.

Lemma fold_act_ext : forall n gs f f', st_eq n f f' ->
  st_eq n (fold_left (fun psi g => act n (gi_op n g) psi) gs f) (fold_left (fun psi g => act n (gi_op n g) psi) gs f').
Proof.
  intros n gs. induction gs as [|g gs IH]; intros f f' H; [exact H|]. cbn [fold_left]. apply IH.
  intros b Hb. apply act_proper; [reflexivity|exact H|exact Hb].
Qed.

Lemma gs_op_act : forall n gs psi, st_eq n (act n (gs_op n gs) psi) (fold_left (fun psi g => act n (gi_op n g) psi) gs psi).
Proof.
  intros n gs psi. eapply st_trans; [apply gs_op_gen|]. apply fold_act_ext. intros b Hb. now apply act_id.
Qed.

Lemma run_ok : forall svd n gs l psi, exact_svd svd -> Forall (gi_ok n) gs -> forallb has_TN gs = true -> is_mps n l psi -> nonzero n psi ->
  exists l', mfold (fun l o => TN_operation svd o l) (map (obj n) gs) l = Ok l' /\ is_mps n l' (act n (gs_op n gs) psi) /\
    nonzero n (act n (gs_op n gs) psi).
Proof.
  intros svd n gs l psi Hs. revert l psi. 
  assert (X : forall l psi, Forall (gi_ok n) gs -> forallb has_TN gs = true -> is_mps n l psi -> nonzero n psi ->
    exists l', mfold (fun l o => TN_operation svd o l) (map (obj n) gs) l = Ok l' /\
      is_mps n l' (fold_left (fun psi g => act n (gi_op n g) psi) gs psi) /\
      nonzero n (fold_left (fun psi g => act n (gi_op n g) psi) gs psi)).
  { induction gs as [|g gs IH]; intros l psi HF HT HM Hnz; [exists l; auto|]. inversion HF; subst. cbn [forallb] in HT. apply andb_prop in HT. destruct HT as [T1 T2].
    destruct (TN_operation_obj svd n g l psi) as (l1 & E1 & M1 & N1); auto.
    destruct (IH l1 _ H2 T2 M1 N1) as (l' & E & M & N'). exists l'. cbn [map mfold fold_left]. rewrite E1. cbn [bind]. auto. }
  intros l psi HF HT HM Hnz. destruct (X l psi HF HT HM Hnz) as (l' & E & M & N'). exists l'. split; [exact E|]. split.
  - eapply is_mps_st; [exact M|]. apply st_sym, gs_op_act.
  - eapply nonzero_st; [exact N'|]. apply st_sym, gs_op_act.
Qed.

(** statements with the constructor calls *)
Lemma mps_gate : forall svd n g l psi, exact_svd svd -> gi_ok n g -> has_TN g = true -> is_mps n l psi -> nonzero n psi ->
  exists o u l', build n g = Ok o /\ U_expand o = Ok u /\ TN_operation svd o l = Ok l' /\ is_mps n l' (act n (op_of u) psi).
Proof.
  intros svd n g l psi Hs HG HT HM Hn. destruct (TN_operation_obj svd n g l psi) as (l' & E & M & _); auto.
  exists (obj n g), (op_tensor n (gi_op n g)), l'. split; [apply build_ok|]. split; [now apply U_expand_obj|]. split; [exact E|].
  eapply is_mps_st; [exact M|]. apply st_act_ext. destruct (is_op_tensor n (gi_op n g)) as (_ & _ & H). now symmetry.
Qed.

Lemma mps_run : forall svd n gs l psi, exact_svd svd -> Forall (gi_ok n) gs -> forallb has_TN gs = true -> is_mps n l psi -> nonzero n psi ->
  exists os l', mmap (build n) gs = Ok os /\ mfold (fun l o => TN_operation svd o l) os l = Ok l' /\ is_mps n l' (act n (gs_op n gs) psi).
Proof.
  intros svd n gs l psi Hs HG HT HM Hn. destruct (run_ok svd n gs l psi) as (l' & E & M & _); auto.
  exists (map (obj n) gs), l'. rewrite mmap_build. auto.
Qed.

Lemma mps_run_shape : forall svd n gs os l l', svd_shapes svd -> Forall (gi_ok n) gs -> mps_shape n l ->
  mmap (build n) gs = Ok os -> mfold (fun l o => TN_operation svd o l) os l = Ok l' -> mps_shape n l'.
Proof.
  intros svd n gs os l l' Hs HF HM E. rewrite mmap_build in E. injection E as <-. intros E. revert HF l HM E.
  induction gs as [|g gs IH]; intros HF l HM E; cbn [map mfold] in E. { injection E as <-. exact HM. }
  apply bind_inv in E. destruct E as (l1 & E1 & E). inversion HF; subst. apply (IH H2 l1); auto. eapply TN_operation_shape; eauto.
Qed.

(** a decomposition used only on matrices where it is exact: the run with [strict ok svd] never leaves [ok] *)
Lemma mps_run_strict : forall ok svd n gs os l psi l', (forall A, ok A = true -> exact_at svd A) ->
  Forall (gi_ok n) gs -> forallb has_TN gs = true -> is_mps n l psi -> nonzero n psi ->
  mmap (build n) gs = Ok os -> mfold (fun l o => TN_operation (strict ok svd) o l) os l = Ok l' ->
  mfold (fun l o => TN_operation svd o l) os l = Ok l' /\ is_mps n l' (act n (gs_op n gs) psi).
Proof.
  intros ok svd n gs os l psi l' Hok HF HT HM Hn E ES. rewrite mmap_build in E. injection E as <-.
  destruct (run_ok (patch ok svd) n gs l psi (patch_exact ok svd Cabsgt_1 Hok) HF HT HM Hn) as (l2 & E2 & M2 & _).
  assert (L : forall svd', (forall A, ok A = true -> svd' A = svd A) ->
    mfold (fun l o => TN_operation svd' o l) (map (obj n) gs) l = Ok l').
  { intros svd' H.
    exact (leR_mfold _ _ (fun l o => TN_operation (strict ok svd) o l) (fun l o => TN_operation svd' o l) (map (obj n) gs)
      (fun x o => TN_operation_mono ok svd svd' o x H) l l' ES). }
  split; [exact (L svd (fun A _ => eq_refl))|]. assert (X : Ok l2 = Ok l').
  { rewrite <- E2. apply L. intros A HA. unfold patch. now rewrite HA. }
  injection X as <-. exact M2.
Qed.

(** state vectors *)
Section Rows.
  Context {SC : Scalar}.
  Local Open Scope k_scope.

  Lemma state_row : forall (t : tensor) N psi, is_state N [1%nat; (2 ^ N)%nat] t psi <->
    t = tbuild [1%nat; (2 ^ N)%nat] (fun idx => psi (bitsof N (nth 1 idx 0%nat))).
  Proof.
    intros t N psi. split.
    - intros (HS & HL & HA). assert (W : wf t) by (unfold wf; rewrite HS; cbn [prodn]; lia).
      rewrite (tensor_eta t W), HS. apply tbuild_ext. intros idx Hv. vinv Hv.
      cbn [nth]. rewrite <- HA by (now apply bitsof_in). unfold tget, amp. rewrite HS, bval_bitsof by auto. f_equal.
      unfold flat. cbn [prodn]. lia.
    - intros ->. split; [reflexivity|]. split. { cbn [data tbuild]. rewrite map_length, all_idx_length. cbn [prodn]. lia. }
      intros b Hb. unfold amp. assert (Lt : (bval b < 2 ^ N)%nat) by (now apply bval_lt).
      pose proof (tget_tbuild [1%nat; (2 ^ N)%nat] (fun idx => psi (bitsof N (nth 1 idx 0%nat))) [0%nat; bval b]) as H.
      unfold tget in H. rewrite tbuild_shape in H. replace (flat [1%nat; (2 ^ N)%nat] [0%nat; bval b]) with (bval b) in H by (cbn [flat prodn]; lia).
      rewrite H by vok. cbn [nth]. now rewrite bitsof_bval.
  Qed.

  Lemma round_trip : forall svd N t psi, exact_svd svd -> (0 < N)%nat -> is_state N [1%nat; (2 ^ N)%nat] t psi -> nonzero N psi ->
    exists l t', StateVec2MPS svd t N = Ok l /\ is_mps N l psi /\ MPS2StateVec l = Ok t /\
      MPS2StateTensor l = Ok t' /\ is_state N (repeat 2%nat N) t' psi.
  Proof.
    intros svd N t psi Hs HN HT Hnz. apply state_row in HT. subst t.
    destruct (StateVec2MPS_ok svd N psi Hs HN Hnz) as (l & E & M). exists l, (tbuild (repeat 2%nat N) psi). split; [exact E|]. split; [exact M|].
    split; [now apply MPS2StateVec_ok|]. split; [now apply MPS2StateTensor_ok|]. now apply state_eta.
  Qed.

  Lemma mps_amplitudes : forall n l psi, (0 < n)%nat -> is_mps n l psi ->
    exists t t', MPS2StateVec l = Ok t /\ is_state n [1%nat; (2 ^ n)%nat] t psi /\ MPS2StateTensor l = Ok t' /\ is_state n (repeat 2%nat n) t' psi.
  Proof.
    intros n l psi Hn HM. eexists _, _. split; [now apply MPS2StateVec_ok; eauto|]. split; [now apply state_row|].
    split; [now apply MPS2StateTensor_ok; eauto|]. now apply state_eta.
  Qed.

  Lemma wrong_shape : forall svd t N, shape t <> [1%nat; (2 ^ N)%nat] ->
    StateVec2MPS svd t N = Err ValueError /\ MatrixProductState t N = Err ValueError.
  Proof.
    intros svd t N H. unfold StateVec2MPS, MatrixProductState. destruct (shape t) as [|a [|b [|]]]; cbn [length Nat.eqb negb raise_if nth]; auto.
    destruct (a =? 1)%nat eqn:E1; cbn [negb orb raise_if]; auto. destruct (b =? 2 ^ N)%nat eqn:E2; cbn [negb raise_if]; auto.
    exfalso. apply H. apply Nat.eqb_eq in E1, E2. now subst.
  Qed.

  Lemma wrong_shape_rho : forall svd t N, shape t <> [(2 ^ N)%nat; (2 ^ N)%nat] ->
    Rho2MPS svd t N = Err ValueError /\ MatrixProductDensityOperator t N = Err ValueError.
  Proof.
    intros svd t N H. unfold Rho2MPS, Rho2MPS_full, MatrixProductDensityOperator.
    destruct (shape t) as [|a [|b [|]]]; cbn [length Nat.eqb negb raise_if nth bind]; auto.
    destruct (a =? 2 ^ N)%nat eqn:E1; cbn [negb orb raise_if bind]; auto. destruct (b =? 2 ^ N)%nat eqn:E2; cbn [negb raise_if bind]; auto.
    exfalso. apply H. apply Nat.eqb_eq in E1, E2. now subst.
  Qed.

  Lemma map_repeat2 : forall N, repeat 2%Z N = map Z.of_nat (repeat 2%nat N).
  Proof. induction N as [|N IH]; [reflexivity|]. cbn [repeat map]. rewrite IH. reflexivity. Qed.

  Lemma MPState_ok : forall t N psi, is_state N [1%nat; (2 ^ N)%nat] t psi ->
    exists t', MatrixProductState t N = Ok t' /\ shape t' = repeat 2%nat N /\ wf t' /\ forall b, In b (bits N) -> tget t' b = psi b.
  Proof.
    intros t N psi (HS & HL & HA). unfold MatrixProductState. rewrite HS. cbn [length Nat.eqb negb raise_if nth orb].
    rewrite Nat.eqb_refl. cbn [negb raise_if]. rewrite map_repeat2, view_nat by (rewrite HS, prodn_repeat; cbn [prodn]; lia).
    eexists. split; [reflexivity|]. split; [reflexivity|]. split. { unfold wf. cbn [shape data]. rewrite prodn_repeat. exact HL. }
    intros b Hb. rewrite <- HA by auto. unfold tget, amp. cbn [shape data]. f_equal. symmetry. apply bval_flat_n. now apply bits_length.
  Qed.

  Lemma MPDO_ok : forall t N A, is_op N t A ->
    exists t', MatrixProductDensityOperator t N = Ok t' /\ shape t' = repeat 2%nat (N + N) /\ wf t' /\
      forall r c, In r (bits N) -> In c (bits N) -> tget t' (r ++ c) = A r c.
  Proof.
    intros t N A (HS & HW & HA). unfold MatrixProductDensityOperator. rewrite HS. cbn [length Nat.eqb negb raise_if nth orb].
    rewrite Nat.eqb_refl. cbn [negb raise_if orb]. replace (2 * N)%nat with (N + N)%nat by lia.
    assert (EP : prodn (repeat 2%nat (N + N)) = (2 ^ N * 2 ^ N)%nat) by (rewrite prodn_repeat, Nat.pow_add_r; reflexivity).
    rewrite map_repeat2, view_nat by (rewrite HS, EP; cbn [prodn]; lia). cbn [bind shape].
    rewrite repeat_length. rewrite Nat.eqb_refl. cbn [assert_ negb].
    eexists. split; [reflexivity|]. split; [reflexivity|]. split. { unfold wf in *. cbn [shape data]. rewrite HW, HS, EP. cbn [prodn]. lia. }
    intros r c Hr Hc. rewrite <- HA by auto. unfold op_of, tget. rewrite HS. cbn [shape data]. f_equal.
    pose proof (bits_length _ _ Hr) as Lr. pose proof (bits_length _ _ Hc) as Lc.
    rewrite <- bval_flat_n by (rewrite app_length; lia). cbn [flat prodn]. rewrite bval_app, Lc. lia.
  Qed.
End Rows.
