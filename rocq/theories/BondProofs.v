(** Proofs: sizes of matrix product states of gates, layers and circuits. *)
From Coq Require Import List ZArith QArith Reals Lia ZifyBool Bool Arith Permutation.
From Verif Require Import PyBase Scalar CInst BigSum Index Tensor TensorFacts Spec SpecFacts QMath QTN QOperator
  ExpandFacts ExpandFacts2 ContractFacts ContractFacts2 GateSpec QGates GateCalls GateFacts GateFacts2 GateFacts3 GateFacts4 GateFacts5
  GateProofs RunSpec MPSSpec MPSFacts1 MPSFacts2 MPSFacts3 MPSFacts4 MPSFacts5 MPSFacts6 MPSFacts7 MPSFacts8 MPSFacts9 MPSCases
  LayerSpec QLayers LayerCalls LayerFacts1 LayerFacts2 LayerFacts3 LayerFacts4 LayerProofs CircuitSpec QCircuit CircuitFacts1 CircuitProofs BondSpec BondFacts.
Import ListNotations.
Local Close Scope Q_scope.
Local Close Scope R_scope.
Local Open Scope nat_scope.

Lemma gate_keeps : forall svd n g l l', svd_shapes svd -> gi_ok n g -> mps_shape n l -> TN_operation svd (obj n g) l = Ok l' ->
  exists lo hi, keeps n lo hi l l' /\ (lo = hi \/ In lo (gi_wires g) /\ In hi (gi_wires g)).
Proof.
  intros svd n g l l' Hs [W _] HM. destruct g; cbn [gi_wires] in *; unfold TN_operation; cbn [obj gi_cls g_cls g_N g_matrix g_wires gi_wires gi_loc length gi_pywires];
    try (intros E; discriminate E);
    try (apply gw1 in W; intros E; apply single_keeps in E; eauto; fail);
    try (apply gw2 in W; destruct W as (Wa & Wb & Wn)).
  - rewrite rev_cnot_ok. intros E. apply cnot_TN_keeps in E; auto. do 2 eexists. split; [exact E|]. right. cbn [In]. lia.
  - rewrite rev_cz_ok. intros E. apply ctrl_TN_keeps in E; auto. do 2 eexists. split; [exact E|]. right. cbn [In]. lia.
  - rewrite (rev_cphase_ok n th c t). intros E. apply ctrl_TN_keeps in E; auto. do 2 eexists. split; [exact E|]. right. cbn [In]. lia.
  - rewrite (rev_cu3_ok n th p l0 c t). intros E. apply ctrl_TN_keeps in E; auto. do 2 eexists. split; [exact E|]. right. cbn [In]. lia.
  - intros E. apply (swap_TN_keeps svd Hs n _ _ l l' (Nat.min a b) (Nat.max a b)) in E; auto; try lia. do 2 eexists. split; [exact E|]. right. cbn [In]. lia.
  - rewrite mid_toffoli_ok, up_toffoli_ok. intros E. apply toffoli_TN_keeps in E; auto. do 2 eexists. split; [exact E|]. right. cbn [In]. lia.
Qed.
Lemma run_fits : forall svd n gs l l', svd_shapes svd -> Forall (gi_ok n) gs -> mps_shape n l ->
  mfold (fun l g => TN_operation svd (obj n g) l) gs l = Ok l' -> fits2 n l -> fits2 n l'.
Proof.
  intros svd n gs l l' Hs HF. revert l. induction HF as [|g gs H HF IH]; intros l HM E; cbn [mfold] in E; [injection E as <-; auto|].
  apply bind_inv in E. destruct E as (l1 & E1 & E2). destruct (gate_keeps svd n g l l1 Hs H HM E1) as (lo & hi & (K1 & K2 & K3) & _). intros F. apply (IH l1); auto.
Qed.
Lemma slayer_keeps : forall k n ws ps Gs l l', good_wires n ws -> length Gs = length ws ->
  (forall i, i < length ws -> wire_matrix k ps i = Ok (op_tensor 1 (nth i Gs id_op))) -> mps_shape n l ->
  slayer_TN_operation (mkSL k (Z.of_nat n) (map Z.of_nat ws) ps) l = Ok l' -> keeps n 0 0 l l'.
Proof.
  intros k n ws ps Gs l l' W LG WM HM. unfold slayer_TN_operation. rewrite (cal_ok k n ws ps Gs W LG WM). cbn [bind sl_wires]. unfold base_TN_operation.
  intros E. revert E. apply mfold_keeps; [|exact HM]. clear l l' HM. intros l l' z Hz HM E. apply in_map_iff in Hz. destruct Hz as (u & <- & Hu).
  destruct (lst1_In n ws Gs W LG u Hu) as (A & EA). rewrite EA in E. cbn [bind] in E. assert (B : u < n) by now apply W.
  destruct (single_keeps n A l l' u HM B) as (K1 & K2 & K3).
  { unfold single_TN_operation, unset, wires_unset. replace (Z.of_nat n =? -1)%Z with false by lia.
    replace (Z.of_nat u =? -1)%Z with false by lia. cbn [orb raise_if wire_int bind]. exact E. }
  split; auto. split; auto. intros i Hi _. apply K2; auto. lia.
Qed.
Lemma layer_keeps : forall svd n y l l', svd_shapes svd -> li_ok n y -> mps_shape n l -> layer_TN_operation svd (lobj n y) l = Ok l' ->
  mps_shape n l' /\ (fits2 n l -> fits2 n l') /\ forall i, i < n -> one_side i (CL y) -> bond l' i = bond l i.
Proof.
  intros svd n y l l' Hs H HM E. split; [eapply layer_TN_shape; eauto|]. destruct y as [k ws ps|ws|ws|ws|ws|rep ws ps]; cbn [li_ok layer_TN_operation lobj one_side] in *; try discriminate E.
  - destruct (slayer_keeps (kind_cls k) n ws ps (rot_ops k ps (length ws)) l l') as (K1 & K2 & K3); try tauto; auto using rot_ops_length.
    { intros i Hi. now apply wire_rot. } split; auto. intros i Hi _. apply K2; auto. lia.
  - destruct (slayer_keeps HLayer n ws [] (map (fun _ => H_op) (seq 0 (length ws))) l l') as (K1 & K2 & K3); auto.
    { now rewrite map_length, seq_length. } { intros i Hi. now apply wire_H. } split; auto. intros i Hi _. apply K2; auto. lia.
  - split; [|tauto]. destruct (is_range (mkR (Z.of_nat n) (map Z.of_nat ws))) eqn:R.
    + apply is_range_true in R. subst ws. rewrite seq_length in H. rewrite ring_TN_gs in E by tauto. apply (run_fits svd n (ring_run n) l l' Hs); auto. apply ring_run_ok. tauto.
    + unfold ring_TN_operation in E. rewrite R in E. discriminate E.
  - split; [|tauto]. destruct (is_range (mkR (Z.of_nat n) (map Z.of_nat ws))) eqn:R.
    + apply is_range_true in R. subst ws. rewrite seq_length in H. rewrite ring_dag_TN_gs in E by tauto. apply (run_fits svd n (ring_dag_run n) l l' Hs); auto. apply ring_dag_run_ok. tauto.
    + unfold ring_dag_TN_operation in E. rewrite R in E. discriminate E.
Qed.
Lemma ci_keeps : forall svd n c l l', svd_shapes svd -> ci_ok n c -> mps_shape n l -> o_TN_operation svd (oobj n c) l = Ok l' ->
  mps_shape n l' /\ (fits2 n l -> fits2 n l') /\ forall i, i < n -> one_side i c -> bond l' i = bond l i.
Proof.
  intros svd n [g|y] l l' Hs H HM E; cbn [o_TN_operation oobj ci_ok] in *; [|eapply layer_keeps; eauto].
  destruct (gate_keeps svd n g l l' Hs H HM E) as (lo & hi & (K1 & K2 & K3) & K4). split; auto. split; auto.
  intros i Hi S. apply K2; auto. cbn [one_side] in S. destruct K4 as [->|[A B]]; [lia|]. destruct S as [S|S]; [right|left]; auto.
Qed.
Lemma cs_keeps : forall svd n cs l l', svd_shapes svd -> Forall (ci_ok n) cs -> mps_shape n l -> TN_evolution svd (circ n cs) l = Ok l' ->
  mps_shape n l' /\ (fits2 n l -> fits2 n l') /\ forall i, i < n -> Forall (one_side i) cs -> bond l' i = bond l i.
Proof.
  intros svd n cs l l' Hs H HM E. unfold TN_evolution in E. destruct negb; [discriminate|]. cbn [raise_if] in E. rewrite circ_gate in E. clear -Hs H HM E.
  revert l HM E. induction H as [|c cs Hc H IH]; intros l HM E; cbn [map mfold] in E; [injection E as <-; auto|].
  apply bind_inv in E. destruct E as (l1 & E1 & E2). destruct o_supportTN; [|discriminate]. destruct (ci_keeps svd n c l l1 Hs Hc HM E1) as (A1 & A2 & A3).
  destruct (IH l1 A1 E2) as (B1 & B2 & B3). split; auto. split; auto. intros i Hi S. inversion_clear S as [|? ? S1 S2]. rewrite B3, A3; auto.
Qed.
Lemma fits_small : forall n l, mps_shape n l -> fits2 n l -> small_sites n l.
Proof.
  intros n l [Hn HC] F t Ht. apply in_split in Ht. destruct Ht as (l1 & l2 & ->). apply chain_app in HC. destruct HC as (Dl & C1 & HC).
  pose proof HC as HC'. destruct HC as (Dr & HD & St & W & C3). rewrite app_length in Hn. cbn [length] in Hn.
  pose proof (chain_bound n l1 (t :: l2) Dl 1 C1 HC' F ltac:(lia)) as B1. destruct (F (length l1) ltac:(lia)) as [_ B2].
  rewrite bond_app_r in B2 by lia. rewrite Nat.sub_diag in B2. unfold bond in B2. cbn [nth] in B2. rewrite St in B2. cbn [nth] in B2.
  unfold wf in W. rewrite W, St. cbn [prodn fold_right]. replace n with (1 + length l1 + (n - S (length l1))) by lia. rewrite !Nat.pow_add_r. change (2 ^ 1) with 2.
  replace (n - (1 + length l1)) with (n - S (length l1)) by lia. nia.
Qed.

Lemma initial_fits : forall (SC : Scalar) svd N t l, svd_shapes svd -> 0 < N -> wf t -> StateVec2MPS svd t N = Ok l -> fits N l.
Proof. intros SC svd N t l Hs. exact (StateVec2MPS_fits svd Hs N t l). Qed.
Lemma evolved_fits : forall svd n cs c l l', svd_shapes svd -> Forall (ci_ok n) cs -> circuit_of n cs = Ok c -> mps_shape n l -> fits n l ->
  TN_evolution svd c l = Ok l' -> fits n l' /\ small_sites n l'.
Proof.
  intros svd n cs c l l' Hs H E HM F E'. rewrite circuit_of_ok in E by auto. injection E as <-. destruct (cs_keeps svd n cs l l' Hs H HM E') as (A & B & _).
  apply fits_fits2 in F; auto. split; [apply fits2_fits; auto|apply fits_small; auto].
Qed.
Lemma untouched_bond : forall svd n cs c l l' i, svd_shapes svd -> Forall (ci_ok n) cs -> circuit_of n cs = Ok c -> mps_shape n l -> S i < n -> Forall (one_side i) cs ->
  TN_evolution svd c l = Ok l' -> bond l' i = bond l i.
Proof.
  intros svd n cs c l l' i Hs H E HM Hi S E'. rewrite circuit_of_ok in E by auto. injection E as <-. destruct (cs_keeps svd n cs l l' Hs H HM E') as (_ & _ & A). apply A; auto. lia.
Qed.
Lemma pipeline_fits : forall svd n cs c t l l', svd_shapes svd -> 0 < n -> Forall (ci_ok n) cs -> circuit_of n cs = Ok c -> wf t ->
  StateVec2MPS svd t n = Ok l -> TN_evolution svd c l = Ok l' -> mps_shape n l' /\ fits n l' /\ small_sites n l'.
Proof.
  intros svd n cs c t l l' Hs Hn H E W E1 E2. assert (HM : mps_shape n l) by (eapply StateVec2MPS_shape; eauto).
  split; [|apply (evolved_fits svd n cs c l l'); auto; eapply initial_fits; eauto].
  rewrite circuit_of_ok in E by auto. injection E as <-. eapply cs_keeps; eauto.
Qed.
