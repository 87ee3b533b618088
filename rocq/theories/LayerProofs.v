(** The layer properties, assembled. *)
From Coq Require Import List ZArith QArith Reals Lra Lia ZifyBool Bool Arith Setoid Morphisms.
From Verif Require Import PyBase Scalar CInst BigSum Index Tensor TensorFacts Spec SpecFacts QMath QTN QOperator
  ExpandFacts ExpandFacts2 ContractFacts ContractFacts2 GateSpec QGates GateCalls GateFacts GateFacts2 GateFacts3 GateFacts4 GateFacts5 GateFacts6 GateProofs RunSpec
  MPSSpec MPSFacts1 MPSFacts2 MPSFacts4 MPSFacts5 MPSFacts6 MPSFacts8 MPSFacts9 LayerSpec QLayers LayerCalls LayerFacts1 LayerFacts2 LayerFacts3 LayerFacts4.
Import ListNotations.
Local Close Scope Q_scope.
Local Close Scope R_scope.
Local Open Scope nat_scope.

Lemma op_of_tensor : forall {SC : Scalar} n A, op_eq n (op_of (op_tensor n A)) A.
Proof. intros SC n A. exact (proj2 (proj2 (is_op_tensor n A))). Qed.

Lemma layer_matrix : forall n l, 0 < n -> li_ok n l -> exists o u, lbuild n l = Ok o /\ layer_U o = Ok u /\ is_op n u (li_op n l).
Proof. intros n l Hn H. exists (lobj n l), (op_tensor n (li_op n l)). split; [now apply lbuild_ok|]. split; [now apply layer_U_ok|apply is_op_tensor]. Qed.

Lemma layer_unitary : forall n l, 0 < n -> li_ok n l ->
  exists o u, lbuild n l = Ok o /\ layer_U o = Ok u /\ shape u = [2 ^ n; 2 ^ n] /\ wf u /\ unitary n (op_of u).
Proof.
  intros n l Hn H. destruct (layer_matrix n l Hn H) as (o & u & E1 & E2 & S & F & E). exists o, u. repeat (split; [assumption|]).
  rewrite E. now apply li_unitary.
Qed.

Lemma layer_dagger_matrix : forall n l, 0 < n -> li_ok n l -> has_inverse l = true ->
  exists o od u ud, lbuild n l = Ok o /\ layer_dagger o = Ok (Some od) /\ layer_U o = Ok u /\ layer_U od = Ok ud /\
    is_op n ud (adj_op (op_of u)).
Proof.
  intros n l Hn H I. destruct (li_inv l) as [l'|] eqn:L; [|destruct l; discriminate].
  exists (lobj n l), (lobj n l'), (op_tensor n (li_op n l)), (op_tensor n (li_op n l')). split; [now apply lbuild_ok|].
  split; [rewrite layer_dagger_ok, L by auto; reflexivity|]. split; [now apply layer_U_ok|]. split; [apply layer_U_ok; auto; eapply li_inv_ok; eauto|].
  eapply is_op_ext; [apply is_op_tensor|]. rewrite op_of_tensor. now apply li_inv_op.
Qed.
Lemma layer_dagger_none : forall n l, li_ok n l -> has_inverse l = false -> exists o, lbuild n l = Ok o /\ layer_dagger o = Ok None.
Proof. intros n l H I. exists (lobj n l). split; [now apply lbuild_ok|]. destruct l; try discriminate; reflexivity. Qed.

Lemma layer_contract : forall n l s, 0 < n -> li_ok n l -> li_TN n l = true -> shape s = repeat 2 n -> wf s ->
  exists o u s', lbuild n l = Ok o /\ layer_U o = Ok u /\ layer_TN_contract o s false = Ok s' /\
    is_state n (repeat 2 n) s' (act n (op_of u) (amp s)).
Proof.
  intros n l s Hn H T S F. exists (lobj n l), (op_tensor n (li_op n l)).
  assert (E : s = tbuild (repeat 2 n) (amp s)).
  { apply state_eta. split; [exact S|]. split; [|intros b _; reflexivity]. unfold wf in F. rewrite F, S, prodn_repeat. reflexivity. }
  exists (tbuild (repeat 2 n) (act n (li_op n l) (amp s))).
  split; [now apply lbuild_ok|]. split; [now apply layer_U_ok|].
  split; [rewrite E at 1; now apply layer_contract_ok|].
  apply state_eta. apply tbuild_st_ext. now rewrite op_of_tensor.
Qed.
Lemma layer_batch : forall B n l t, li_ok n l -> li_TN n l = true -> shape t = B :: repeat 2 n -> wf t ->
  exists o t', lbuild n l = Ok o /\ layer_TN_contract o t true = Ok t' /\ shape t' = B :: repeat 2 n /\ wf t' /\
    forall i u, i < B -> sample n i t u -> exists u', layer_TN_contract o u false = Ok u' /\ sample n i t' u'.
Proof.
  intros B n l t H T S F. destruct (wf_tbuild t _ S F) as (G & ->). exists (lobj n l). eexists. split; [now apply lbuild_ok|].
  split; [now apply layer_contract_batch_ok|].
  split; [apply tbuild_shape|]. split; [apply tbuild_wf|].
  intros i u Hi Hu. apply state_eta in Hu. subst u. eexists. split; [now apply layer_contract_ok|].
  apply state_eta. apply tbuild_ext. intros idx Hv. symmetry. rewrite tget_tbuild; [|apply valid_cons; auto].
  unfold batched. cbn [hd tl]. apply act_proper; [reflexivity| |now apply bits_valid].
  intros b Hb. rewrite tget_tbuild; [reflexivity|]. apply valid_cons; split; [exact Hi|now apply bits_valid].
Qed.
Lemma layer_mps : forall svd n l m psi, exact_svd svd -> 0 < n -> li_ok n l -> li_TN n l = true -> is_mps n m psi -> nonzero n psi ->
  exists o u m', lbuild n l = Ok o /\ layer_U o = Ok u /\ layer_TN_operation svd o m = Ok m' /\ is_mps n m' (act n (op_of u) psi).
Proof.
  intros svd n l m psi Hs Hn H T HM HZ. destruct (layer_TN_ok svd n l m psi Hs H T HM HZ) as (m' & E & M).
  exists (lobj n l), (op_tensor n (li_op n l)), m'. split; [now apply lbuild_ok|]. split; [now apply layer_U_ok|]. split; [exact E|].
  eapply is_mps_st; [exact M|]. now rewrite op_of_tensor.
Qed.
Lemma layer_mps_shape : forall svd n l o m m', svd_shapes svd -> li_ok n l -> mps_shape n m -> lbuild n l = Ok o ->
  layer_TN_operation svd o m = Ok m' -> mps_shape n m'.
Proof. intros svd n l o m m' Hs H HM B E. rewrite lbuild_ok in B by auto. injection B as <-. eapply layer_TN_shape; eauto. Qed.

(** what a ring that does not cover the register in order answers *)
Lemma ring_TN_rejects : forall svd n ws o s m, good_wires n ws -> 2 <= length ws -> ws <> seq 0 n ->
  lbuild n (li_ring ws) = Ok o \/ lbuild n (li_ring_dag ws) = Ok o ->
  layer_supportTN o = true /\ (forall b, layer_TN_contract o s b = Err ValueError) /\ layer_TN_operation svd o m = Err ValueError.
Proof.
  intros svd n ws o s m W H NE B.
  assert (R : is_range (mkR (Z.of_nat n) (map Z.of_nat ws)) = false).
  { destruct is_range eqn:R; [|reflexivity]. apply is_range_true in R. contradiction. }
  destruct B as [B|B]; rewrite lbuild_ok in B by (split; auto); injection B as <-; (split; [reflexivity|]); (split; [intros b|]);
    cbn [lobj layer_TN_contract layer_TN_operation]; unfold ring_TN_contract, ring_TN_operation, ring_dag_TN_contract, ring_dag_TN_operation; now rewrite R.
Qed.

(** multiplying the gates' matrices one by one *)
Lemma product_of_gates : forall n gs, Forall (gi_ok n) gs ->
  mfold (fun M g => do o <- build n g; do u <- U_expand o; matmul u M) gs (eye (2 ^ n)) = Ok (op_tensor n (gs_op n gs)).
Proof.
  intros n gs. induction gs as [|g gs IH] using rev_ind; intros H.
  - cbn [mfold]. f_equal. apply eye_op.
  - apply Forall_app in H. destruct H as [H1 H2]. rewrite mfold_app, IH by auto. cbn [bind mfold]. rewrite build_ok. cbn [bind].
    rewrite U_expand_obj by (inversion H2; auto). cbn [bind]. now rewrite matmul_snoc.
Qed.
Lemma layer_product : forall n l, 0 < n -> li_ok n l -> exists o u, lbuild n l = Ok o /\ layer_U o = Ok u /\
  mfold (fun M g => do o <- build n g; do u <- U_expand o; matmul u M) (li_gates l) (eye (2 ^ n)) = Ok u.
Proof.
  intros n l Hn H. exists (lobj n l), (op_tensor n (li_op n l)). split; [now apply lbuild_ok|]. split; [now apply layer_U_ok|].
  apply product_of_gates. now apply li_gates_ok.
Qed.
(** * Undoing a ring *)
Lemma pos_ring : forall n ws, good_wires n ws -> 2 <= length ws -> 0 < n.
Proof. intros n ws W H. apply good_wires_length in W. lia. Qed.
Lemma ring_explicit : forall n ws, good_wires n ws -> 2 <= length ws -> exists r u, lbuild n (li_ring ws) = Ok r /\ layer_U r = Ok u /\
  mfold (fun M g => do o <- build n g; do v <- U_expand o; matmul v M) (ring_gates 1 ws) (eye (2 ^ n)) = Ok u.
Proof. intros n ws W H. apply (layer_product n (li_ring ws)); [eapply pos_ring; eauto|now split]. Qed.
Lemma ring_dag_explicit : forall n ws, good_wires n ws -> 2 <= length ws -> exists r u, lbuild n (li_ring_dag ws) = Ok r /\ layer_U r = Ok u /\
  mfold (fun M g => do o <- build n g; do v <- U_expand o; matmul v M) (rev (ring_gates 1 ws)) (eye (2 ^ n)) = Ok u.
Proof. intros n ws W H. apply (layer_product n (li_ring_dag ws)); [eapply pos_ring; eauto|now split]. Qed.
Lemma ring2_explicit : forall n ws, good_wires n ws -> 2 <= length ws -> exists r u, lbuild n (li_ring2 ws) = Ok r /\ layer_U r = Ok u /\
  mfold (fun M g => do o <- build n g; do v <- U_expand o; matmul v M) (ring_gates 2 ws) (eye (2 ^ n)) = Ok u.
Proof. intros n ws W H. apply (layer_product n (li_ring2 ws)); [eapply pos_ring; eauto|now split]. Qed.
Lemma basic_update : forall n rep ws ps qs b, good_wires n ws -> 2 <= length ws -> 1 <= rep -> length ps = 3 * length ws * rep -> length qs = length ps ->
  new_basic (Z.of_nat n) (map Z.of_nat ws) ps (Z.of_nat rep) = Ok b ->
  basic_params_update b qs = new_basic (Z.of_nat n) (map Z.of_nat ws) qs (Z.of_nat rep).
Proof.
  intros n rep ws ps qs b W H Hr HL HQ B. rewrite new_basic_ok in B by auto. injection B as <-. rewrite new_basic_ok by (auto; lia). apply basic_update_ok; auto. lia.
Qed.
Lemma ring_back_op : forall n ws, good_wires n ws -> 2 <= length ws ->
  op_eq n (mul_op n (li_op n (li_ring_dag ws)) (li_op n (li_ring ws))) id_op /\
  op_eq n (mul_op n (li_op n (li_ring ws)) (li_op n (li_ring_dag ws))) id_op.
Proof.
  intros n ws W H. pose proof (li_unitary n (li_ring ws) (conj W H)) as [U1 U2].
  pose proof (li_inv_op n (li_ring ws) (li_ring_dag ws) (conj W H) eq_refl) as E. split; now rewrite E.
Qed.
Lemma ring_back_matrix : forall n ws, good_wires n ws -> 2 <= length ws ->
  exists r d ru du, lbuild n (li_ring ws) = Ok r /\ lbuild n (li_ring_dag ws) = Ok d /\ layer_U r = Ok ru /\ layer_U d = Ok du /\
    matmul du ru = Ok (eye (2 ^ n)) /\ matmul ru du = Ok (eye (2 ^ n)).
Proof.
  intros n ws W H. pose proof (pos_ring n ws W H) as Hn. do 4 eexists. repeat split; try (apply lbuild_ok; split; auto); try (apply layer_U_ok; auto; split; auto);
  rewrite matmul_op, eye_op; f_equal; apply op_tensor_ext; now apply ring_back_op.
Qed.
Lemma ring_back_contract : forall n s, 2 <= n -> shape s = repeat 2 n -> wf s ->
  exists r d s1 s2, lbuild n (li_ring (seq 0 n)) = Ok r /\ lbuild n (li_ring_dag (seq 0 n)) = Ok d /\
    layer_TN_contract r s false = Ok s1 /\ layer_TN_contract d s1 false = Ok s /\
    layer_TN_contract d s false = Ok s2 /\ layer_TN_contract r s2 false = Ok s.
Proof.
  intros n s Hn S F. assert (W : good_wires n (seq 0 n)) by (apply good_seq; lia). assert (L : 2 <= length (seq 0 n)) by now rewrite seq_length.
  assert (T : li_TN n (li_ring (seq 0 n)) = true) by (cbn; now destruct list_eq_dec). assert (T' : li_TN n (li_ring_dag (seq 0 n)) = true) by exact T.
  destruct (wf_tbuild s _ S F) as (f & ->). do 4 eexists. split; [apply lbuild_ok; split; auto|]. split; [apply lbuild_ok; split; auto|].
  split; [apply layer_contract_ok; auto; split; auto|]. split.
  { rewrite layer_contract_ok by (auto; split; auto). f_equal. apply tbuild_st_ext. destruct (ring_back_op n (seq 0 n) W L) as [E _]. now rewrite <- act_mul, E, act_id. }
  split; [apply layer_contract_ok; auto; split; auto|].
  rewrite layer_contract_ok by (auto; split; auto). f_equal. apply tbuild_st_ext. destruct (ring_back_op n (seq 0 n) W L) as [_ E]. now rewrite <- act_mul, E, act_id.
Qed.
Lemma ring_back_mps : forall svd n m psi, exact_svd svd -> 2 <= n -> is_mps n m psi -> nonzero n psi ->
  exists r d m1 m2 m3 m4, lbuild n (li_ring (seq 0 n)) = Ok r /\ lbuild n (li_ring_dag (seq 0 n)) = Ok d /\
    layer_TN_operation svd r m = Ok m1 /\ layer_TN_operation svd d m1 = Ok m2 /\ is_mps n m2 psi /\
    layer_TN_operation svd d m = Ok m3 /\ layer_TN_operation svd r m3 = Ok m4 /\ is_mps n m4 psi.
Proof.
  intros svd n m psi Hs Hn HM HZ. assert (W : good_wires n (seq 0 n)) by (apply good_seq; lia). assert (L : 2 <= length (seq 0 n)) by now rewrite seq_length.
  assert (T : li_TN n (li_ring (seq 0 n)) = true) by (cbn; now destruct list_eq_dec). assert (T' : li_TN n (li_ring_dag (seq 0 n)) = true) by exact T.
  assert (Or : li_ok n (li_ring (seq 0 n))) by (split; auto). assert (Od : li_ok n (li_ring_dag (seq 0 n))) by (split; auto).
  destruct (layer_TN_ok svd n _ m psi Hs Or T HM HZ) as (m1 & E1 & M1).
  destruct (layer_TN_ok svd n _ m1 _ Hs Od T' M1 (li_nonzero n _ _ Or HZ)) as (m2 & E2 & M2).
  destruct (layer_TN_ok svd n _ m psi Hs Od T' HM HZ) as (m3 & E3 & M3).
  destruct (layer_TN_ok svd n _ m3 _ Hs Or T M3 (li_nonzero n _ _ Od HZ)) as (m4 & E4 & M4).
  exists (lobj n (li_ring (seq 0 n))), (lobj n (li_ring_dag (seq 0 n))), m1, m2, m3, m4.
  split; [now apply lbuild_ok|]. split; [now apply lbuild_ok|]. destruct (ring_back_op n (seq 0 n) W L) as [B1 B2].
  split; [exact E1|]. split; [exact E2|]. split; [eapply is_mps_st; [exact M2|]; now rewrite <- act_mul, B1, act_id|].
  split; [exact E3|]. split; [exact E4|]. eapply is_mps_st; [exact M4|]. now rewrite <- act_mul, B2, act_id.
Qed.

(** * BasicEntangleLayer *)
Lemma basic_product : forall n rep ws ps, good_wires n ws -> 2 <= length ws -> 1 <= rep -> length ps = 3 * length ws * rep ->
  exists b u, new_basic (Z.of_nat n) (map Z.of_nat ws) ps (Z.of_nat rep) = Ok b /\ basic_U b = Ok u /\
    mfold (fun M r =>
      do y <- new_slayer YZYLayer (Z.of_nat n) (map Z.of_nat ws) (firstn (3 * length ws) (skipn (r * (3 * length ws)) ps));
      do c <- new_ring (Z.of_nat n) (map Z.of_nat ws);
      do yu <- slayer_U y; do cu <- ring_U c; do yM <- matmul yu M; matmul cu yM) (seq 0 rep) (eye (2 ^ n)) = Ok u.
Proof.
  intros n rep ws ps W H Hr HL. pose proof (pos_ring n ws W H) as Hn. exists (basic_obj n rep ws ps), (op_tensor n (gs_op n (basic_gates rep ws ps))).
  split; [now apply new_basic_ok|]. split; [now apply basic_U_ok|]. rewrite basic_gates_flat.
  assert (X : forall j, j <= rep -> mfold (fun M r =>
      do y <- new_slayer YZYLayer (Z.of_nat n) (map Z.of_nat ws) (firstn (3 * length ws) (skipn (r * (3 * length ws)) ps));
      do c <- new_ring (Z.of_nat n) (map Z.of_nat ws);
      do yu <- slayer_U y; do cu <- ring_U c; do yM <- matmul yu M; matmul cu yM) (seq 0 j) (eye (2 ^ n))
    = Ok (op_tensor n (gs_op n (flat_map (fun i => rot_gates (kind_axes KYZY) ws (skipn (i * (3 * length ws)) ps) ++ ring_gates 1 ws) (seq 0 j))))).
  { induction j as [|j IH]; intros Hj; [cbn; f_equal; apply eye_op|]. rewrite seq_S, mfold_app, IH by lia. cbn [bind mfold plus].
    assert (LF : length (firstn (3 * length ws) (skipn (j * (3 * length ws)) ps)) = 3 * length ws) by (rewrite firstn_length, skipn_length; nia).
    rewrite new_slayer_ok by auto. cbn [bind]. rewrite new_ring_ok by auto. cbn [bind].
    pose proof (rot_U_ok n KYZY ws (firstn (3 * length ws) (skipn (j * (3 * length ws)) ps)) Hn W LF) as E. cbn [kind_cls] in E. rewrite E. cbn [bind].
    rewrite ring_U_ok by auto. cbn [bind]. rewrite matmul_op. cbn [bind]. rewrite matmul_op. cbn [bind]. f_equal. apply op_tensor_ext.
    rewrite flat_map_app. cbn [flat_map]. rewrite app_nil_r, !gs_op_app, mul_op_assoc. rewrite rot_gates_firstn by (cbn [kind_axes length]; lia). reflexivity. }
  apply X. lia.
Qed.

(** * Rejections *)
Lemma slayer_count : forall k N wires ps, length ps <> per_wire k * length wires -> new_slayer k N wires ps = Err ValueError.
Proof. intros k N wires ps H. unfold new_slayer, raise_if. replace (per_wire k * length wires =? length ps) with false by lia. reflexivity. Qed.
Lemma slayer_too_many : forall k N wires ps, (N < Z.of_nat (length wires))%Z -> new_slayer k N wires ps = Err ValueError.
Proof.
  intros k N wires ps H. unfold new_slayer, raise_if. destruct negb; [reflexivity|]. now replace (N <? Z.of_nat (length wires))%Z with true by lia.
Qed.
Lemma ring_wires_rejected : forall N wires, (N < Z.of_nat (length wires))%Z \/ length wires < 2 -> new_ring N wires = Err ValueError.
Proof.
  intros N wires H. unfold new_ring, raise_if. destruct (N <? Z.of_nat (length wires))%Z eqn:E; [reflexivity|]. now replace (length wires <? 2) with true by lia.
Qed.
Lemma basic_rejected : forall N wires ps rep, (Z.of_nat (length ps) <> 3 * Z.of_nat (length wires) * rep \/ N < Z.of_nat (length wires) \/
  Z.of_nat (length wires) < 2 \/ rep < 1)%Z -> new_basic N wires ps rep = Err ValueError.
Proof.
  intros N wires ps rep H. unfold new_basic, raise_if. destruct negb eqn:E; [reflexivity|]. destruct (N <? Z.of_nat (length wires))%Z eqn:E2; [reflexivity|].
  destruct (length wires <? 2) eqn:E3; [reflexivity|]. replace (rep <? 1)%Z with true by lia. reflexivity.
Qed.

(** * Single-gate layers wire by wire *)
Lemma layer3 : forall n k ws ps a b c, 0 < n -> kind_axes k = [a; b; c] -> good_wires n ws -> length ps = 3 * length ws ->
  exists o u, lbuild n (li_rot k ws ps) = Ok o /\ layer_U o = Ok u /\
    is_op n u (obs_op n ws (map (fun i => mul_op 1 (axis_op c (nth (3 * i + 2) ps 0%R))
      (mul_op 1 (axis_op b (nth (3 * i + 1) ps 0%R)) (axis_op a (nth (3 * i) ps 0%R)))) (seq 0 (length ws)))).
Proof.
  intros n k ws ps a b c Hn K W L. assert (O : li_ok n (li_rot k ws ps)) by (split; [exact W|]; now rewrite K).
  destruct (layer_matrix n _ Hn O) as (o & u & E1 & E2 & M). exists o, u. split; [exact E1|]. split; [exact E2|]. eapply is_op_ext; [exact M|].
  unfold li_op. cbn [li_gates]. rewrite <- rot_obs by auto. rewrite <- !(lfac_obs n ws _ W). apply prod_of_ext. intros i Hi.
  destruct (in_dec Nat.eq_dec i ws) as [I|I].
  - apply (In_nth _ _ 0) in I. destruct I as (j & Hj & <-). destruct W as [W1 W2].
    rewrite !lfac_in; auto; try (rewrite repeat_length; auto); try (now rewrite map_length, seq_length); [|apply rot_ops_length].
    unfold rot_ops. rewrite !nth_map_seq by auto. rewrite K. cbn [length]. rewrite (skipn3 ps (3 * j)) by lia. unfold axes_op. cbn [combine fold_left fst snd].
    now rewrite mul_op_id_r.
  - rewrite !lfac_out by (auto; rewrite repeat_length; apply W). reflexivity.
Qed.
Lemma layer2 : forall n k ws ps a b, 0 < n -> kind_axes k = [a; b] -> good_wires n ws -> length ps = 2 * length ws ->
  exists o u, lbuild n (li_rot k ws ps) = Ok o /\ layer_U o = Ok u /\
    is_op n u (obs_op n ws (map (fun i => mul_op 1 (axis_op b (nth (2 * i + 1) ps 0%R)) (axis_op a (nth (2 * i) ps 0%R))) (seq 0 (length ws)))).
Proof.
  intros n k ws ps a b Hn K W L. assert (O : li_ok n (li_rot k ws ps)) by (split; [exact W|]; now rewrite K).
  destruct (layer_matrix n _ Hn O) as (o & u & E1 & E2 & M). exists o, u. split; [exact E1|]. split; [exact E2|]. eapply is_op_ext; [exact M|].
  unfold li_op. cbn [li_gates]. rewrite <- rot_obs by auto. rewrite <- !(lfac_obs n ws _ W). apply prod_of_ext. intros i Hi.
  destruct (in_dec Nat.eq_dec i ws) as [I|I].
  - apply (In_nth _ _ 0) in I. destruct I as (j & Hj & <-). destruct W as [W1 W2].
    rewrite !lfac_in; auto; try (rewrite repeat_length; auto); try (now rewrite map_length, seq_length); [|apply rot_ops_length].
    unfold rot_ops. rewrite !nth_map_seq by auto. rewrite K. cbn [length]. rewrite (skipn2 ps (2 * j)) by lia. unfold axes_op. cbn [combine fold_left fst snd].
    now rewrite mul_op_id_r.
  - rewrite !lfac_out by (auto; rewrite repeat_length; apply W). reflexivity.
Qed.
Lemma layerH : forall n ws, 0 < n -> good_wires n ws -> exists o u, lbuild n (li_H ws) = Ok o /\ layer_U o = Ok u /\
  is_op n u (obs_op n ws (map (fun _ => H_op) ws)).
Proof.
  intros n ws Hn W. destruct (layer_matrix n (li_H ws) Hn W) as (o & u & E1 & E2 & M). exists o, u. split; [exact E1|]. split; [exact E2|].
  eapply is_op_ext; [exact M|]. unfold li_op. cbn [li_gates]. rewrite H_gates_obs.
  replace (map (fun _ : nat => H_op) (seq 0 (length ws))) with (map (fun _ : nat => H_op) ws); [reflexivity|].
  clear. generalize 0. induction ws as [|w ws IH]; intros k; cbn; [reflexivity|]. f_equal. apply IH.
Qed.

(** * params_update *)
Lemma layer_updates : forall n l pss o, li_ok n l -> Forall (fun ps => li_ok n (li_set l ps)) pss -> lbuild n l = Ok o ->
  mfold layer_params_update pss o = lbuild n (fold_left li_set pss l).
Proof.
  intros n l pss. revert l. induction pss as [|ps pss IH]; intros l o H F B; [now symmetry|].
  inversion F as [|? ? F1 F2]; subst. cbn [mfold fold_left]. rewrite lbuild_ok in B by auto. injection B as <-. rewrite layer_update_ok by auto. cbn [bind].
  apply IH; auto; [|now apply lbuild_ok]. eapply Forall_impl; [|exact F2]. intros q. destruct l; exact (fun x => x).
Qed.
Lemma rot_updates : forall n k ws p0 pss ps o, new_slayer k (Z.of_nat n) (map Z.of_nat ws) p0 = Ok o -> k <> HLayer ->
  length ps = per_wire k * length ws -> 
  Ok (fold_left slayer_params_update (pss ++ [ps]) o) = new_slayer k (Z.of_nat n) (map Z.of_nat ws) ps.
Proof.
  intros n k ws p0 pss ps o B NH L. rewrite fold_left_app. cbn [fold_left]. unfold new_slayer, raise_if in *. rewrite map_length in *.
  destruct negb; [discriminate|]. destruct (_ <? _)%Z; [discriminate|]. injection B as <-. replace (per_wire k * length ws =? length ps) with true by lia. cbn [negb]. f_equal.
  assert (X : forall pss p, exists q, fold_left slayer_params_update pss (mkSL k (Z.of_nat n) (map Z.of_nat ws) p) = mkSL k (Z.of_nat n) (map Z.of_nat ws) q).
  { clear -NH. induction pss as [|q pss IH]; intros p; [now exists p|]. cbn [fold_left]. unfold slayer_params_update at 2. cbn [sl_kind sl_N sl_wires]. destruct k; try apply IH; contradiction. }
  destruct (X pss p0) as (q & ->). unfold slayer_params_update. cbn [sl_kind sl_N sl_wires]. destruct k; reflexivity || contradiction.
Qed.

(** * Repeated wires *)
Lemma H_square : op_eq 1 (mul_op 1 H_op H_op) id_op.
Proof. pose proof H_unitary as [U _]. now rewrite H_adj in U. Qed.
Lemma repeated_H : forall n w, 2 <= n -> w < n ->
  exists o u, lbuild n (li_H [w; w]) = Ok o /\ layer_U o = Ok u /\ is_op n u (lift H_op [w]) /\
    (forall s, shape s = repeat 2 n -> wf s -> layer_TN_contract o s false = Ok s) /\
    (forall svd m psi, is_mps n m psi -> exists m', layer_TN_operation svd o m = Ok m' /\ is_mps n m' psi).
Proof.
  intros n w Hn Hw. set (s0 := mkSL HLayer (Z.of_nat n) [Z.of_nat w; Z.of_nat w] []).
  assert (C : cal_single_gates s0 = Ok (map (op_tensor 1) (set_nth w H_op (set_nth w H_op (repeat id_op n))))).
  { unfold cal_single_gates, fill_wires, s0. cbn [sl_N sl_kind sl_params sl_wires enumerate length seq combine mfold fst snd wire_matrix]. rewrite H_m_ok, eyes_op. cbn [bind].
    rewrite (py_set_op _ n) by (rewrite ?repeat_length; auto). cbn [bind]. rewrite (py_set_op _ n) by (rewrite ?set_nth_length, ?repeat_length; auto). reflexivity. }
  assert (P : py_nth (map (op_tensor 1) (set_nth w H_op (set_nth w H_op (repeat id_op n)))) (Z.of_nat w) = Ok (op_tensor 1 H_op)).
  { rewrite (py_nth_nat _ _ _ (op_tensor 1 id_op)) by (rewrite map_length, !set_nth_length, repeat_length; auto). rewrite map_nth.
    rewrite nth_set_nth by (rewrite set_nth_length, repeat_length; auto). now rewrite Nat.eqb_refl. }
  pose proof (good_wires_1 n w Hw) as W.
  assert (HH : op_eq n (mul_op n (lift H_op [w]) (lift H_op [w])) id_op).
  { rewrite lift_mul by exact W. rewrite (lift_ext n [w] _ id_op); [|apply W|exact H_square]. now apply lift_id. }
  exists (LS s0), (op_tensor n (lift H_op [w])). split; [|split; [|split; [apply is_op_tensor|split]]].
  - cbn [lbuild map]. unfold new_slayer, raise_if. cbn [length per_wire Nat.mul Nat.eqb negb]. now replace (Z.of_nat n <? Z.of_nat 2)%Z with false by lia.
  - cbn [layer_U]. unfold slayer_U. rewrite C. cbn [bind]. rewrite (multi_kron_fac _ n) by (rewrite ?set_nth_length, ?repeat_length; lia). f_equal. apply op_tensor_ext.
    apply prod_of_1; auto. intros i Hi. rewrite !fac_set by (rewrite ?set_nth_length, repeat_length; auto). rewrite fac_repeat. now destruct (i =? w).
  - intros t S F. destruct (wf_tbuild t _ S F) as (f & ->). cbn [layer_TN_contract]. unfold slayer_TN_contract, base_TN_contract. rewrite C. cbn [bind s0 sl_N sl_wires mfold].
    rewrite P. cbn [bind]. pose proof (fun f => contract1_ok (repeat 2 n) w H_op f) as K. rewrite repeat_length in K.
    rewrite K by (auto; now apply nth_repeat_lt). cbn [bind]. rewrite K by (auto; now apply nth_repeat_lt). cbn [bind]. f_equal. apply tbuild_st_ext.
    transitivity (act n (lift H_op [w]) (act n (lift H_op [w]) f)).
    + transitivity (act n (lift H_op [w]) (apply_on H_op [w] f)); [symmetry; now apply act_lift|]. apply act_proper; [reflexivity|]. symmetry. now apply act_lift.
    + rewrite <- act_mul, HH. apply act_id.
  - intros svd m psi M. cbn [layer_TN_operation]. unfold slayer_TN_operation, base_TN_operation. rewrite C. cbn [bind s0 sl_wires mfold]. rewrite P. cbn [bind].
    destruct (single_site_ok n H_op m psi w M Hw) as (x & x' & E1 & E2 & l1 & E3 & M1). rewrite E1. cbn [bind]. rewrite E2. cbn [bind]. rewrite E3. cbn [bind].
    assert (M1' : is_mps n l1 (act n (lift H_op [w]) psi)). { eapply is_mps_st; [exact M1|]. apply st_sym, act_lift. exact W. }
    destruct (single_site_ok n H_op l1 _ w M1' Hw) as (y & y' & F1 & F2 & l2 & F3 & M2). rewrite F1. cbn [bind]. rewrite F2. cbn [bind]. rewrite F3. cbn [bind].
    exists l2. split; [reflexivity|]. eapply is_mps_st; [exact M2|].
    apply (st_trans n _ (act n (lift H_op [w]) (act n (lift H_op [w]) psi))); [apply st_sym, act_lift; exact W|]. rewrite <- act_mul, HH. apply act_id.
Qed.

(** all forms at once *)
Lemma layer_forms : forall svd n l, exact_svd svd -> 0 < n -> li_ok n l -> li_TN n l = true -> exists o u, lbuild n l = Ok o /\ layer_U o = Ok u /\
  (forall s, shape s = repeat 2 n -> wf s -> exists s', layer_TN_contract o s false = Ok s' /\ is_state n (repeat 2 n) s' (act n (op_of u) (amp s))) /\
  (forall m psi, is_mps n m psi -> nonzero n psi -> exists m', layer_TN_operation svd o m = Ok m' /\ is_mps n m' (act n (op_of u) psi)).
Proof.
  intros svd n l Hs Hn H T. exists (lobj n l), (op_tensor n (li_op n l)). split; [now apply lbuild_ok|]. split; [now apply layer_U_ok|]. split.
  - intros s S F. destruct (layer_contract n l s Hn H T S F) as (o & u & s' & E1 & E2 & E3 & M). rewrite lbuild_ok in E1 by auto. injection E1 as <-.
    rewrite layer_U_ok in E2 by auto. injection E2 as <-. now exists s'.
  - intros m psi HM HZ. destruct (layer_mps svd n l m psi Hs Hn H T HM HZ) as (o & u & m' & E1 & E2 & E3 & M). rewrite lbuild_ok in E1 by auto. injection E1 as <-.
    rewrite layer_U_ok in E2 by auto. injection E2 as <-. now exists m'.
Qed.
