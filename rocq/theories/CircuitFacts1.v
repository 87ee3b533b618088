(** Lemmas: circuits in every form. *)
From Coq Require Import List ZArith QArith Reals Lra Lia ZifyBool Bool Arith Setoid Morphisms.
From Verif Require Import PyBase Scalar CInst BigSum Index Tensor TensorFacts Spec SpecFacts QMath QTN QOperator
  ExpandFacts ExpandFacts2 ContractFacts ContractFacts2 GateSpec QGates GateCalls GateFacts GateFacts2 GateFacts3 GateFacts4 GateFacts5 GateFacts6 GateProofs RunSpec
  MPSSpec MPSFacts1 MPSFacts2 MPSFacts4 MPSFacts5 MPSFacts6 MPSFacts8 MPSFacts9 LayerSpec QLayers LayerCalls LayerFacts1 LayerFacts2 LayerFacts3 LayerFacts4 LayerProofs
  CircuitSpec QCircuit StateFacts.
Import ListNotations.
Local Close Scope Q_scope.
Local Close Scope R_scope.
Local Open Scope nat_scope.

Definition oobj (n : nat) (c : ci) : oper := match c with CG g => OG (obj n g) | CL l => OL (lobj n l) end.
Lemma obuild_ok : forall n c, ci_ok n c -> obuild n c = Ok (oobj n c).
Proof. intros n [g|l] H; cbn [obuild oobj]; [now rewrite build_ok|now rewrite lbuild_ok]. Qed.

Definition circ (n : nat) (cs : list ci) : circuit := fold_left add (map (oobj n) cs) (Circuit n).
Lemma add_N : forall c o, c_N (add c o) = c_N c.
Proof. intros. unfold add. now destruct (o_num_params o =? 0). Qed.
Lemma add_gate : forall c o, c_gate (add c o) = c_gate c ++ [o].
Proof. intros. unfold add. now destruct (o_num_params o =? 0). Qed.
Lemma adds_N : forall os c, c_N (fold_left add os c) = c_N c.
Proof. induction os as [|o os IH]; intros c; [reflexivity|]. cbn [fold_left]. now rewrite IH, add_N. Qed.
Lemma adds_gate : forall os c, c_gate (fold_left add os c) = c_gate c ++ os.
Proof. induction os as [|o os IH]; intros c; cbn [fold_left]; [now rewrite app_nil_r|]. now rewrite IH, add_gate, <- app_assoc. Qed.
Lemma circ_N : forall n cs, c_N (circ n cs) = n.
Proof. intros. apply adds_N. Qed.
Lemma circ_gate : forall n cs, c_gate (circ n cs) = map (oobj n) cs.
Proof. intros. unfold circ. now rewrite adds_gate. Qed.
Lemma circuit_of_ok : forall n cs, Forall (ci_ok n) cs -> circuit_of n cs = Ok (circ n cs).
Proof.
  intros n cs. unfold circuit_of, circ.
  assert (X : forall c, c_N c = n -> Forall (ci_ok n) cs -> mfold method cs c = Ok (fold_left add (map (oobj n) cs) c)); [|now apply X].
  induction cs as [|x cs IH]; intros c HN H; [reflexivity|]. inversion H as [|? ? H1 H2]; subst. cbn [mfold map fold_left]. unfold method at 1.
  rewrite obuild_ok by auto. cbn [bind]. apply IH; auto. now rewrite add_N.
Qed.

Lemma o_U_ok : forall n c, 0 < n -> ci_ok n c -> o_U (oobj n c) = Ok (op_tensor n (ci_op n c)).
Proof. intros n [g|l] Hn H; cbn [o_U oobj ci_op]; [now apply U_expand_obj|now apply layer_U_ok]. Qed.
Lemma ci_unitary : forall n c, ci_ok n c -> unitary n (ci_op n c).
Proof. intros n [g|l] H; cbn [ci_op]; [now apply gi_unitary|now apply li_unitary]. Qed.

Lemma cs_op_snoc : forall n cs c, cs_op n (cs ++ [c]) = mul_op n (ci_op n c) (cs_op n cs).
Proof. intros. unfold cs_op. now rewrite fold_left_app. Qed.
Lemma cs_rev_snoc : forall n cs c, cs_op_rev n (cs ++ [c]) = mul_op n (cs_op_rev n cs) (ci_op n c).
Proof. intros. unfold cs_op_rev. now rewrite fold_left_app. Qed.
Lemma cs_unitary : forall n cs, Forall (ci_ok n) cs -> unitary n (cs_op n cs).
Proof.
  intros n cs. induction cs as [|c cs IH] using rev_ind; intros H; [apply unitary_id|]. apply Forall_app in H. destruct H as [H1 H2].
  rewrite cs_op_snoc. apply unitary_mul; [|now apply IH]. apply ci_unitary. now inversion H2.
Qed.
Lemma cU_ok : forall n cs, 0 < n -> Forall (ci_ok n) cs -> cU (circ n cs) true = Ok (op_tensor n (cs_op n cs)).
Proof.
  intros n cs Hn. unfold cU. rewrite circ_gate, circ_N. induction cs as [|c cs IH] using rev_ind; intros H; [cbn [mfold map]; f_equal; apply eye_op|].
  apply Forall_app in H. destruct H as [H1 H2]. rewrite map_app, mfold_app, IH by auto. cbn [bind map mfold].
  rewrite o_U_ok by (auto; now inversion H2). cbn [bind]. rewrite matmul_op. cbn [bind]. now rewrite cs_op_snoc.
Qed.
Lemma cU_rev_ok : forall n cs, 0 < n -> Forall (ci_ok n) cs -> cU (circ n cs) false = Ok (op_tensor n (cs_op_rev n cs)).
Proof.
  intros n cs Hn. unfold cU. rewrite circ_gate, circ_N. induction cs as [|c cs IH] using rev_ind; intros H; [cbn [mfold map]; f_equal; apply eye_op|].
  apply Forall_app in H. destruct H as [H1 H2]. rewrite map_app, mfold_app, IH by auto. cbn [bind map mfold].
  rewrite o_U_ok by (auto; now inversion H2). cbn [bind]. rewrite matmul_op. cbn [bind]. now rewrite cs_rev_snoc.
Qed.

Lemma ci_TN_con : forall n c, ci_TN n c = true -> ci_con n c = true.
Proof. intros n [[]|l]; cbn; auto. Qed.
Lemma ci_con_support : forall n c, ci_con n c = true -> o_supportTN (oobj n c) = true.
Proof. intros n [[]|[]]; cbn; auto. Qed.

Lemma act_snoc : forall n cs c f, st_eq n (act n (cs_op n (cs ++ [c])) f) (act n (ci_op n c) (act n (cs_op n cs) f)).
Proof. intros. rewrite cs_op_snoc. apply act_mul. Qed.

Lemma contract_evolution_ok : forall n cs f, Forall (ci_ok n) cs -> forallb (ci_con n) cs = true ->
  TN_contract_evolution (circ n cs) (tbuild (repeat 2 n) f) false = Ok (tbuild (repeat 2 n) (act n (cs_op n cs) f)).
Proof.
  intros n cs f. unfold TN_contract_evolution. rewrite circ_gate, circ_N, tbuild_shape, repeat_length, Nat.eqb_refl. cbn [negb raise_if].
  induction cs as [|c cs IH] using rev_ind; intros H HT.
  - cbn [map mfold]. f_equal. apply tbuild_st_ext. symmetry. apply act_id.
  - apply Forall_app in H. destruct H as [H1 H2]. rewrite forallb_app in HT. apply andb_true_iff in HT. destruct HT as [T1 T2].
    rewrite map_app, mfold_app, IH by auto. cbn [bind map mfold]. inversion H2 as [|? ? Hc _]; subst. cbn in T2. rewrite andb_true_r in T2.
    rewrite ci_con_support by auto.
    assert (E : o_TN_contract (oobj n c) (tbuild (repeat 2 n) (act n (cs_op n cs) f)) false = Ok (tbuild (repeat 2 n) (act n (ci_op n c) (act n (cs_op n cs) f)))).
    { destruct c as [g|l]; cbn [o_TN_contract oobj ci_op ci_con] in *; [apply TN_contract_obj_act; auto; now apply negb_true_iff in T2|now apply layer_contract_ok]. }
    rewrite E. cbn [bind]. f_equal. apply tbuild_st_ext. symmetry. apply act_snoc.
Qed.
Lemma contract_evolution_batch_ok : forall B n cs F, Forall (ci_ok n) cs -> forallb (ci_con n) cs = true ->
  TN_contract_evolution (circ n cs) (tbuild (B :: repeat 2 n) F) true = Ok (tbuild (B :: repeat 2 n) (batched (act n (cs_op n cs)) F)).
Proof.
  intros B n cs F. unfold TN_contract_evolution. rewrite circ_gate, circ_N, tbuild_shape. cbn [length]. rewrite repeat_length, Nat.add_1_r, Nat.eqb_refl. cbn [negb raise_if].
  induction cs as [|c cs IH] using rev_ind; intros H HT.
  - cbn [map mfold]. f_equal. apply tbuild_ext. intros idx Hi. destruct idx as [|j idx]; [inversion Hi|]. unfold batched. cbn [hd tl]. symmetry.
    apply (act_id n (fun b => F (j :: b))). apply valid_cons in Hi. now apply bits_valid.
  - apply Forall_app in H. destruct H as [H1 H2]. rewrite forallb_app in HT. apply andb_true_iff in HT. destruct HT as [T1 T2].
    rewrite map_app, mfold_app, IH by auto. cbn [bind map mfold]. inversion H2 as [|? ? Hc _]; subst. cbn in T2. rewrite andb_true_r in T2.
    rewrite ci_con_support by auto.
    assert (E : forall G, o_TN_contract (oobj n c) (tbuild (B :: repeat 2 n) G) true = Ok (tbuild (B :: repeat 2 n) (batched (act n (ci_op n c)) G))).
    { intros G. destruct c as [g|l]; cbn [o_TN_contract oobj ci_op ci_con] in *; [apply TN_contract_obj_batch_act; auto; now apply negb_true_iff in T2|now apply layer_contract_batch_ok]. }
    rewrite E. cbn [bind]. f_equal.
    transitivity (tbuild (B :: repeat 2 n) (batched (fun f => act n (ci_op n c) (act n (cs_op n cs) f)) F)).
    + apply tbuild_ext. intros idx Hi. destruct idx as [|j idx]; [inversion Hi|]. unfold batched. cbn [hd tl]. reflexivity.
    + apply batched_ext. intros f. symmetry. apply act_snoc.
Qed.

Lemma evolution_ok : forall svd n cs l psi, exact_svd svd -> Forall (ci_ok n) cs -> forallb (ci_TN n) cs = true -> is_mps n l psi -> nonzero n psi ->
  exists l', TN_evolution svd (circ n cs) l = Ok l' /\ is_mps n l' (act n (cs_op n cs) psi).
Proof.
  intros svd n cs l psi Hs H HT HM HZ. unfold TN_evolution. rewrite circ_gate, circ_N.
  assert (L : length l = n) by apply HM. rewrite L, Nat.eqb_refl. cbn [negb raise_if]. revert H HT.
  induction cs as [|c cs IH] using rev_ind; intros H HT.
  - exists l. split; [reflexivity|]. eapply is_mps_st; [exact HM|]. symmetry. apply act_id.
  - apply Forall_app in H. destruct H as [H1 H2]. rewrite forallb_app in HT. apply andb_true_iff in HT. destruct HT as [T1 T2].
    destruct (IH H1 T1) as (l1 & E1 & M1). rewrite map_app, mfold_app, E1. cbn [bind map mfold]. inversion H2 as [|? ? Hc _]; subst. cbn in T2. rewrite andb_true_r in T2.
    rewrite ci_con_support by (now apply ci_TN_con).
    assert (Z1 : nonzero (length l) (act (length l) (cs_op (length l) cs) psi)) by (apply unitary_nonzero; auto; now apply cs_unitary).
    assert (E : exists l', o_TN_operation svd (oobj (length l) c) l1 = Ok l' /\ is_mps (length l) l' (act (length l) (ci_op (length l) c) (act (length l) (cs_op (length l) cs) psi))).
    { destruct c as [g|y]; cbn [o_TN_operation oobj ci_op ci_TN] in *.
      - destruct (TN_operation_obj svd (length l) g l1 _ Hs Hc T2 M1 Z1) as (l' & E & M & _). eauto.
      - apply layer_TN_ok; auto. }
    destruct E as (l2 & E2 & M2). exists l2. rewrite E2. cbn [bind]. split; [reflexivity|]. eapply is_mps_st; [exact M2|]. symmetry. apply act_snoc.
Qed.
Lemma evolution_shape : forall svd n cs l l', svd_shapes svd -> Forall (ci_ok n) cs -> mps_shape n l ->
  TN_evolution svd (circ n cs) l = Ok l' -> mps_shape n l'.
Proof.
  intros svd n cs l l' Hs H HM E. unfold TN_evolution in E. destruct negb; [discriminate|]. cbn [raise_if] in E. rewrite circ_gate in E. clear -Hs H HM E.
  revert l HM E. induction H as [|c cs Hc H IH]; intros l HM E; cbn [map mfold] in E; [injection E as <-; exact HM|].
  apply bind_inv in E. destruct E as (l1 & E1 & E2). apply (IH l1); auto. destruct o_supportTN; [|discriminate].
  destruct c as [g|y]; cbn [o_TN_operation oobj ci_ok] in *; [eapply TN_operation_shape; eauto|eapply layer_TN_shape; eauto].
Qed.

(** * expectation *)
Lemma quad_form_ok : forall n s t psi M, is_state n s t psi -> wf t -> quad_form t (op_tensor n M) = Ok (Re (inner n psi (act n M psi))).
Proof.
  intros n s t psi M H W. unfold quad_form. rewrite (view_row n s t psi H W), (view_col n s t psi H W). cbn [bind].
  destruct (quad n psi M) as [E1 E2]. rewrite E1. cbn [bind]. rewrite row_col. cbn [bind data]. now rewrite E2.
Qed.

Definition exp_ok (n : nat) (cs : list ci) (TN : bool) : bool :=
  negb (TN && forallb (fun c => o_supportTN (oobj n c)) cs) || forallb (ci_TN n) cs.

Lemma TN_check_circ : forall n cs, TN_check (circ n cs) = forallb (fun c => o_supportTN (oobj n c)) cs.
Proof. intros. unfold TN_check. rewrite circ_gate. induction cs as [|c cs IH]; [reflexivity|]. cbn. now rewrite IH. Qed.

Lemma expectation_ok : forall svd n cs t psi m M TN, exact_svd svd -> 0 < n -> Forall (ci_ok n) cs -> exp_ok n cs TN = true ->
  is_state n [1; 2 ^ n] t psi -> (TN = true -> nonzero n psi) -> is_op n m M ->
  cir_expectation svd (circ n cs) t m TN = Ok (expect n cs psi M).
Proof.
  intros svd n cs t psi m M TN Hs Hn H HT Ht HZ Hm. apply is_op_eq in Hm. subst m.
  assert (W : wf t) by (unfold wf; destruct Ht as (S & L & _); rewrite S; cbn [prodn]; lia).
  unfold cir_expectation. destruct (Ht) as (S & _ & _). unfold shape_at. rewrite S, circ_N. cbn [nth_error bind].
  change (1 =? 1) with true. rewrite Nat.eqb_refl. cbn [negb raise_if op_tensor tbuild shape nth_error bind]. rewrite Nat.eqb_refl. cbn [negb raise_if].
  fold (op_tensor n M). rewrite TN_check_circ. destruct (forallb (fun c => o_supportTN (oobj n c)) cs && TN) eqn:T.
  - unfold exp_ok in HT. rewrite andb_comm, T in HT. cbn [negb orb] in HT. apply andb_true_iff in T. specialize (HZ (proj2 T)).
    rewrite (view_row n _ t psi Ht W). cbn [bind]. pose proof (row_state n psi) as R.
    destruct (round_trip svd n (row n psi) psi Hs Hn R HZ) as (l & t' & E1 & M1 & _). rewrite E1. cbn [bind].
    destruct (evolution_ok svd n cs l psi Hs H HT M1 HZ) as (l' & E2 & M2). rewrite E2. cbn [bind].
    destruct (mps_amplitudes n l' _ Hn M2) as (v & v' & E3 & Sv & _). rewrite E3. cbn [bind].
    apply (quad_form_ok n [1; 2 ^ n]); auto. apply state_row in Sv. subst v. apply tbuild_wf.
  - rewrite cU_ok by auto. cbn [bind]. rewrite (view_col n _ t psi Ht W). cbn [bind]. rewrite op_col. cbn [bind].
    apply (quad_form_ok n [2 ^ n; 1]); [apply col_state|apply col_wf].
Qed.
