(** Lemmas: equal wires, and disjoint wires, on a matrix product state. *)
From Coq Require Import List ZArith QArith Reals Lia ZifyBool Bool Arith Permutation.
From Verif Require Import PyBase Scalar CInst BigSum Index Tensor TensorFacts Spec SpecFacts QMath QTN QOperator
  ExpandFacts ExpandFacts2 ContractFacts ContractFacts2 GateSpec QGates GateCalls GateFacts GateFacts2 GateFacts3 GateFacts4 GateFacts5
  GateFacts6 GateProofs RunSpec MPSSpec MPSFacts1 MPSFacts2 MPSFacts3 MPSFacts4 MPSFacts5 MPSFacts6 MPSFacts7 MPSFacts8 MPSFacts9.
Import ListNotations.
Local Close Scope Q_scope.
Local Close Scope R_scope.
Local Open Scope nat_scope.

Lemma zrange2_empty : forall a b, (b <= a)%Z -> zrange2 a b = [].
Proof. intros a b H. unfold zrange2. now replace (Z.to_nat (b - a)) with 0 by lia. Qed.
Lemma zrange_down_empty : forall a b, (a <= b)%Z -> zrange_down a b = [].
Proof. intros a b H. unfold zrange_down. now replace (Z.to_nat (a - b)) with 0 by lia. Qed.

Section Equal.
  Variable svd : tensor -> tensor * tensor * tensor.
  Hypothesis Hsvd : exact_svd svd.

  Lemma ctrl_TN_equal : forall n U R l psi q, is_mps n l psi -> 0 < q < n ->
    nonzero n (act n (ctrl [q - 1] (lift U [q])) psi) ->
    exists l', ctrl_TN_operation svd (op_tensor 2 (ctrl [0] (lift U [1]))) R (Z.of_nat n) (WList [Z.of_nat q; Z.of_nat q]) l = Ok l' /\
      is_mps n l' (act n (ctrl [q - 1] (lift U [q])) psi).
  Proof.
    intros n U R l psi q HM Hq Hnz. destruct (ctrl_order n U (q - 1) q psi ltac:(lia) ltac:(lia) ltac:(lia)) as [O1 _].
    unfold ctrl_TN_operation, unset, wires_unset. replace (Z.of_nat n =? -1)%Z with false by lia.
    cbn [orb raise_if wire_list bind length Nat.eqb negb py_min py_max fold_left].
    change (py_nth [Z.of_nat q; Z.of_nat q] 0) with (Ok (Z.of_nat q)). cbn [bind]. rewrite Z.min_id, Z.max_id, Z.eqb_refl.
    rewrite zrange2_empty, zrange_down_empty by lia. cbn [mfold bind].
    destruct (two_site_ok svd Hsvd n (ctrl [0] (lift U [1])) l psi (q - 1) HM ltac:(lia)) as (l' & E & M).
    { replace (S (q - 1)) with q by lia. eapply nonzero_st; [exact Hnz|]. now apply st_sym. }
    replace (S (q - 1)) with q in * by lia. replace (Z.of_nat (q - 1)) with (Z.of_nat q - 1)%Z in E by lia. rewrite E. cbn [bind].
    exists l'. split; [reflexivity|]. eapply is_mps_st; [exact M|exact O1].
  Qed.
  Lemma cnot_TN_equal : forall n U R l psi q, is_mps n l psi -> 0 < q < n ->
    nonzero n (act n (ctrl [q - 1] (lift U [q])) psi) ->
    exists l', cnot_TN_operation svd (op_tensor 2 (ctrl [0] (lift U [1]))) R (Z.of_nat n) (WList [Z.of_nat q; Z.of_nat q]) l = Ok l' /\
      is_mps n l' (act n (ctrl [q - 1] (lift U [q])) psi).
  Proof.
    intros n U R l psi q HM Hq Hnz. pose proof (ctrl_TN_equal n U R l psi q HM Hq Hnz) as G.
    unfold cnot_TN_operation. unfold ctrl_TN_operation in G. unfold unset, wires_unset in *. replace (Z.of_nat n =? -1)%Z with false in * by lia.
    cbn [orb raise_if wire_list bind length Nat.eqb negb py_min py_max fold_left] in *.
    replace (Z.min (Z.of_nat q) (Z.of_nat q) + 1 =? Z.max (Z.of_nat q) (Z.of_nat q))%Z with false by lia. exact G.
  Qed.
End Equal.

Lemma equal_wires : forall svd n q th ph la k A l psi, exact_svd svd -> 0 < q < n -> In (k, A) (controlled_calls n q q th ph la) ->
  is_mps n l psi -> nonzero n psi ->
  exists o l', k = Ok o /\ U_expand o = Err ValueError /\ TN_operation svd o l = Ok l' /\
    is_mps n l' (act n (ctrl [q - 1] (lift A [q])) psi).
Proof.
  intros svd n q th ph la k A l psi Hs Hq HI HM Hnz.
  assert (W : good_wires n [q - 1; q]) by (apply good_wires_2; lia).
  assert (UE : forall g c, build n g = Ok (obj n g) -> g_wires (obj n g) = WList [Z.of_nat q; Z.of_nat q] -> constructed (obj n g) -> g_cls (obj n g) = c -> controlled_cls c = true ->
    U_expand (obj n g) = Err ValueError).
  { intros g c _ Hw Hc Hcl Hk. apply (controlled_rejects _ (Z.of_nat q) (Z.of_nat q)); auto. now rewrite Hcl. }
  unfold controlled_calls in HI. cbn [In] in HI. destruct HI as [HI|[HI|[HI|[HI|[]]]]]; injection HI as <- <-.
  - pose proof (build_ok n (gi_cnot q q)) as B. cbn [build zl map] in B.
    destruct (cnot_TN_equal svd Hs n X_op rev_cnot l psi q HM Hq) as (l' & E & M).
    { apply unitary_nonzero; auto. exact (gi_unitary n (gi_cnot (q - 1) q) (conj W I)). }
    exists (obj n (gi_cnot q q)), l'. split; [exact B|]. split; [exact (UE (gi_cnot q q) ccnot (build_ok _ _) eq_refl (con_cnot _ _ _ B) eq_refl eq_refl)|]. split; [exact E|exact M].
  - pose proof (build_ok n (gi_cz q q)) as B. cbn [build zl map] in B.
    destruct (ctrl_TN_equal svd Hs n Z_op rev_cz l psi q HM Hq) as (l' & E & M).
    { apply unitary_nonzero; auto. exact (gi_unitary n (gi_cz (q - 1) q) (conj W I)). }
    exists (obj n (gi_cz q q)), l'. split; [exact B|]. split; [exact (UE (gi_cz q q) ccz (build_ok _ _) eq_refl (con_cz _ _ _ B) eq_refl eq_refl)|]. split; [exact E|exact M].
  - pose proof (build_ok n (gi_cphase th q q)) as B. cbn [build zl map] in B.
    destruct (ctrl_TN_equal svd Hs n (u1_op th) (rev_cphase (obj n (gi_cphase th q q))) l psi q HM Hq) as (l' & E & M).
    { apply unitary_nonzero; auto. exact (gi_unitary n (gi_cphase th (q - 1) q) (conj W I)). }
    exists (obj n (gi_cphase th q q)), l'. split; [exact B|]. split; [refine (UE (gi_cphase th q q) ccphase (build_ok _ _) eq_refl _ eq_refl eq_refl); eapply con_cphase; exact B|]. split; [exact E|exact M].
  - pose proof (build_ok n (gi_cu3 th ph la q q)) as B. cbn [build zl map] in B.
    destruct (ctrl_TN_equal svd Hs n (u3_op th ph la) (rev_cu3 (obj n (gi_cu3 th ph la q q))) l psi q HM Hq) as (l' & E & M).
    { apply unitary_nonzero; auto. exact (gi_unitary n (gi_cu3 th ph la (q - 1) q) (conj W I)). }
    exists (obj n (gi_cu3 th ph la q q)), l'. split; [exact B|]. split; [refine (UE (gi_cu3 th ph la q q) ccu3 (build_ok _ _) eq_refl _ eq_refl eq_refl); eapply con_cu3; exact B|]. split; [exact E|exact M].
Qed.

Lemma mps_commute : forall svd n g h l psi, exact_svd svd -> gi_ok n g -> gi_ok n h -> has_TN g = true -> has_TN h = true ->
  (forall w, In w (gi_wires g) -> ~ In w (gi_wires h)) -> is_mps n l psi -> nonzero n psi ->
  exists a b l1 l12 l2 l21, build n g = Ok a /\ build n h = Ok b /\
    TN_operation svd a l = Ok l1 /\ TN_operation svd b l1 = Ok l12 /\
    TN_operation svd b l = Ok l2 /\ TN_operation svd a l2 = Ok l21 /\
    exists psi', is_mps n l12 psi' /\ is_mps n l21 psi'.
Proof.
  intros svd n g h l psi Hs Hg Hh Tg Th D HM Hnz.
  assert (NZ : forall f phi, gi_ok n f -> nonzero n phi -> nonzero n (act n (gi_op n f) phi)) by (intros f phi Hf Hp; apply unitary_nonzero; [exact (gi_unitary n f Hf)|exact Hp]).
  assert (ST : forall f l0 phi, gi_ok n f -> has_TN f = true -> is_mps n l0 phi -> nonzero n phi ->
    exists l', TN_operation svd (obj n f) l0 = Ok l' /\ is_mps n l' (act n (gi_op n f) phi)).
  { intros f l0 phi Hf Tf Hm Hp. destruct (TN_operation_obj svd n f l0 phi Hs Hf Tf Hm Hp) as (l' & E & M & _). now exists l'. }
  destruct (ST g l psi Hg Tg HM Hnz) as (l1 & E1 & M1). destruct (ST h l1 _ Hh Th M1 (NZ g psi Hg Hnz)) as (l12 & E12 & M12).
  destruct (ST h l psi Hh Th HM Hnz) as (l2 & E2 & M2). destruct (ST g l2 _ Hg Tg M2 (NZ h psi Hh Hnz)) as (l21 & E21 & M21).
  exists (obj n g), (obj n h), l1, l12, l2, l21. split; [apply build_ok|]. split; [apply build_ok|]. repeat (split; [assumption|]).
  exists (act n (mul_op n (gi_op n g) (gi_op n h)) psi). split.
  - eapply is_mps_st; [exact M12|]. rewrite <- act_mul. now rewrite (gi_comm n g h Hg Hh D).
  - eapply is_mps_st; [exact M21|]. now rewrite <- act_mul.
Qed.
