(** Lemmas: MPS_expec. *)
From Coq Require Import List ZArith QArith Lia ZifyBool Bool Arith Ring Permutation.
From Verif Require Import PyBase Scalar BigSum Index Tensor TensorFacts Spec SpecFacts QMath QTN QOperator
  ExpandFacts ExpandFacts2 ContractFacts ContractFacts2 GateFacts MPSSpec MPSFacts1 MPSFacts2 MPSFacts3 MPSFacts4 MPSFacts5 MPSFacts10.
Import ListNotations.
Local Close Scope Q_scope.
Local Open Scope nat_scope.

Section MPSFacts11.
  Context {SC : Scalar}.
  Add Ring KR : k_ring.
  Local Open Scope k_scope.

  Lemma perm_201 : Permutation [2%nat; 0%nat; 1%nat] (seq 0 3).
  Proof. apply is_perm_spec. reflexivity. Qed.

  Lemma expec_site : forall A s Dl Dr, shape s = [2%nat; Dl; Dr] -> wf s ->
    (do temp <- permute s [1%Z; 2%Z; 0%Z];
     do temp <- unsqueeze temp (-1);
     do temp <- matmul (op_tensor 1 A) temp;
     do temp <- squeeze_dim temp 3;
     permute temp [2%Z; 0%Z; 1%Z]) = einsum_ab_bcd (op_tensor 1 A) s.
  Proof.
    intros A s Dl Dr Ss Ws. rewrite (tensor_eta s Ws), Ss. generalize (tget s). intros f.
    change [1%Z; 2%Z; 0%Z] with (map Z.of_nat [1%nat; 2%nat; 0%nat]). rewrite permute_tbuild by exact perm_120. cbn [bind map nth].
    rewrite unsqueeze_last. cbn [bind]. rewrite tbuild_shape. cbn [app].
    change [Dl; Dr; 2; 1]%nat with ([Dl; Dr] ++ [2 ^ 1; 1])%nat.
    change (tbuild [Dl; Dr; 2%nat]) with (tbuild ([Dl; Dr] ++ repeat 2%nat 1)).
    rewrite matmul_last. cbn [bind].
    unfold squeeze_dim, rank. cbn [shape app length]. change (dim_index 4 3) with (Ok 3%nat). cbn [bind nth Nat.eqb firstn skipn app data].
    match goal with |- context [mkT ?s (data (tbuild ?s' ?g))] => change (mkT s (data (tbuild s' g))) with (tbuild s g) end.
    cbn [bind]. change (2 ^ 1)%nat with 2%nat.
    change [2%Z; 0%Z; 1%Z] with (map Z.of_nat [2%nat; 0%nat; 1%nat]). rewrite permute_tbuild by exact perm_201. cbn [map nth].
    unfold einsum_ab_bcd, op_tensor. rewrite !tbuild_shape. change (2 ^ 1)%nat with 2%nat. cbn [Nat.eqb]. f_equal.
    apply tbuild_ext. intros idx V. vinv V. cbn [length nth].
    change (unperm [2%nat; 0%nat; 1%nat] [x; x0; x1]) with [x0; x1; x]. cbn [firstn skipn app].
    rewrite (bits_map 1), bigsum_map. change (2 ^ 1)%nat with 2%nat. apply bigsum_ext. intros y Hy. apply in_seq in Hy.
    rewrite !tget_tbuild by vok. destruct y as [|[|]]; [| |lia]; destruct x as [|[|]]; try lia; reflexivity.
  Qed.

  Fixpoint obs_st (n : nat) (ws : list nat) (As : list qop) (psi : qstate) : qstate :=
    match ws, As with
    | w :: ws', A :: As' => obs_st n ws' As' (act n (lift A [w]) psi)
    | _, _ => psi
    end.

  Lemma expec_apply_gen : forall n ws As pre l psi, is_mps n l psi -> (forall w, In w ws -> (w < n)%nat) -> length As = length ws ->
    exists l', mfold (fun MPS (iq : nat * Z) =>
      let '(i, q) := iq in
      do temp <- py_nth MPS q;
      do temp <- permute temp [1%Z; 2%Z; 0%Z];
      do temp <- unsqueeze temp (-1);
      do o <- py_nth (pre ++ map (op_tensor 1) As) (Z.of_nat i);
      do temp <- matmul o temp;
      do temp <- squeeze_dim temp 3;
      do temp <- permute temp [2%Z; 0%Z; 1%Z];
      py_set MPS q temp) (combine (seq (length pre) (length ws)) (map Z.of_nat ws)) l = Ok l' /\ is_mps n l' (obs_st n ws As psi).
  Proof.
    intros n ws. induction ws as [|w ws IH]; intros As pre l psi HM HW HL.
    - cbn [length seq map combine mfold obs_st]. eauto.
    - destruct As as [|A As]; [discriminate|]. cbn [length seq map combine mfold obs_st].
      assert (Hw : (w < n)%nat) by (apply HW; simpl; auto).
      destruct (single_site_ok n A l psi w HM Hw) as (s & s' & E1 & E2 & l1 & E3 & M1). rewrite E1. cbn [bind].
      destruct HM as [[Ln Cn] An].
      destruct (chain_nth l 1 1 w Cn ltac:(lia)) as (D & _ & Ss & Ws & _).
      rewrite (py_nth_nat _ _ w dt) in E1 by lia. injection E1 as E1. rewrite E1 in Ss, Ws.
      pose proof (expec_site A s _ _ Ss Ws) as X. rewrite E2 in X.
      apply bind_inv in X. destruct X as (x1 & X1 & X). rewrite X1. cbn [bind].
      apply bind_inv in X. destruct X as (x2 & X2 & X). rewrite X2. cbn [bind].
      rewrite (py_nth_nat _ _ (length pre) dt) by (rewrite app_length; cbn [length]; lia).
      rewrite app_nth2, Nat.sub_diag by lia. cbn [nth bind].
      apply bind_inv in X. destruct X as (x3 & X3 & X). rewrite X3. cbn [bind].
      apply bind_inv in X. destruct X as (x4 & X4 & X). rewrite X4. cbn [bind]. rewrite X. cbn [bind]. rewrite E3. cbn [bind].
      assert (M1' : is_mps n l1 (act n (lift A [w]) psi)).
      { eapply is_mps_st; [exact M1|]. apply st_sym, act_lift. now apply good_wires_1. }
      destruct (IH As (pre ++ [op_tensor 1 A]) l1 _ M1') as (l' & E & M). { intros; apply HW; simpl; auto. } { cbn [length] in HL. lia. }
      rewrite app_length in E. cbn [length] in E. rewrite Nat.add_1_r, <- app_assoc in E. cbn [app] in E.
      exists l'. split; [exact E|exact M].
  Qed.

  Lemma MPS_expec_ok : forall n l psi ws As, (0 < n)%nat -> is_mps n l psi -> (forall w, In w ws -> (w < n)%nat) -> length As = length ws ->
    exists l', MPS_expec l (map Z.of_nat ws) (map (op_tensor 1) As) = Ok (inner n psi (obs_st n ws As psi), l') /\
      is_mps n l' (obs_st n ws As psi).
  Proof.
    intros n l psi ws As Hn HM HW HL. destruct (expec_apply_gen n ws As [] l psi HM HW HL) as (l' & E & M). cbn [length app] in E.
    exists l'. split; [|exact M]. unfold MPS_expec. rewrite (MPS2StateVec_ok n l psi Hn HM). cbn [bind].
    change [1%Z; (-1)%Z] with (map Z.of_nat [1%nat] ++ (-1)%Z :: map Z.of_nat []).
    assert (P : (0 < 2 ^ n)%nat) by (apply Nat.neq_0_lt_0, Nat.pow_nonzero; lia).
    rewrite (view_m1 _ [1%nat] [] (2 ^ n)%nat) by (cbn [prodn shape tbuild app]; lia). cbn [bind app data].
    match goal with |- context [mkT ?s (data (tbuild ?s' ?g))] => change (mkT s (data (tbuild s' g))) with (tbuild s g) end.
    unfold MPS_expec_apply. rewrite map_length. rewrite E. cbn [bind]. rewrite (MPS2StateVec_ok n l' _ Hn M). cbn [bind].
    change [(-1)%Z; 1%Z] with (map Z.of_nat [] ++ (-1)%Z :: map Z.of_nat [1%nat]).
    rewrite (view_m1 _ [] [1%nat] (2 ^ n)%nat) by (cbn [prodn shape tbuild app]; lia). cbn [bind app].
    rewrite (reshape_tbuild [1%nat; (2 ^ n)%nat] [(2 ^ n)%nat; 1%nat]) by (cbn [prodn]; lia).
    rewrite tconj_tbuild, matmul_2d. cbn [bind]. do 2 f_equal. rewrite squeeze_tbuild. cbn [filter Nat.eqb negb expand tbuild data all_idx map nth].
    unfold inner. rewrite bits_map, bigsum_map. apply bigsum_ext. intros k Hk. apply in_seq in Hk.
    f_equal. f_equal.
    rewrite (unflat_unique [1%nat; (2 ^ n)%nat] _ [0%nat; k]); [reflexivity|vok|cbn [flat prodn]; lia].
  Qed.

  Lemma obs_st_ext : forall n ws As f g, st_eq n f g -> st_eq n (obs_st n ws As f) (obs_st n ws As g).
  Proof.
    intros n ws. induction ws as [|w ws IH]; intros [|A As] f g H; cbn [obs_st]; auto. apply IH. intros b Hb. apply act_proper; [reflexivity|exact H|exact Hb].
  Qed.
  Lemma obs_op_act : forall n ws As psi, st_eq n (act n (obs_op n ws As) psi) (obs_st n ws As psi).
  Proof.
    intros n ws As psi.
    assert (G : forall ws As B, st_eq n (act n (fold_left (fun B (wa : nat * qop) => mul_op n (lift (snd wa) [fst wa]) B) (combine ws As) B) psi)
      (obs_st n ws As (act n B psi))).
    { clear. intros ws. induction ws as [|w ws IH]; intros [|A As] B; cbn [combine fold_left obs_st]; try (intros b Hb; reflexivity).
      eapply st_trans; [apply IH|]. apply obs_st_ext. intros b Hb. now apply act_mul. }
    eapply st_trans; [apply G|]. apply obs_st_ext. intros b Hb. now apply act_id.
  Qed.

  Lemma expec_ok : forall n l psi ws obs As, (0 < n)%nat -> is_mps n l psi -> (forall w, In w ws -> (w < n)%nat) ->
    length ws = length obs -> Forall2 (is_op 1) obs As ->
    exists l', MPS_expec l (map Z.of_nat ws) obs = Ok (inner n psi (act n (obs_op n ws As) psi), l') /\
      is_mps n l' (act n (obs_op n ws As) psi).
  Proof.
    intros n l psi ws obs As Hn HM HW HL HF.
    assert (EO : obs = map (op_tensor 1) As).
    { clear - HF. induction HF as [|o A obs As H HF IH]; [reflexivity|]. cbn [map]. apply is_op_eq in H. now subst. }
    subst obs. destruct (MPS_expec_ok n l psi ws As Hn HM HW) as (l' & E & M). { rewrite map_length in HL. auto. }
    exists l'. split.
    - rewrite E. do 2 f_equal. unfold inner. apply bigsum_ext. intros b Hb. f_equal. symmetry. now apply obs_op_act.
    - eapply is_mps_st; [exact M|]. apply st_sym, obs_op_act.
  Qed.
End MPSFacts11.
