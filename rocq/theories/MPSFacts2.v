(** Lemmas: chains of site tensors; StateVec2MPS and MPS2StateVec. *)
From Coq Require Import List ZArith QArith Lia ZifyBool Bool Arith Ring Permutation.
From Verif Require Import PyBase Scalar BigSum Index Tensor TensorFacts Spec SpecFacts QMath QTN QOperator
  ExpandFacts ExpandFacts2 ContractFacts MPSSpec MPSFacts1.
Import ListNotations.
Local Close Scope Q_scope.
Local Open Scope nat_scope.

Section MPSFacts2.
  Context {SC : Scalar}.
  Add Ring KR : k_ring.
  Local Open Scope k_scope.

  Lemma chain_app : forall l1 l2 Dl Dr, chain Dl (l1 ++ l2) Dr <-> exists D, chain Dl l1 D /\ chain D l2 Dr.
  Proof.
    induction l1 as [|t l1 IH]; intros l2 Dl Dr; cbn [app chain].
    - split; [intros H; exists Dl; auto|intros (D & -> & H); auto].
    - split.
      + intros (D & H1 & H2 & H3 & H4). apply IH in H4. destruct H4 as (D' & H4 & H5). exists D'. split; eauto 10.
      + intros (D' & (D & H1 & H2 & H3 & H4) & H5). exists D. repeat split; auto. apply IH. eauto.
  Qed.

  Lemma chain_pos : forall l Dl Dr, (0 < Dl)%nat -> chain Dl l Dr -> (0 < Dr)%nat.
  Proof.
    induction l as [|t l IH]; cbn [chain]; intros Dl Dr HD H; [lia|]. destruct H as (D & H1 & _ & _ & H2). eauto.
  Qed.

  Lemma mps_mat_app : forall l1 l2 Dl D b1 b2 i j, chain Dl l1 D -> (i < Dl)%nat -> length b1 = length l1 ->
    mps_mat (l1 ++ l2) (b1 ++ b2) i j = bigsum (seq 0 D) (fun k => mps_mat l1 b1 i k * mps_mat l2 b2 k j).
  Proof.
    induction l1 as [|t l1 IH]; intros l2 Dl D b1 b2 i j HC Hi HL.
    - destruct b1; [|discriminate]. cbn [app chain] in *. subst Dl. cbn [mps_mat].
      rewrite (bigsum_single _ (seq 0 D) i); [|apply seq_NoDup|apply in_seq; lia|].
      + rewrite Nat.eqb_refl. ring.
      + intros k _ Hk. replace (i =? k)%nat with false by lia. ring.
    - destruct b1 as [|x b1]; [discriminate|]. cbn [app mps_mat].
      destruct HC as (D' & HD & HS & HW & HC). rewrite HS. cbn [nth].
      transitivity (bigsum (seq 0 D') (fun k' => bigsum (seq 0 D) (fun k => tget t [x; i; k'] * mps_mat l1 b1 k' k * mps_mat l2 b2 k j))).
      + apply bigsum_ext. intros k' Hk'. apply in_seq in Hk'. rewrite (IH l2 D' D) by (auto; lia).
        rewrite <- bigsum_mul_l. apply bigsum_ext. intros. ring.
      + rewrite bigsum_swap. apply bigsum_ext. intros k _. rewrite <- bigsum_mul_r. apply bigsum_ext. intros. ring.
  Qed.

  Lemma mps_mat_1 : forall t Dl D x i j, shape t = [2%nat; Dl; D] -> (j < D)%nat ->
    mps_mat [t] [x] i j = tget t [x; i; j].
  Proof.
    intros t Dl D x i j HS Hj. cbn [mps_mat]. rewrite HS. cbn [nth].
    rewrite (bigsum_single _ (seq 0 D) j); [|apply seq_NoDup|apply in_seq; lia|].
    - rewrite Nat.eqb_refl. ring.
    - intros k _ Hk. replace (k =? j)%nat with false by lia. ring.
  Qed.

  Lemma chain_1 : forall t Dl D, (0 < D)%nat -> shape t = [2%nat; Dl; D] -> wf t -> chain Dl [t] D.
  Proof. intros. exists D. cbn [chain]. auto. Qed.

  (** ** StateVec2MPS *)
  Section SV.
    Variable svd : tensor -> tensor * tensor * tensor.
    Variable N : nat.
    Variable psi : qstate.

    (** state of the loop before iteration i *)
    Definition sv_inv (i : nat) (st : tensor * list tensor) : Prop :=
      exists D cf, (0 < D)%nat /\ fst st = tbuild [D; (2 ^ (N - i))%nat] cf /\ length (snd st) = i /\ chain 1 (snd st) D /\
        forall b b', In b (bits i) -> In b' (bits (N - i)) ->
          psi (b ++ b') = bigsum (seq 0 D) (fun k => mps_mat (snd st) b 0%nat k * cf [k; bval b']).

    Definition sv_step (st : tensor * list tensor) (i : nat) : res (tensor * list tensor) :=
      do c <- fold_cols (fst st);
      if (i =? N - 1)%nat
      then do s <- view_site c; Ok (c, snd st ++ [s])
      else do uc <- svd_cut svd c;
           do s <- view_site (fst uc);
           Ok (snd uc, snd st ++ [s]).

    Lemma bits_split : forall i n b, In b (bits n) -> (i <= n)%nat ->
      In (firstn i b) (bits i) /\ In (skipn i b) (bits (n - i)).
    Proof.
      intros i n b H Hi. apply bits_valid in H. replace n with (i + (n - i))%nat in H by lia.
      rewrite repeat_app in H. pose proof (valid_length _ _ H) as L. rewrite app_length, !repeat_length in L.
      rewrite <- (firstn_skipn i b) in H. apply valid_app in H. 2:{ rewrite firstn_length, repeat_length. lia. }
      destruct H. split; now apply bits_valid.
    Qed.

    (** the folded matrix *)
    Definition fold_f (D i : nat) (cf : list nat -> K) : list nat -> K :=
      fun idx => cf [(nth 0 idx 0 mod D)%nat; (nth 0 idx 0 / D * 2 ^ (N - S i) + nth 1 idx 0)%nat].
    Lemma fold_entry : forall D i cf x k j, (x < 2)%nat -> (k < D)%nat -> (S i <= N)%nat ->
      fold_f D i cf [(x * D + k)%nat; j] = cf [k; (x * 2 ^ (N - S i) + j)%nat].
    Proof.
      intros D i cf x k j Hx Hk Hi. unfold fold_f. cbn [nth].
      rewrite (Nat.add_comm (x * D) k), Nat.mod_add, Nat.mod_small, Nat.div_add, Nat.div_small by lia. reflexivity.
    Qed.

    Lemma psi_split : forall i D cf sites b x b', chain 1 sites D -> length sites = i -> (S i <= N)%nat ->
      (forall b b', In b (bits i) -> In b' (bits (N - i)) ->
          psi (b ++ b') = bigsum (seq 0 D) (fun k => mps_mat sites b 0%nat k * cf [k; bval b'])) ->
      In b (bits i) -> (x < 2)%nat -> In b' (bits (N - S i)) ->
      psi ((b ++ [x]) ++ b') = bigsum (seq 0 D) (fun k => mps_mat sites b 0%nat k * cf [k; (x * 2 ^ (N - S i) + bval b')%nat]).
    Proof.
      intros i D cf sites b x b' HC HL Hi H Hb Hx Hb'. rewrite <- app_assoc. cbn [app].
      rewrite H; auto.
      - apply bigsum_ext. intros k _. rewrite bval_cons, (bits_length _ _ Hb'). reflexivity.
      - replace (N - i)%nat with (S (N - S i)) by lia. apply bits_cons. auto.
    Qed.

    Lemma sv_step_mid : forall i st, exact_svd svd -> nonzero N psi -> (S i < N)%nat -> sv_inv i st ->
      exists st', sv_step st i = Ok st' /\ sv_inv (S i) st'.
    Proof.
      intros i [c sites] Hs Hnz Hi (D & cf & HD & Hc & HL & HC & HP). cbn [fst snd] in *. subst c.
      unfold sv_step. cbn [fst snd].
      assert (E2 : (2 ^ (N - i) = 2 * 2 ^ (N - S i))%nat) by (replace (N - i)%nat with (S (N - S i)) by lia; reflexivity).
      assert (P2 : (0 < 2 ^ (N - S i))%nat) by (apply Nat.neq_0_lt_0, Nat.pow_nonzero; lia).
      rewrite E2, fold_cols_ok by auto. cbn [bind].
      replace (i =? N - 1)%nat with false by lia.
      fold (fold_f D i cf). set (cf1 := fold_f D i cf).
      destruct (svd_cut_exact svd (2 * D)%nat (2 ^ (N - S i))%nat cf1 Hs) as (D' & u & c' & HD' & -> & HE); [lia|lia| |].
      { intros HZ. apply Hnz. intros b0 Hb0.
        destruct (bits_split i N b0 Hb0 ltac:(lia)) as [B1 B2].
        replace (N - i)%nat with (S (N - S i)) in B2 by lia.
        destruct (skipn i b0) as [|x b'] eqn:ES. { apply bits_length in B2. discriminate. }
        apply bits_cons in B2. destruct B2 as [Hx B2].
        pose proof (psi_split i D cf sites (firstn i b0) x b' HC HL ltac:(lia) HP B1 Hx B2) as EP.
        assert (EB : (firstn i b0 ++ [x]) ++ b' = b0).
        { rewrite <- app_assoc. cbn [app]. rewrite <- ES. apply firstn_skipn. }
        rewrite EB in EP.
        rewrite EP. apply bigsum_zero. intros k Hk. apply in_seq in Hk.
        rewrite <- (fold_entry D i cf x k (bval b')) by (auto; lia). fold cf1.
        rewrite HZ by (try (pose proof (bval_lt _ _ B2); lia); nia). ring. }
      cbn [bind fst snd]. rewrite view_site_ok by lia. cbn [bind]. eexists. split; [reflexivity|].
      exists D', c'. cbn [fst snd]. repeat split; auto.
      - rewrite app_length. cbn [length]. lia.
      - apply chain_app. exists D. split; auto. apply chain_1; auto. apply tbuild_wf.
      - intros b b' Hb Hb'.
        destruct (bits_split i (S i) b Hb ltac:(lia)) as [B1 B2]. replace (S i - i)%nat with 1%nat in B2 by lia.
        pose proof (bits_length _ _ B2) as L2. destruct (skipn i b) as [|x [|]] eqn:ES; try discriminate.
        apply bits_cons in B2. destruct B2 as [Hx _].
        assert (EB : b = firstn i b ++ [x]) by (rewrite <- ES; symmetry; apply firstn_skipn).
        rewrite EB. rewrite (psi_split i D cf sites (firstn i b) x b' HC HL ltac:(lia) HP B1 Hx Hb').
        transitivity (bigsum (seq 0 D) (fun k => bigsum (seq 0 D') (fun l => mps_mat sites (firstn i b) 0%nat k * (u [(x * D + k)%nat; l] * c' [l; bval b'])))).
        + apply bigsum_ext. intros k Hk. apply in_seq in Hk. rewrite bigsum_mul_l. f_equal.
          rewrite <- HE by (try (pose proof (bval_lt _ _ Hb'); lia); nia).
          unfold cf1. rewrite (fold_entry D i cf x k) by (auto; lia). reflexivity.
        + rewrite bigsum_swap. apply bigsum_ext. intros l Hl. apply in_seq in Hl.
          rewrite (mps_mat_app sites _ 1 D) by (auto; try lia; rewrite HL; now apply bits_length in B1).
          rewrite <- bigsum_mul_r. apply bigsum_ext. intros k Hk. apply in_seq in Hk.
          rewrite (mps_mat_1 _ D D') by (auto; lia). rewrite tget_tbuild by vok. cbn [nth]. ring.
    Qed.

    Lemma sv_step_last : forall i st, S i = N -> sv_inv i st ->
      exists st', sv_step st i = Ok st' /\ is_mps N (snd st') psi.
    Proof.
      intros i [c sites] Hi (D & cf & HD & Hc & HL & HC & HP). cbn [fst snd] in *. subst c.
      unfold sv_step. cbn [fst snd].
      assert (E2 : (2 ^ (N - i) = 2 * 2 ^ (N - S i))%nat) by (replace (N - i)%nat with (S (N - S i)) by lia; reflexivity).
      assert (P2 : (2 ^ (N - S i) = 1)%nat) by (replace (N - S i)%nat with 0%nat by lia; reflexivity).
      rewrite E2, fold_cols_ok by lia. cbn [bind]. fold (fold_f D i cf).
      replace (i =? N - 1)%nat with true by lia. rewrite P2.
      rewrite view_site_ok by lia. cbn [bind]. eexists. split; [reflexivity|]. cbn [snd].
      split; [split|].
      - rewrite app_length. cbn [length]. lia.
      - apply chain_app. exists D. split; auto. apply chain_1; auto. apply tbuild_wf.
      - intros b Hb. unfold mps_amp.
        destruct (bits_split i N b Hb ltac:(lia)) as [B1 B2]. replace (N - i)%nat with 1%nat in B2 by lia.
        pose proof (bits_length _ _ B2) as L2. destruct (skipn i b) as [|x [|]] eqn:ES; try discriminate.
        apply bits_cons in B2. destruct B2 as [Hx _].
        assert (EB : b = firstn i b ++ [x]) by (rewrite <- ES; symmetry; apply firstn_skipn).
        transitivity (psi ((firstn i b ++ [x]) ++ [])); [|now rewrite app_nil_r, <- EB].
        rewrite EB at 1. rewrite (mps_mat_app sites _ 1 D) by (auto; try lia; rewrite HL; now apply bits_length in B1).
        rewrite (psi_split i D cf sites (firstn i b) x [] HC HL ltac:(lia) HP B1 Hx) by (replace (N - S i)%nat with 0%nat by lia; now left).
        apply bigsum_ext. intros k Hk. apply in_seq in Hk.
        rewrite (mps_mat_1 _ D 1) by (auto; lia). rewrite tget_tbuild by vok. cbn [nth].
        rewrite (fold_entry D i cf x k) by (auto; lia). reflexivity.
    Qed.

    Lemma StateVec2MPS_ok : exact_svd svd -> (0 < N)%nat -> nonzero N psi ->
      exists l, StateVec2MPS svd (tbuild [1%nat; (2 ^ N)%nat] (fun idx => psi (bitsof N (nth 1 idx 0%nat)))) N = Ok l /\ is_mps N l psi.
    Proof.
      intros Hs HN Hnz. unfold StateVec2MPS. cbn [shape tbuild length Nat.eqb negb nth orb]. rewrite Nat.eqb_refl.
      cbn [raise_if negb]. fold (tbuild [1%nat; (2 ^ N)%nat] (fun idx => psi (bitsof N (nth 1 idx 0%nat)))).
      fold sv_step.
      set (M := (N - 1)%nat). assert (SQ : seq 0 N = seq 0 M ++ [M]).
      { replace N with (S M) by (subst M; lia). apply seq_S. }
      rewrite SQ, mfold_app.
      destruct (mfold_inv _ _ sv_step sv_inv (seq 0 M) (tbuild [1%nat; (2 ^ N)%nat] (fun idx => psi (bitsof N (nth 1 idx 0%nat))), [])) as (st & -> & Hst).
      - exists 1%nat. eexists. cbn [fst snd length]. rewrite Nat.sub_0_r. repeat split; [lia|].
        intros b b' Hb Hb'. cbn in Hb. destruct Hb as [<-|[]]. cbn [seq]. rewrite bigsum_cons, bigsum_nil. cbn [mps_mat Nat.eqb nth app].
        rewrite bitsof_bval by (exact Hb'). ring.
      - intros i a b Hb Ha.
        assert (Hi : (i < M)%nat) by (rewrite <- (seq_length M 0); apply nth_error_Some; congruence).
        rewrite (nth_error_nth' _ 0%nat) in Hb by (rewrite seq_length; lia). rewrite seq_nth in Hb by lia.
        injection Hb as <-. apply sv_step_mid; auto. subst M. lia.
      - rewrite seq_length in Hst. cbn [bind]. cbn [mfold].
        destruct (sv_step_last M st ltac:(subst M; lia) Hst) as (st' & -> & H'). cbn [bind]. eauto.
    Qed.
  End SV.

  (** ** MPS2StateVec *)
  Definition sv_upto (l : list tensor) (D : nat) : tensor :=
    tbuild [(2 ^ length l)%nat; 1%nat; D] (fun idx => mps_mat l (bitsof (length l) (nth 0 idx 0%nat)) 0%nat (nth 2 idx 0%nat)).

  Lemma site_eta : forall t Dl D, shape t = [2%nat; Dl; D] -> wf t -> t = tbuild [2%nat; Dl; D] (tget t).
  Proof. intros t Dl D H W. rewrite <- H. now apply tensor_eta. Qed.

  Lemma bitsof_snoc : forall i r x, (r < 2 ^ i)%nat -> (x < 2)%nat -> bitsof (S i) (2 * r + x) = bitsof i r ++ [x].
  Proof.
    intros i r x Hr Hx.
    assert (B : In (bitsof i r ++ [x]) (bits (i + 1))).
    { apply bits_app; [now apply bitsof_in|]. apply bits_cons. split; auto. now left. }
    replace (i + 1)%nat with (S i) in B by lia. rewrite <- (bitsof_bval _ _ B), bval_snoc, bval_bitsof by auto. reflexivity.
  Qed.

  Definition sv_merge (c t : tensor) : res tensor :=
    do temp <- unsqueeze t 0;
    do c1 <- unsqueeze c 1;
    do c2 <- matmul c1 temp;
    view c2 [Z.of_nat (nth 0 (shape c2) 0 * nth 1 (shape c2) 0)%nat; zdim c2 2; zdim c2 3].

  Lemma pairs_ok2 : forall a b : nat, Forall pair_ok [(a, 1%nat); (1%nat, b)].
  Proof. intros. apply Forall_cons; [now right|]. apply Forall_cons; [now left|]. apply Forall_nil. Qed.

  Lemma if_1_lt : forall a i : nat, (i < a)%nat -> (if (a =? 1)%nat then 0%nat else i) = i.
  Proof. intros a i H. destruct (a =? 1)%nat eqn:E; lia. Qed.

  Lemma sv_merge_ok : forall l t D D', chain 1 l D -> shape t = [2%nat; D; D'] -> wf t -> (0 < D')%nat ->
    sv_merge (sv_upto l D) t = Ok (sv_upto (l ++ [t]) D').
  Proof.
    intros l t D D' HC HS HW HD. unfold sv_merge, sv_upto. rewrite (site_eta t D D' HS HW) at 1.
    change 0%Z with (Z.of_nat 0). change 1%Z with (Z.of_nat 1).
    rewrite unsqueeze_tbuild by (cbn; lia). cbn [bind firstn skipn app].
    rewrite unsqueeze_tbuild by (cbn; lia). cbn [bind firstn skipn app].
    set (i := length l).
    change [(2 ^ i)%nat; 1%nat; 1%nat; D] with (map fst [((2 ^ i)%nat, 1%nat); (1%nat, 2%nat)] ++ [1%nat; D]).
    change [1%nat; 2%nat; D; D'] with (map snd [((2 ^ i)%nat, 1%nat); (1%nat, 2%nat)] ++ [D; D']).
    rewrite matmul_pairs by (apply pairs_ok2). cbn [bind map fst snd app length]. unfold pmul. cbn [fst snd].
    rewrite Nat.mul_1_r, Nat.mul_1_l. unfold zdim. rewrite tbuild_shape. cbn [nth].
    change [Z.of_nat (2 ^ i * 2); Z.of_nat 1; Z.of_nat D'] with (map Z.of_nat [(2 ^ i * 2)%nat; 1%nat; D']).
    rewrite view_tbuild_nat by (cbn [prodn]; lia). f_equal. rewrite app_length. cbn [length]. fold i.
    replace (2 ^ (i + 1))%nat with (2 ^ i * 2)%nat by (rewrite Nat.add_1_r; cbn [Nat.pow]; lia).
    apply tbuild_ext. intros idx V. vinv V. cbn [nth].
    assert (Dx : (x = 2 * (x / 2) + x mod 2)%nat) by (apply Nat.div_mod; lia).
    assert (X1 : (x / 2 < 2 ^ i)%nat) by (apply Nat.div_lt_upper_bound; lia).
    assert (X2 : (x mod 2 < 2)%nat) by (apply Nat.mod_upper_bound; lia).
    assert (x0 = 0)%nat by lia. subst x0.
    rewrite (unflat_unique [(2 ^ i)%nat; 2%nat; 1%nat; D'] _ [(x / 2)%nat; (x mod 2)%nat; 0%nat; x1]) by (try vok; cbn [flat prodn]; nia).
    cbn [nth firstn zip0 app Nat.eqb skipn]. rewrite if_1_lt by auto.
    rewrite Nat.add_1_r. replace (bitsof (S i) x) with (bitsof i (x / 2) ++ [(x mod 2)%nat]) by (rewrite <- bitsof_snoc, <- Dx by auto; reflexivity).
    rewrite (mps_mat_app l _ 1 D) by (auto; now apply bitsof_length).
    apply bigsum_ext. intros k Hk. apply in_seq in Hk. f_equal. symmetry. now apply (mps_mat_1 _ D D').
  Qed.

  Lemma sv_merge_all : forall ts l D Dr, chain 1 l D -> chain D ts Dr ->
    mfold sv_merge ts (sv_upto l D) = Ok (sv_upto (l ++ ts) Dr).
  Proof.
    induction ts as [|t ts IH]; intros l D Dr HC HT; cbn [mfold chain] in *.
    - subst. now rewrite app_nil_r.
    - destruct HT as (D' & HD & HS & HW & HT). rewrite (sv_merge_ok l t D D') by auto. cbn [bind].
      rewrite (IH (l ++ [t]) D' Dr). { now rewrite <- app_assoc. }
      + apply chain_app. exists D. split; auto. now apply chain_1.
      + exact HT.
  Qed.

  Lemma sv_upto_1 : forall t D, shape t = [2%nat; 1%nat; D] -> wf t -> t = sv_upto [t] D.
  Proof.
    intros t D HS HW. unfold sv_upto. rewrite (site_eta t 1 D HS HW) at 1. cbn [length]. change (2 ^ 1)%nat with 2%nat. apply tbuild_ext. intros idx V.
    vinv V. cbn [nth]. assert (x0 = 0)%nat by lia. subst x0. change (bitsof 1 x) with [(x / 1)%nat]. rewrite Nat.div_1_r. symmetry. now apply (mps_mat_1 t 1 D).
  Qed.

  Lemma MPS2StateVec_ok : forall n l psi, (0 < n)%nat -> is_mps n l psi ->
    MPS2StateVec l = Ok (tbuild [1%nat; (2 ^ n)%nat] (fun idx => psi (bitsof n (nth 1 idx 0%nat)))).
  Proof.
    intros n l psi Hn [[HL HC] HA]. destruct l as [|t0 ts]. { cbn in HL. lia. }
    unfold MPS2StateVec. cbn [chain] in HC. destruct HC as (D & HD & HS & HW & HC).
    fold sv_merge. rewrite (sv_upto_1 t0 D HS HW) at 1.
    rewrite (sv_merge_all ts [t0] D 1) by (auto; now apply chain_1). cbn [bind app]. unfold sv_upto. rewrite HL.
    change [(-1)%Z] with (map Z.of_nat [] ++ (-1)%Z :: map Z.of_nat []).
    rewrite (view_m1 _ [] [] (2 ^ n)%nat) by (cbn [prodn shape tbuild app]; lia). cbn [app bind].
    change [1%Z; (-1)%Z] with (map Z.of_nat [1%nat] ++ (-1)%Z :: map Z.of_nat []).
    rewrite (view_m1 _ [1%nat] [] (2 ^ n)%nat) by (cbn [prodn shape tbuild app]; lia). cbn [app bind data].
    rewrite reshape_tbuild by (cbn [prodn]; lia). f_equal. apply tbuild_ext. intros idx V. vinv V. cbn [nth].
    rewrite (unflat_unique [(2 ^ n)%nat; 1%nat; 1%nat] _ [x0; 0%nat; 0%nat]) by (try vok; cbn [flat prodn]; lia). cbn [nth].
    apply HA. now apply bitsof_in.
  Qed.

  (** ** MPS2StateVec(return_sv=False) *)
  Definition st_upto (l : list tensor) (D : nat) : tensor :=
    tbuild (repeat 2%nat (length l) ++ [1%nat; D]) (fun idx => mps_mat l (firstn (length l) idx) 0%nat (nth (S (length l)) idx 0%nat)).

  Definition st_merge (st : nat * tensor) (t : tensor) : res (nat * tensor) :=
    let '(i, c) := st in
    do temp <- unsqueeze t 0;
    do c1 <- unsqueeze c (Z.of_nat i);
    do c2 <- matmul c1 temp;
    Ok (S i, c2).

  Lemma firstn_app_l : forall A (a b : list A), firstn (length a) (a ++ b) = a.
  Proof. intros. rewrite firstn_app, Nat.sub_diag, firstn_O, app_nil_r. apply firstn_all. Qed.
  Lemma skipn_app_l : forall A (a b : list A), skipn (length a) (a ++ b) = b.
  Proof. intros. rewrite skipn_app, Nat.sub_diag, skipn_O, skipn_all. reflexivity. Qed.

  Lemma st_merge_ok : forall l t D D', l <> [] -> chain 1 l D -> shape t = [2%nat; D; D'] -> wf t -> (0 < D')%nat ->
    st_merge (length l, st_upto l D) t = Ok (length (l ++ [t]), st_upto (l ++ [t]) D').
  Proof.
    intros l t D D' Hl HC HS HW HD. unfold st_merge, st_upto. rewrite (site_eta t D D' HS HW) at 1.
    change 0%Z with (Z.of_nat 0).
    rewrite unsqueeze_tbuild by (cbn; lia). cbn [bind firstn skipn app].
    rewrite unsqueeze_tbuild by (rewrite app_length, repeat_length; lia). cbn [bind].
    destruct (length l) as [|i] eqn:EL. { destruct l; [congruence|discriminate]. }
    rewrite <- EL.
    replace (firstn (length l) (repeat 2%nat (length l) ++ [1%nat; D])) with (repeat 2%nat (length l)).
    2:{ rewrite <- (repeat_length 2%nat (length l)) at 2. now rewrite firstn_app_l. }
    replace (skipn (length l) (repeat 2%nat (length l) ++ [1%nat; D])) with [1%nat; D].
    2:{ rewrite <- (repeat_length 2%nat (length l)) at 1. now rewrite skipn_app_l. }
    assert (ER : repeat 2%nat (length l) = repeat 2%nat i ++ [2%nat]) by (rewrite EL; cbn [repeat]; apply repeat_cons).
    replace (repeat 2%nat (length l) ++ [1%nat; 1%nat; D]) with ((repeat 2%nat i ++ map fst [(2%nat, 1%nat); (1%nat, 2%nat)]) ++ [1%nat; D])
      by (rewrite ER, <- !app_assoc; reflexivity).
    change [1%nat; 2%nat; D; D'] with (map snd [(2%nat, 1%nat); (1%nat, 2%nat)] ++ [D; D']).
    rewrite matmul_pre by (apply pairs_ok2). cbn [bind]. f_equal. rewrite app_length. cbn [length]. f_equal; [lia|].
    cbn [map fst snd length]. unfold pmul. cbn [fst snd Nat.mul Nat.add].
    replace ((repeat 2%nat i ++ [2%nat; 2%nat]) ++ [1%nat; D']) with (repeat 2%nat (length l + 1) ++ [1%nat; D']).
    2:{ rewrite EL. replace (S i + 1)%nat with (i + 2)%nat by lia. rewrite repeat_app, <- !app_assoc. reflexivity. }
    apply tbuild_ext. intros idx V. rewrite repeat_length.
    (* idx = b ++ [x] ++ [0; z] with b the first (length l) bits *)
    pose proof (valid_length _ _ V) as Lx. rewrite app_length, repeat_length in Lx. cbn [length] in Lx.
    rewrite repeat_app, <- app_assoc in V. rewrite <- (firstn_skipn (length l) idx) in V. apply valid_app in V.
    2:{ rewrite firstn_length, repeat_length. lia. }
    destruct V as [V1 V2]. cbn [repeat app] in V2.
    assert (EI : idx = firstn (length l) idx ++ skipn (length l) idx) by (now rewrite firstn_skipn).
    remember (firstn (length l) idx) as b. remember (skipn (length l) idx) as sk. clear Heqb Heqsk. vinv V2. subst idx. clear Lx.
    assert (x0 = 0)%nat by lia. subst x0.
    assert (Lb : length b = length l) by (apply valid_length in V1; now rewrite repeat_length in V1).
    assert (Lb' : length b = S i) by lia.
    (* split off the last of b *)
    destruct (exists_last (l := b)) as (b0 & y & ->). { intros ->. discriminate. }
    assert (Lb0 : length b0 = i) by (rewrite app_length in Lb'; cbn in Lb'; lia).
    assert (Hy : (y < 2)%nat).
    { rewrite ER in V1. apply valid_app in V1; [|now rewrite repeat_length]. destruct V1 as [_ V1]. apply valid_cons in V1. tauto. }
    rewrite <- !app_assoc. cbn [app].
    replace (firstn i (b0 ++ [y; x; 0%nat; x1])) with b0 by (subst i; now rewrite firstn_app_l).
    replace (skipn i (b0 ++ [y; x; 0%nat; x1])) with [y; x; 0%nat; x1] by (subst i; now rewrite skipn_app_l).
    cbn [firstn zip0 Nat.eqb].
    replace (nth (i + 2) (b0 ++ [y; x; 0%nat; x1]) 0%nat) with 0%nat by (rewrite app_nth2 by lia; replace (i + 2 - length b0)%nat with 2%nat by lia; reflexivity).
    replace (nth (S (i + 2)) (b0 ++ [y; x; 0%nat; x1]) 0%nat) with x1 by (rewrite app_nth2 by lia; replace (S (i + 2) - length b0)%nat with 3%nat by lia; reflexivity).
    replace (nth (S (length l + 1)) (b0 ++ [y; x; 0%nat; x1]) 0%nat) with x1 by (rewrite app_nth2 by lia; replace (S (length l + 1) - length b0)%nat with 3%nat by lia; reflexivity).
    replace (firstn (length l + 1) (b0 ++ [y; x; 0%nat; x1])) with ((b0 ++ [y]) ++ [x]).
    2:{ replace (length l + 1)%nat with (length ((b0 ++ [y]) ++ [x])) by (rewrite app_length, Lb; reflexivity).
        replace (b0 ++ [y; x; 0%nat; x1]) with (((b0 ++ [y]) ++ [x]) ++ [0%nat; x1]) by (now rewrite <- !app_assoc).
        now rewrite firstn_app_l. }
    rewrite (mps_mat_app l _ 1 D) by (auto; lia).
    apply bigsum_ext. intros k Hk. apply in_seq in Hk.
    rewrite (mps_mat_1 t D D') by auto. f_equal.
    set (w := firstn (length l) ((b0 ++ [y; 0%nat]) ++ [0%nat; k]) ++ skipn (S (length l)) ((b0 ++ [y; 0%nat]) ++ [0%nat; k])).
    assert (EW : w = (b0 ++ [y]) ++ [0%nat; k]).
    { unfold w. replace ((b0 ++ [y; 0%nat]) ++ [0%nat; k]) with ((b0 ++ [y]) ++ [0%nat; 0%nat; k]) by (now rewrite <- !app_assoc).
      rewrite skipn_S_tl, <- Lb, firstn_app_l, skipn_app_l. reflexivity. }
    change (mps_mat l (firstn (length l) w) 0%nat (nth (S (length l)) w 0%nat) = mps_mat l (b0 ++ [y]) 0%nat k).
    rewrite EW. rewrite <- Lb at 1. rewrite firstn_app_l. f_equal.
    rewrite app_nth2 by lia. replace (S (length l) - length (b0 ++ [y]))%nat with 1%nat by lia. reflexivity.
  Qed.

  Lemma st_merge_all : forall ts l D Dr, l <> [] -> chain 1 l D -> chain D ts Dr ->
    mfold st_merge ts (length l, st_upto l D) = Ok (length (l ++ ts), st_upto (l ++ ts) Dr).
  Proof.
    induction ts as [|t ts IH]; intros l D Dr Hl HC HT; cbn [mfold chain] in *.
    - subst. now rewrite app_nil_r.
    - destruct HT as (D' & HD & HS & HW & HT). rewrite (st_merge_ok l t D D') by auto. cbn [bind].
      rewrite (IH (l ++ [t]) D' Dr). { now rewrite <- app_assoc. }
      + destruct l; discriminate.
      + apply chain_app. exists D. split; auto. now apply chain_1.
      + exact HT.
  Qed.

  Lemma st_upto_1 : forall t D, shape t = [2%nat; 1%nat; D] -> wf t -> t = st_upto [t] D.
  Proof.
    intros t D HS HW. unfold st_upto. rewrite (site_eta t 1 D HS HW) at 1. cbn [length repeat app]. apply tbuild_ext. intros idx V.
    vinv V. cbn [nth firstn]. assert (x0 = 0)%nat by lia. subst x0. symmetry. now apply (mps_mat_1 t 1 D).
  Qed.

  Lemma filter_repeat2 : forall n, filter (fun n0 => negb (n0 =? 1)%nat) (repeat 2%nat n) = repeat 2%nat n.
  Proof. induction n; cbn [repeat filter Nat.eqb negb]; congruence. Qed.

  Lemma MPS2StateTensor_ok : forall n l psi, (0 < n)%nat -> is_mps n l psi ->
    MPS2StateTensor l = Ok (tbuild (repeat 2%nat n) psi).
  Proof.
    intros n l psi Hn [[HL HC] HA]. destruct l as [|t0 ts]. { cbn in HL. lia. }
    unfold MPS2StateTensor. cbn [chain] in HC. destruct HC as (D & HD & HS & HW & HC).
    fold st_merge. rewrite (st_upto_1 t0 D HS HW) at 1. change 1%nat with (length [t0]) at 1.
    rewrite (st_merge_all ts [t0] D 1) by (auto; try discriminate; now apply chain_1). cbn [bind app snd]. unfold st_upto, squeeze. rewrite HL.
    cbn [shape]. rewrite tbuild_shape, filter_app, filter_repeat2. cbn [filter Nat.eqb negb]. rewrite app_nil_r, repeat_length.
    rewrite Nat.eqb_refl. cbn [assert_]. f_equal.
    rewrite reshape_tbuild by (rewrite prodn_app; cbn [prodn]; lia). apply tbuild_ext. intros b V.
    pose proof (valid_length _ _ V) as Lb. rewrite repeat_length in Lb.
    rewrite (unflat_unique (repeat 2%nat n ++ [1%nat; 1%nat]) _ (b ++ [0%nat; 0%nat])).
    - rewrite <- Lb, firstn_app_l, app_nth2 by lia. replace (S (length b) - length b)%nat with 1%nat by lia. cbn [nth]. apply HA.
      apply bits_valid. exact V.
    - apply valid_app; [now rewrite repeat_length|]. split; auto. vok.
    - rewrite flat_app by (now rewrite repeat_length). cbn [flat prodn]. lia.
  Qed.
End MPSFacts2.
