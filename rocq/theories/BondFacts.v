(** Lemmas: how the operations change the bonds of a matrix product state, for any decomposition with the right shapes. *)
From Coq Require Import List ZArith QArith Lia ZifyBool Bool Arith Ring Permutation.
From Verif Require Import PyBase Scalar BigSum Index Tensor TensorFacts Spec SpecFacts QMath QTN QOperator
  ExpandFacts ExpandFacts2 ContractFacts ContractFacts2 GateFacts MPSSpec MPSFacts1 MPSFacts2 MPSFacts3 MPSFacts4 MPSFacts5 MPSFacts8 BondSpec.
Import ListNotations.
Local Close Scope Q_scope.
Local Open Scope nat_scope.

Section BondFacts.
  Context {SC : Scalar}.
  Add Ring KR : k_ring.
  Local Open Scope k_scope.
  Local Open Scope nat_scope.

  (** ** bonds of a chain *)
  Definition fits2 (n : nat) (l : list tensor) : Prop := forall i, i < n -> bond l i <= 2 ^ S i /\ bond l i <= 2 ^ (n - S i).
  Lemma bond_app_l : forall l1 l2 i, i < length l1 -> bond (l1 ++ l2) i = bond l1 i.
  Proof. intros. unfold bond. now rewrite app_nth1. Qed.
  Lemma bond_app_r : forall l1 l2 i, length l1 <= i -> bond (l1 ++ l2) i = bond l2 (i - length l1).
  Proof. intros. unfold bond. now rewrite app_nth2. Qed.
  Lemma chain_last : forall l Dl Dr, chain Dl l Dr -> l <> [] -> bond l (length l - 1) = Dr.
  Proof.
    induction l as [|t l IH]; intros Dl Dr H N; [congruence|]. cbn [chain] in H. destruct H as (D & HD & St & W & H).
    destruct l as [|u l]; [cbn in *; unfold bond; cbn; rewrite St; cbn; congruence|].
    change (t :: u :: l) with ([t] ++ u :: l). rewrite bond_app_r by (cbn; lia). cbn [length]. replace (S (length ([] ++ u :: l)) - 1 - 1) with (length (u :: l) - 1) by (cbn; lia).
    eapply IH; eauto; congruence.
  Qed.
  Lemma fits2_fits : forall n l, fits2 n l -> fits n l.
  Proof. intros n l H i Hi. destruct (H i ltac:(lia)). lia. Qed.
  Lemma fits_fits2 : forall n l, mps_shape n l -> fits n l -> fits2 n l.
  Proof.
    intros n l [Hn HC] H i Hi. destruct (Nat.eq_dec (S i) n) as [E|E].
    - assert (B : bond l i = 1). { replace i with (length l - 1) by lia. eapply chain_last; eauto. destruct l; [cbn in Hn; lia|congruence]. }
      rewrite B. split; apply Nat.neq_0_lt_0, Nat.pow_nonzero; lia.
    - specialize (H i ltac:(lia)). lia.
  Qed.
  Lemma chain_bound : forall n l1 l2 Dl Dr, chain 1 l1 Dl -> chain Dl l2 Dr -> fits2 n (l1 ++ l2) -> length l1 <= n -> Dl <= 2 ^ length l1.
  Proof.
    intros n l1 l2 Dl Dr C1 C2 F L. destruct l1 as [|t l1]; [cbn in *; lia|].
    pose proof (chain_last _ _ _ C1 ltac:(congruence)) as E. destruct (F (length (t :: l1) - 1) ltac:(cbn in *; lia)) as [F1 _].
    rewrite bond_app_l in F1 by (cbn; lia). rewrite E in F1. replace (S (length (t :: l1) - 1)) with (length (t :: l1)) in F1 by (cbn; lia). exact F1.
  Qed.
  Lemma chain_bond0 : forall D0 t l Dr, chain D0 (t :: l) Dr -> exists D, bond (t :: l) 0 = D /\ shape t = [2; D0; D] /\ chain D l Dr.
  Proof. intros D0 t l Dr (D & HD & St & W & H). exists D. split; [unfold bond; cbn; now rewrite St|auto]. Qed.

  (** a piece m of the chain is replaced by m' between the same outer bonds: the bonds elsewhere are unchanged *)
  Lemma replaced : forall l1 m m' l2 Dl Dr i, chain Dl m Dr -> chain Dl m' Dr -> length m = length m' -> i < length l1 \/ length l1 + length m <= S i ->
    bond (l1 ++ m' ++ l2) i = bond (l1 ++ m ++ l2) i.
  Proof.
    intros l1 m m' l2 Dl Dr i C C' L H. destruct (Nat.lt_ge_cases i (length l1)) as [H1|H1]; [now rewrite !bond_app_l|]. destruct H as [H|H]; [lia|].
    rewrite !(bond_app_r l1) by lia. destruct (Nat.lt_ge_cases (i - length l1) (length m)) as [H2|H2].
    - rewrite !bond_app_l by lia. assert (N : m <> []) by (destruct m; [cbn in *; lia|congruence]). assert (N' : m' <> []) by (destruct m'; [cbn in *; lia|congruence]).
      replace (i - length l1) with (length m - 1) by lia. rewrite (chain_last m Dl Dr C N). rewrite L. now rewrite (chain_last m' Dl Dr C' N').
    - rewrite !bond_app_r by lia. now rewrite L.
  Qed.

  (** ** what an operation between wires lo and hi does to the bonds *)
  Definition keeps (n lo hi : nat) (l l' : list tensor) : Prop :=
    mps_shape n l' /\ (forall i, i < n -> i < lo \/ hi <= i -> bond l' i = bond l i) /\ (fits2 n l -> fits2 n l').
  Lemma keeps_refl : forall n lo hi l, mps_shape n l -> keeps n lo hi l l.
  Proof. intros n lo hi l H. split; [exact H|]. split; auto. Qed.
  Lemma keeps_trans : forall n lo hi l m k, keeps n lo hi l m -> keeps n lo hi m k -> keeps n lo hi l k.
  Proof. intros n lo hi l m k (A1 & A2 & A3) (B1 & B2 & B3). split; auto. split; [|auto]. intros i Hi H. rewrite B2, A2; auto. Qed.
  Lemma keeps_wide : forall n lo hi lo' hi' l m, keeps n lo hi l m -> lo' <= lo -> hi <= hi' -> keeps n lo' hi' l m.
  Proof. intros n lo hi lo' hi' l m (A1 & A2 & A3) H1 H2. split; auto. split; auto. intros i Hi H. apply A2; auto. lia. Qed.

  Section Run.
  Variable svd : tensor -> tensor * tensor * tensor.
  Hypothesis Hsh : svd_shapes svd.

  Lemma svd_cut_bound : forall m n a U C, 0 < m -> 0 < n -> svd_cut svd (tbuild [m; n] a) = Ok (U, C) ->
    exists D u c, 0 < D /\ D <= m /\ D <= n /\ U = tbuild [m; D] u /\ C = tbuild [D; n] c.
  Proof.
    intros m n a U C Hm Hn HE.
    pose proof (Hsh (tbuild [m; n] a) m n eq_refl (tbuild_wf _ _) Hm Hn) as H. unfold svd_cut in HE.
    destruct (svd (tbuild [m; n] a)) as [[U0 Sg] V] eqn:E. cbn zeta in H.
    destruct H as (SU & WU & SS & WS & SV & WV).
    set (k := Nat.min m n) in *. assert (Hk : (0 < k)%nat) by lia.
    rewrite (tensor_eta U0 WU), SU, (tensor_eta Sg WS), SS, (tensor_eta V WV), SV in HE.
    change [1%Z; 0%Z] with (map Z.of_nat [1%nat; 0%nat]) in HE.
    rewrite permute_tbuild in HE by (apply perm_swap). cbn [bind map nth] in HE.
    set (D := length (filter (fun z : K => kabsgt z (1 # 100000000)) (data (tbuild [k] (tget Sg))))) in *.
    assert (HD : (D <= k)%nat).
    { unfold D. etransitivity; [apply filter_le|]. cbn [data tbuild]. rewrite map_length, all_idx_length. cbn [prodn]. lia. }
    unfold diag in HE. rewrite tbuild_shape in HE. cbn [bind shape nth tbuild] in HE. fold (tbuild [k; k]
        (fun idx => if (nth 0 idx 0 =? nth 1 idx 0)%nat then tget (tbuild [k] (tget Sg)) [nth 0 idx 0%nat] else k0)) in HE.
    destruct (D <? k)%nat eqn:EL.
    - destruct (index_select (tbuild [m; k] (tget U0)) 1 (seq 0 D)) as [U1|] eqn:E1; [|discriminate].
      pose proof (index_select_cols_inv _ _ _ _ _ HD E1) as HD0. rewrite index_select_cols in E1 by lia. injection E1 as <-.
      cbn [bind] in HE. rewrite index_select_rows in HE by lia. cbn [bind fst snd] in HE.
      rewrite tconj_tbuild, matmul_2d in HE. cbn [bind] in HE. injection HE as <- <-. exists D. do 2 eexists. repeat split; lia.
    - cbn [bind fst snd] in HE.
      rewrite tconj_tbuild, matmul_2d in HE. cbn [bind] in HE. injection HE as <- <-. exists k. do 2 eexists. repeat split; lia.
  Qed.
  Lemma decomp2_bound : forall Dl Dr T a b, (0 < Dl)%nat -> (0 < Dr)%nat ->
    TensorDecompAfterTwoQbitGate svd (tbuild [2%nat; 2%nat; Dl; Dr] T) = Ok (a, b) -> chain Dl [a; b] Dr /\ bond [a; b] 0 <= 2 * Dl /\ bond [a; b] 0 <= 2 * Dr.
  Proof.
    intros Dl Dr T a b HDl HDr. unfold TensorDecompAfterTwoQbitGate.
    rewrite !tsel2_tbuild by lia. cbn [bind cat mfold]. rewrite cat2_cols. cbn [bind]. rewrite cat2_cols. cbn [bind]. rewrite cat2_rows. cbn [bind].
    replace (Dl + Dl)%nat with (2 * Dl)%nat by lia. replace (Dr + Dr)%nat with (2 * Dr)%nat by lia.
    intros H. apply bind_inv in H. destruct H as ([U C] & E & H).
    apply svd_cut_bound in E; [|lia|lia]. destruct E as (D & u & c & HD & B1 & B2 & -> & ->). cbn [fst snd] in H.
    rewrite view_site_ok in H by lia. cbn [bind] in H. rewrite fold_cols_ok in H by lia. cbn [bind] in H.
    rewrite view_site_ok in H by lia. cbn [bind] in H. injection H as <- <-.
    split; [|unfold bond; cbn [nth shape tbuild]; lia].
    exists D. rewrite !tbuild_shape. repeat split; auto. { apply tbuild_wf. }
    exists Dr. repeat split; auto. apply tbuild_wf.
  Qed.
  Lemma decomp3_bound : forall Dl Dr T a b c, (0 < Dl)%nat -> (0 < Dr)%nat ->
    TensorDecompAfterThreeQbitGate svd (tbuild [2%nat; 2%nat; 2%nat; Dl; Dr] T) = Ok (a, b, c) -> chain Dl [a; b; c] Dr /\ (bond [a; b; c] 0 <= 2 * Dl /\ bond [a; b; c] 0 <= 4 * Dr) /\ bond [a; b; c] 1 <= 2 * bond [a; b; c] 0 /\ bond [a; b; c] 1 <= 2 * Dr.
  Proof.
    intros Dl Dr T a b c HDl HDr. unfold TensorDecompAfterThreeQbitGate. cbn [shape tbuild length Nat.eqb negb raise_if].
    fold (tbuild [2%nat; 2%nat; 2%nat; Dl; Dr] T).
    rewrite !tsel3_tbuild by lia. cbn [bind cat mfold]. do 6 (rewrite cat2_cols; cbn [bind]). rewrite cat2_rows. cbn [bind].
    replace (Dl + Dl)%nat with (2 * Dl)%nat by lia. replace (Dr + Dr + Dr + Dr)%nat with (2 * (2 * Dr))%nat by lia.
    intros H. apply bind_inv in H. destruct H as ([U C] & E & H).
    apply svd_cut_bound in E; [|lia|lia]. destruct E as (D & u & c' & HD & B1 & B2 & -> & ->). cbn [fst snd] in H.
    rewrite view_site_ok in H by lia. cbn [bind] in H. rewrite fold_cols_ok in H by lia. cbn [bind] in H.
    apply bind_inv in H. destruct H as ([U2 C2] & E & H).
    apply svd_cut_bound in E; [|lia|lia]. destruct E as (D2 & u2 & c2 & HD2 & B3 & B4 & -> & ->). cbn [fst snd] in H.
    rewrite view_site_ok in H by lia. cbn [bind] in H. rewrite fold_cols_ok in H by lia. cbn [bind] in H.
    rewrite view_site_ok in H by lia. cbn [bind] in H. injection H as <- <- <-.
    split; [|unfold bond; cbn [nth shape tbuild]; lia].
    exists D. rewrite !tbuild_shape. repeat split; auto. { apply tbuild_wf. }
    exists D2. repeat split; auto. { apply tbuild_wf. }
    exists Dr. repeat split; auto. apply tbuild_wf.
  Qed.
  Lemma two_site_keeps : forall n A l i l', mps_shape n l -> (S i < n)%nat ->
    two_site svd (op_tensor 2 A) l (Z.of_nat i) (Z.of_nat (S i)) = Ok l' -> keeps n i (S i) l l'.
  Proof.
    intros n A l i l' [Hn HC] Hi.
    destruct (list_split3 tensor i 2 l ltac:(lia)) as (l1 & m & l2 & -> & L1 & L2).
    destruct m as [|a [|b [|]]]; try discriminate. cbn [app] in *.
    apply chain_app in HC. destruct HC as (Dl & C1 & HC). cbn [chain] in HC.
    destruct HC as (D & HD & Sa & Wa & Dr & HDr & Sb & Wb & C3).
    pose proof (chain_pos l1 1 Dl ltac:(lia) C1) as HDl.
    unfold two_site. rewrite (py_nth_nat _ _ i a), (py_nth_nat _ _ (S i) a) by (rewrite app_length; cbn [length]; lia).
    rewrite !app_nth2 by lia. rewrite L1, Nat.sub_diag. replace (S i - i)%nat with 1%nat by lia. cbn [nth bind].
    set (L := l1 ++ a :: b :: l2) in *.
    replace (unsqueeze a 1) with (unsqueeze (tbuild [2%nat; Dl; D] (tget a)) 1) by (now rewrite <- (site_eta a Dl D Sa Wa)).
    replace (unsqueeze b 0) with (unsqueeze (tbuild [2%nat; D; Dr] (tget b)) 0) by (now rewrite <- (site_eta b D Dr Sb Wb)).
    edestruct (merge2 _ (fun t => do rs <- TensorDecompAfterTwoQbitGate svd t;
      do MPS1 <- py_set L (Z.of_nat i) (fst rs); py_set MPS1 (Z.of_nat (S i)) (snd rs)) A Dl D Dr (tget a) (tget b)) as (T & HT & E).
    cbn beta in E. match type of E with ?X = _ => match goal with |- ?Y = Ok l' -> _ => change Y with X end end.
    rewrite E. clear E. intros H. apply bind_inv in H. destruct H as ([a' b'] & E & H). apply decomp2_bound in E; auto. destruct E as (E & B1 & B2). cbn [fst snd] in H.
    unfold L in *. rewrite py_set_nat in H by (rewrite app_length; cbn [length]; lia).
    replace (set_nth i a' (l1 ++ a :: b :: l2)) with (l1 ++ a' :: b :: l2) in H by (rewrite <- L1; now rewrite set_nth_mid). cbn [bind] in H.
    rewrite py_set_nat in H by (rewrite app_length; cbn [length]; lia).
    replace (set_nth (S i) b' (l1 ++ a' :: b :: l2)) with (l1 ++ a' :: b' :: l2) in H.
    2:{ change (l1 ++ a' :: b :: l2) with (l1 ++ [a'] ++ b :: l2). rewrite app_assoc. replace (S i) with (length (l1 ++ [a'])) by (rewrite app_length; cbn; lia).
        rewrite set_nth_mid, <- app_assoc. reflexivity. }
    injection H as <-.
    assert (CM : chain Dl [a; b] Dr) by (exists D; repeat split; auto; exists Dr; repeat split; auto).
    split; [rewrite <- Hn; exact (chain_mid l1 [a; b] [a'; b'] l2 Dl Dr C1 E C3 eq_refl)|].
    assert (R : forall j, j < i \/ S i <= j -> bond (l1 ++ [a'; b'] ++ l2) j = bond (l1 ++ [a; b] ++ l2) j).
    { intros j Hj. eapply replaced; eauto. rewrite L1. cbn [length]. lia. }
    split; [intros j _ Hj; now apply R|]. intros F j Hj.
    destruct (Nat.eq_dec j i) as [->|Nj]; [|change (l1 ++ a' :: b' :: l2) with (l1 ++ [a'; b'] ++ l2); rewrite R by lia; now apply F].
    assert (X : bond (l1 ++ a' :: b' :: l2) i = bond [a'; b'] 0) by (rewrite bond_app_r by lia; rewrite L1, Nat.sub_diag; reflexivity). rewrite X.
    assert (Y1 : Dl <= 2 ^ i) by (rewrite <- L1; eapply (chain_bound n l1 (a :: b :: l2)); eauto; [apply (chain_app [a; b] l2); eauto|lia]).
    assert (Y2 : Dr <= 2 ^ (n - S (S i))).
    { destruct (F (S i) Hi) as [_ F2]. change (l1 ++ a :: b :: l2) with (l1 ++ [a; b] ++ l2) in F2. rewrite bond_app_r in F2 by lia. rewrite L1 in F2.
      replace (S i - i) with 1 in F2 by lia. rewrite bond_app_l in F2 by (cbn; lia). pose proof (chain_last _ _ _ CM ltac:(congruence)) as Z. cbn [length Nat.sub] in Z. lia. }
    replace (n - S i) with (S (n - S (S i))) by lia. cbn [Nat.pow]. lia.
  Qed.
  Lemma three_site_keeps : forall n A l i l', mps_shape n l -> (S (S i) < n)%nat ->
    three_site svd (Ok (op_tensor 3 A)) l (Z.of_nat (S i)) = Ok l' -> keeps n i (S (S i)) l l'.
  Proof.
    intros n A l i l' [Hn HC] Hi.
    destruct (list_split3 tensor i 3 l ltac:(lia)) as (l1 & m & l2 & -> & L1 & L2).
    destruct m as [|a [|b [|c [|]]]]; try discriminate. cbn [app] in *.
    apply chain_app in HC. destruct HC as (Dl & C1 & HC). cbn [chain] in HC.
    destruct HC as (D1 & HD1 & Sa & Wa & D2 & HD2 & Sb & Wb & Dr & HDr & Sc & Wc & C3).
    pose proof (chain_pos l1 1 Dl ltac:(lia) C1) as HDl.
    unfold three_site. replace (Z.of_nat (S i) - 1)%Z with (Z.of_nat i) by lia. replace (Z.of_nat (S i) + 1)%Z with (Z.of_nat (S (S i))) by lia.
    rewrite (py_nth_nat _ _ i a), (py_nth_nat _ _ (S i) a), (py_nth_nat _ _ (S (S i)) a) by (rewrite app_length; cbn [length]; lia).
    rewrite !app_nth2 by lia. rewrite L1, Nat.sub_diag. replace (S i - i)%nat with 1%nat by lia. replace (S (S i) - i)%nat with 2%nat by lia. cbn [nth bind].
    set (L := l1 ++ a :: b :: c :: l2) in *.
    replace (unsqueeze a 1) with (unsqueeze (tbuild [2%nat; Dl; D1] (tget a)) 1) by (now rewrite <- (site_eta a Dl D1 Sa Wa)).
    replace (unsqueeze b 1) with (unsqueeze (tbuild [2%nat; D1; D2] (tget b)) 1) by (now rewrite <- (site_eta b D1 D2 Sb Wb)).
    replace (unsqueeze c 0) with (unsqueeze (tbuild [2%nat; D2; Dr] (tget c)) 0) by (now rewrite <- (site_eta c D2 Dr Sc Wc)).
    edestruct (merge3 _ (fun t => do rs <- TensorDecompAfterThreeQbitGate svd t;
      let '(r0, r1, r2) := rs in
      do MPS <- py_set L (Z.of_nat i) r0; do MPS <- py_set MPS (Z.of_nat (S i)) r1; py_set MPS (Z.of_nat (S (S i))) r2)
      A Dl D1 D2 Dr (tget a) (tget b) (tget c)) as (T & HT & E).
    cbn beta in E. match type of E with ?X = _ => match goal with |- ?Y = Ok l' -> _ => change Y with X end end.
    rewrite E. clear E. intros H. apply bind_inv in H. destruct H as ([[a' b'] c'] & E & H). apply decomp3_bound in E; auto. destruct E as (E & B1 & B2).
    unfold L in *. rewrite py_set_nat in H by (rewrite app_length; cbn [length]; lia).
    replace (set_nth i a' (l1 ++ a :: b :: c :: l2)) with (l1 ++ a' :: b :: c :: l2) in H by (rewrite <- L1; now rewrite set_nth_mid). cbn [bind] in H.
    rewrite py_set_nat in H by (rewrite app_length; cbn [length]; lia).
    replace (set_nth (S i) b' (l1 ++ a' :: b :: c :: l2)) with (l1 ++ a' :: b' :: c :: l2) in H.
    2:{ change (l1 ++ a' :: b :: c :: l2) with (l1 ++ [a'] ++ b :: c :: l2). rewrite app_assoc. replace (S i) with (length (l1 ++ [a'])) by (rewrite app_length; cbn; lia).
        rewrite set_nth_mid, <- app_assoc. reflexivity. }
    cbn [bind] in H. rewrite py_set_nat in H by (rewrite app_length; cbn [length]; lia).
    replace (set_nth (S (S i)) c' (l1 ++ a' :: b' :: c :: l2)) with (l1 ++ a' :: b' :: c' :: l2) in H.
    2:{ change (l1 ++ a' :: b' :: c :: l2) with (l1 ++ [a'; b'] ++ c :: l2). rewrite app_assoc. replace (S (S i)) with (length (l1 ++ [a'; b'])) by (rewrite app_length; cbn; lia).
        rewrite set_nth_mid, <- app_assoc. reflexivity. }
    injection H as <-.
    assert (CM : chain Dl [a; b; c] Dr) by (exists D1; repeat split; auto; exists D2; repeat split; auto; exists Dr; repeat split; auto).
    split; [rewrite <- Hn; exact (chain_mid l1 [a; b; c] [a'; b'; c'] l2 Dl Dr C1 E C3 eq_refl)|].
    assert (R : forall j, j < i \/ S (S i) <= j -> bond (l1 ++ [a'; b'; c'] ++ l2) j = bond (l1 ++ [a; b; c] ++ l2) j).
    { intros j Hj. eapply replaced; eauto. rewrite L1. cbn [length]. lia. }
    split; [intros j _ Hj; now apply R|]. intros F j Hj.
    assert (Y1 : Dl <= 2 ^ i) by (rewrite <- L1; eapply (chain_bound n l1 (a :: b :: c :: l2)); eauto; [apply (chain_app [a; b; c] l2); eauto|lia]).
    assert (Y2 : Dr <= 2 ^ (n - S (S (S i)))).
    { destruct (F (S (S i)) Hi) as [_ F2]. change (l1 ++ a :: b :: c :: l2) with (l1 ++ [a; b; c] ++ l2) in F2. rewrite bond_app_r in F2 by lia. rewrite L1 in F2.
      replace (S (S i) - i) with 2 in F2 by lia. rewrite bond_app_l in F2 by (cbn; lia). pose proof (chain_last _ _ _ CM ltac:(congruence)) as Z. cbn [length Nat.sub] in Z. lia. }
    assert (X : forall k, k < 3 -> bond (l1 ++ a' :: b' :: c' :: l2) (i + k) = bond [a'; b'; c'] k).
    { intros k Hk. change (l1 ++ a' :: b' :: c' :: l2) with (l1 ++ [a'; b'; c'] ++ l2). rewrite bond_app_r by lia. rewrite L1, bond_app_l by (cbn; lia). f_equal. lia. }
    destruct (Nat.eq_dec j i) as [->|Nj]; [|destruct (Nat.eq_dec j (S i)) as [->|Nj']].
    + specialize (X 0 ltac:(lia)). rewrite Nat.add_0_r in X. rewrite X. replace (n - S i) with (S (S (n - S (S (S i))))) by lia. cbn [Nat.pow]. lia.
    + specialize (X 1 ltac:(lia)). rewrite Nat.add_1_r in X. rewrite X. replace (n - S (S i)) with (S (n - S (S (S i)))) by lia. cbn [Nat.pow]. lia.
    + change (l1 ++ a' :: b' :: c' :: l2) with (l1 ++ [a'; b'; c'] ++ l2). rewrite R by lia. now apply F.
  Qed.

  Lemma single_keeps : forall n A l l' w, mps_shape n l -> w < n ->
    single_TN_operation (op_tensor 1 A) (Z.of_nat n) (WInt (Z.of_nat w)) l = Ok l' -> keeps n w w l l'.
  Proof.
    intros n A l l' w H Hw E. pose proof (single_shape n A l l' w H Hw E) as S'. split; [exact S'|].
    assert (R : forall j, bond l' j = bond l j).
    2:{ split; [auto|]. intros F j Hj. rewrite R. now apply F. }
    revert E. unfold single_TN_operation, unset, wires_unset. replace (Z.of_nat n =? -1)%Z with false by lia.
    replace (Z.of_nat w =? -1)%Z with false by lia. cbn [orb raise_if wire_int bind]. destruct H as [Hn HC].
    destruct (list_split3 tensor w 1 l ltac:(lia)) as (l1 & m & l2 & -> & L1 & L2).
    destruct m as [|x [|]]; try discriminate. cbn [app] in *.
    apply chain_app in HC. destruct HC as (Dl & C1 & HC). cbn [chain] in HC. destruct HC as (Dr & HDr & Ss & Ws & C3).
    rewrite (py_nth_nat _ _ w x) by (rewrite app_length; cbn [length]; lia).
    rewrite app_nth2, L1, Nat.sub_diag by lia. cbn [nth bind].
    unfold einsum_ab_bcd, op_tensor. rewrite tbuild_shape, Ss. change (2 ^ 1) with 2. cbn [Nat.eqb bind].
    rewrite py_set_nat by (rewrite app_length; cbn [length]; lia). rewrite <- L1, set_nth_mid. intros E. injection E as <-.
    intros j. destruct (Nat.lt_ge_cases j (length l1)) as [Hj|Hj]; [now rewrite !bond_app_l|]. rewrite !bond_app_r by lia.
    destruct (j - length l1) as [|k]; [unfold bond; cbn [nth]; now rewrite Ss|reflexivity].
  Qed.

  Lemma mfold_keeps : forall B (f : list tensor -> B -> res (list tensor)) n lo hi bs l l',
    (forall l l' b, In b bs -> mps_shape n l -> f l b = Ok l' -> keeps n lo hi l l') ->
    mps_shape n l -> mfold f bs l = Ok l' -> keeps n lo hi l l'.
  Proof.
    intros B f n lo hi bs. induction bs as [|b bs IH]; intros l l' Hf Hl H; cbn [mfold] in H. { injection H as <-. now apply keeps_refl. }
    apply bind_inv in H. destruct H as (l1 & E & H). assert (K : keeps n lo hi l l1) by (eapply Hf; eauto; simpl; auto).
    apply (keeps_trans n lo hi l l1 l' K). apply IH; auto; [|apply K]. intros; eapply Hf; eauto; simpl; auto.
  Qed.

  Lemma two_site_keeps_z : forall n A l i j l' lo hi, mps_shape n l -> (0 <= i)%Z -> j = (i + 1)%Z -> (j < Z.of_nat n)%Z -> (Z.of_nat lo <= i)%Z -> (j <= Z.of_nat hi)%Z ->
    two_site svd (op_tensor 2 A) l i j = Ok l' -> keeps n lo hi l l'.
  Proof.
    intros n A l i j l' lo hi H Hi -> Hj H1 H2 E. apply (keeps_wide n (Z.to_nat i) (S (Z.to_nat i))); [|lia|lia]. apply (two_site_keeps n A l (Z.to_nat i) l' H); [lia|].
    replace (Z.of_nat (Z.to_nat i)) with i by lia. now replace (Z.of_nat (S (Z.to_nat i))) with (i + 1)%Z by lia.
  Qed.

  Lemma swap_TN_keeps : forall n a b l l' lo hi, mps_shape n l -> (0 <= a < Z.of_nat n)%Z -> (0 <= b < Z.of_nat n)%Z ->
    (Z.of_nat lo <= a <= Z.of_nat hi)%Z -> (Z.of_nat lo <= b <= Z.of_nat hi)%Z ->
    swap_TN_operation svd (Z.of_nat n) (WList [a; b]) l = Ok l' -> keeps n lo hi l l'.
  Proof.
    intros n a b l l' lo hi H Ha Hb La Lb. unfold swap_TN_operation, unset, wires_unset.
    replace (Z.of_nat n =? -1)%Z with false by lia. cbn [orb raise_if wire_list bind length Nat.eqb negb py_min py_max fold_left].
    rewrite mat4_swap. intros E. apply bind_inv in E. destruct E as (l1 & E1 & E2).
    assert (M1 : keeps n lo hi l l1).
    { revert E1. apply mfold_keeps; auto. intros x x' i Hi Hx. apply in_zrange2 in Hi. apply two_site_keeps_z; auto; lia. }
    eapply keeps_trans; [exact M1|].
    revert E2. apply mfold_keeps; [|apply M1]. intros x x' i Hi Hx. apply in_zrange_down in Hi. apply two_site_keeps_z; auto; lia.
  Qed.

  Lemma ladder_keeps : forall n up d l l' lo hi, mps_shape n l -> (0 <= up)%Z -> (d < Z.of_nat n)%Z -> (Z.of_nat lo <= up)%Z -> (d <= Z.of_nat hi)%Z ->
    mfold (fun MPS i => swap_step svd (Z.of_nat n) MPS i (i + 1)%Z) (zrange2 up d) l = Ok l' -> keeps n lo hi l l'.
  Proof.
    intros n up d l l' lo hi H Hu Hd H1 H2. apply mfold_keeps; auto. intros x x' i Hi Hx. apply in_zrange2 in Hi. apply swap_TN_keeps; auto; lia.
  Qed.
  Lemma ladder_keeps_down : forall n up d l l' lo hi, mps_shape n l -> (0 <= up)%Z -> (d < Z.of_nat n)%Z -> (Z.of_nat lo <= up)%Z -> (d <= Z.of_nat hi)%Z ->
    mfold (fun MPS i => swap_step svd (Z.of_nat n) MPS (i - 1)%Z i) (zrange_down d up) l = Ok l' -> keeps n lo hi l l'.
  Proof.
    intros n up d l l' lo hi H Hu Hd H1 H2. apply mfold_keeps; auto. intros x x' i Hi Hx. apply in_zrange_down in Hi. apply swap_TN_keeps; auto; lia.
  Qed.

  Lemma ctrl_TN_keeps : forall n A B l l' c t, mps_shape n l -> c < n -> t < n -> c <> t ->
    ctrl_TN_operation svd (op_tensor 2 A) (Ok (op_tensor 2 B)) (Z.of_nat n) (WList [Z.of_nat c; Z.of_nat t]) l = Ok l' -> keeps n (Nat.min c t) (Nat.max c t) l l'.
  Proof.
    intros n A B l l' c t H Hc Ht Hn. unfold ctrl_TN_operation, unset, wires_unset. replace (Z.of_nat n =? -1)%Z with false by lia.
    cbn [orb raise_if wire_list bind length Nat.eqb negb py_min py_max fold_left].
    change (py_nth [Z.of_nat c; Z.of_nat t] 0) with (Ok (Z.of_nat c)). cbn [bind].
    intros E. apply bind_inv in E. destruct E as (l1 & E1 & E). apply (ladder_keeps n _ _ l l1 (Nat.min c t) (Nat.max c t)) in E1; [|auto|lia|lia|lia|lia].
    apply bind_inv in E. destruct E as (G & EG & E). apply bind_inv in E. destruct E as (l2 & E2 & E).
    assert (M2 : keeps n (Nat.min c t) (Nat.max c t) l1 l2).
    { revert E2. destruct (Z.of_nat c =? _)%Z; injection EG as <-; apply two_site_keeps_z; try apply E1; lia. }
    apply (ladder_keeps_down n _ _ l2 l' (Nat.min c t) (Nat.max c t)) in E; [|apply M2|lia|lia|lia|lia].
    eauto using keeps_trans.
  Qed.

  Lemma cnot_TN_keeps : forall n A B l l' c t, mps_shape n l -> c < n -> t < n -> c <> t ->
    cnot_TN_operation svd (op_tensor 2 A) (Ok (op_tensor 2 B)) (Z.of_nat n) (WList [Z.of_nat c; Z.of_nat t]) l = Ok l' -> keeps n (Nat.min c t) (Nat.max c t) l l'.
  Proof.
    intros n A B l l' c t H Hc Ht Hn. pose proof (ctrl_TN_keeps n A B l l' c t H Hc Ht Hn) as G.
    unfold cnot_TN_operation. unfold ctrl_TN_operation in G. unfold unset, wires_unset in *. replace (Z.of_nat n =? -1)%Z with false in * by lia.
    cbn [orb raise_if wire_list bind length Nat.eqb negb py_min py_max fold_left] in *.
    destruct (Z.min (Z.of_nat c) (Z.of_nat t) + 1 =? Z.max (Z.of_nat c) (Z.of_nat t))%Z eqn:E; [|exact G]. clear G.
    change (py_nth [Z.of_nat c; Z.of_nat t] 0) with (Ok (Z.of_nat c)). cbn [bind].
    destruct (Z.of_nat c =? _)%Z; cbn [bind]; apply two_site_keeps_z; auto; lia.
  Qed.
  Lemma toffoli_TN_keeps : forall n A B C l l' c1 c2 t, mps_shape n l -> good_wires n [c1; c2; t] ->
    toffoli_TN_operation svd (op_tensor 3 A) (Ok (op_tensor 3 B)) (Ok (op_tensor 3 C))
        (Z.of_nat n) (WList [Z.of_nat c1; Z.of_nat c2; Z.of_nat t]) l = Ok l' ->
    keeps n (Nat.min c1 (Nat.min c2 t)) (Nat.max c1 (Nat.max c2 t)) l l'.
  Proof.
    intros n A B C l l' c1 c2 t H [Wn Wb].
    assert (H1 : (c1 < n)%nat) by (apply Wb; simpl; auto). assert (H2 : (c2 < n)%nat) by (apply Wb; simpl; auto).
    assert (H3 : (t < n)%nat) by (apply Wb; simpl; auto).
    inversion Wn as [|? ? N1 Wn']; subst. inversion Wn' as [|? ? N2 _]; subst. cbn [In] in N1, N2.
    unfold toffoli_TN_operation, unset, wires_unset. replace (Z.of_nat n =? -1)%Z with false by lia.
    cbn [orb raise_if wire_list bind zsort fold_right].
    change (py_nth [Z.of_nat c1; Z.of_nat c2; Z.of_nat t] 2) with (Ok (Z.of_nat t)). cbn [bind].
    set (lo := Nat.min c1 (Nat.min c2 t)). set (hi := Nat.max c1 (Nat.max c2 t)).
    assert (K : forall up mid d (G : bool) (G2 : bool), (0 <= up < mid)%Z -> (mid < d)%Z -> (d < Z.of_nat n)%Z -> (Z.of_nat lo <= up)%Z -> (d <= Z.of_nat hi)%Z ->
      (do MPS <- mfold (fun MPS i => swap_step svd (Z.of_nat n) MPS i (i + 1)%Z) (zrange2 up (mid - 1)) l;
       do MPS <- mfold (fun MPS i => swap_step svd (Z.of_nat n) MPS (i - 1)%Z i) (zrange_down d (mid + 1)) MPS;
       do MPS <- three_site svd (if G then Ok (op_tensor 3 A) else if G2 then Ok (op_tensor 3 B) else Ok (op_tensor 3 C)) MPS mid;
       do MPS <- mfold (fun MPS i => swap_step svd (Z.of_nat n) MPS (i - 1)%Z i) (zrange_down (mid - 1) up) MPS;
       mfold (fun MPS i => swap_step svd (Z.of_nat n) MPS i (i + 1)%Z) (zrange2 (mid + 1) d) MPS) = Ok l' -> keeps n lo hi l l').
    { intros up mid d G G2 Hu Hm Hd Hl Hh E. apply bind_inv in E. destruct E as (l1 & E1 & E). apply (ladder_keeps n _ _ l l1 lo hi) in E1; [|auto|lia|lia|lia|lia].
      apply bind_inv in E. destruct E as (l2 & E2 & E). apply (ladder_keeps_down n _ _ l1 l2 lo hi) in E2; [|apply E1|lia|lia|lia|lia].
      apply bind_inv in E. destruct E as (l3 & E3 & E).
      assert (M3 : keeps n lo hi l2 l3).
      { replace mid with (Z.of_nat (S (Z.to_nat mid - 1))) in E3 by lia. apply (keeps_wide n (Z.to_nat mid - 1) (S (S (Z.to_nat mid - 1)))); [|lia|lia].
        destruct G; [|destruct G2]; (eapply three_site_keeps; [apply E2| |exact E3]; lia). }
      apply bind_inv in E. destruct E as (l4 & E4 & E). apply (ladder_keeps_down n _ _ l3 l4 lo hi) in E4; [|apply M3|lia|lia|lia|lia].
      apply (ladder_keeps n _ _ l4 l' lo hi) in E; [|apply E4|lia|lia|lia|lia]. eauto 6 using keeps_trans. }
    cbn [zinsert].
    destruct (Nat.lt_ge_cases c1 c2), (Nat.lt_ge_cases c2 t), (Nat.lt_ge_cases c1 t); try lia;
      repeat match goal with |- context [(Z.of_nat ?x <=? Z.of_nat ?y)%Z] =>
        first [replace (Z.of_nat x <=? Z.of_nat y)%Z with true by lia|replace (Z.of_nat x <=? Z.of_nat y)%Z with false by lia]; cbn [zinsert] end;
      match goal with |- context [py_nth [?x; ?y; ?z] 0] =>
        change (py_nth [x; y; z] 0) with (Ok x); change (py_nth [x; y; z] 1) with (Ok y); change (py_nth [x; y; z] 2) with (Ok z) end; cbn [bind];
      apply K; unfold lo, hi; lia.
  Qed.
  Lemma StateVec2MPS_fits : forall N t l, (0 < N)%nat -> wf t -> StateVec2MPS svd t N = Ok l -> fits N l.
  Proof.
    intros N t l HN Wt. unfold StateVec2MPS. destruct (negb (length (shape t) =? 2)) eqn:E1; [discriminate|].
    cbn [raise_if]. destruct (shape t) as [|d0 [|d1 [|]]] eqn:St; try discriminate. cbn [nth].
    destruct (negb (d0 =? 1)%nat || negb (d1 =? 2 ^ N)%nat) eqn:E2; [discriminate|]. cbn [raise_if].
    assert (d0 = 1%nat) by lia. assert (d1 = 2 ^ N)%nat by lia. subst d0 d1.
    rewrite (tensor_eta t Wt), St. generalize (tget t). intros f H.
    apply bind_inv in H. destruct H as ([c sites] & E & H). injection H as <-. cbn [snd].
    assert (X : forall k st, (k <= N)%nat -> mfold (fun (st : tensor * list tensor) i =>
        do c <- fold_cols (fst st);
        if (i =? N - 1)%nat
        then do s <- view_site c; Ok (c, snd st ++ [s])
        else do uc <- svd_cut svd c;
             do s <- view_site (fst uc);
             Ok (snd uc, snd st ++ [s])) (seq 0 k) (tbuild [1%nat; (2 ^ N)%nat] f, []) = Ok st ->
        exists D c, (0 < D)%nat /\ fst st = tbuild [if (k =? N)%nat then (2 * D)%nat else D; (if (k =? N)%nat then 1 else 2 ^ (N - k))%nat] c /\
          length (snd st) = k /\ (k < N -> D <= 2 ^ k) /\ forall i, i < k -> S i < N -> bond (snd st) i <= Nat.min (2 ^ S i) (2 ^ (N - S i))).
    { induction k as [|k IH]; intros st Hk Hst.
      - cbn [seq mfold] in Hst. injection Hst as <-. exists 1%nat, f. replace (0 =? N)%nat with false by lia. cbn [fst snd chain length].
        rewrite Nat.sub_0_r. repeat split; auto. intros; lia.
      - rewrite seq_S, mfold_app in Hst. apply bind_inv in Hst. destruct Hst as ([c0 s0] & E0 & Hst).
        destruct (IH _ ltac:(lia) E0) as (D & cf & HD & Ec & HL & HB & HC). cbn [fst snd] in *. replace (k =? N)%nat with false in * by lia.
        subst c0. cbn [mfold Nat.add fst snd] in Hst.
        assert (E2k : (2 ^ (N - k) = 2 * 2 ^ (N - S k))%nat) by (replace (N - k)%nat with (S (N - S k)) by lia; reflexivity).
        assert (P2 : (0 < 2 ^ (N - S k))%nat) by (apply Nat.neq_0_lt_0, Nat.pow_nonzero; lia).
        rewrite E2k, fold_cols_ok in Hst by lia. cbn [bind] in Hst.
        destruct (k =? N - 1)%nat eqn:EK.
        + rewrite view_site_ok in Hst by lia. cbn [bind] in Hst. injection Hst as <-. exists D.
          replace (S k =? N)%nat with true by lia. replace (N - S k)%nat with 0%nat by lia. cbn [Nat.pow fst snd]. eexists. split; auto. split; [reflexivity|].
          rewrite app_length. cbn [length]. split; [lia|]. split; [lia|]. intros i Hi Hi'. rewrite bond_app_l by lia. apply HC; lia.
        + apply bind_inv in Hst. destruct Hst as (st1 & Hst & X). injection X as ->. apply bind_inv in Hst. destruct Hst as ([U C] & ES & Hst).
          apply svd_cut_bound in ES; [|lia|lia]. destruct ES as (D' & u & c' & HD' & B1 & B2 & -> & ->). cbn [fst snd] in Hst.
          rewrite view_site_ok in Hst by lia. cbn [bind] in Hst. injection Hst as <-. exists D', c'.
          replace (S k =? N)%nat with false by lia. cbn [fst snd]. split; auto. split; [reflexivity|].
          rewrite app_length. cbn [length]. split; [lia|]. specialize (HB ltac:(lia)). split; [cbn [Nat.pow]; lia|]. intros i Hi Hi'. destruct (Nat.lt_ge_cases i k) as [Hk'|Hk']; [rewrite bond_app_l by lia; apply HC; lia|].
          assert (i = k) by lia. subst i. rewrite bond_app_r by lia. replace (k - length s0) with 0 by lia. unfold bond. cbn [nth shape tbuild Nat.pow]. lia. }
    destruct (X N (c, sites) ltac:(lia) E) as (D & cf & HD & Ec & HL & HB & HC). cbn [fst snd] in *. intros i Hi. apply HC; lia.
  Qed.
  End Run.
End BondFacts.
