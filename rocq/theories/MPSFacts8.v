(** Lemmas: the shapes of matrix product states, for any decomposition with the right shapes. *)
From Coq Require Import List ZArith QArith Lia ZifyBool Bool Arith Ring Permutation.
From Verif Require Import PyBase Scalar BigSum Index Tensor TensorFacts Spec SpecFacts QMath QTN QOperator
  ExpandFacts ExpandFacts2 ContractFacts ContractFacts2 GateFacts MPSSpec MPSFacts1 MPSFacts2 MPSFacts3 MPSFacts4 MPSFacts5.
Import ListNotations.
Local Close Scope Q_scope.
Local Open Scope nat_scope.

Section MPSFacts8.
  Context {SC : Scalar}.
  Add Ring KR : k_ring.
  Local Open Scope k_scope.
  Variable svd : tensor -> tensor * tensor * tensor.
  Hypothesis Hsh : svd_shapes svd.

  Lemma index_select_cols_inv : forall m n D f t, (D <= n)%nat ->
    index_select (tbuild [m; n] f) 1 (seq 0 D) = Ok t -> (0 < D)%nat.
  Proof.
    intros m n D f t HD. unfold index_select. rewrite tbuild_shape. cbn [nth_error]. rewrite seq_length.
    destruct (D =? 0)%nat eqn:E; [discriminate|lia].
  Qed.

  Lemma filter_le : forall A (p : A -> bool) l, (length (filter p l) <= length l)%nat.
  Proof. induction l as [|a l IH]; cbn [filter length]; [lia|]. destruct (p a); cbn [length]; lia. Qed.

  Lemma svd_cut_shape : forall m n a U C, (0 < m)%nat -> (0 < n)%nat -> svd_cut svd (tbuild [m; n] a) = Ok (U, C) ->
    exists D u c, (0 < D)%nat /\ U = tbuild [m; D] u /\ C = tbuild [D; n] c.
  Proof.
    intros m n a U C Hm Hn HE.
    pose proof (Hsh (tbuild [m; n] a) m n eq_refl (tbuild_wf _ _) Hm Hn) as H. unfold svd_cut in HE.
    destruct (svd (tbuild [m; n] a)) as [[U0 Sg] V] eqn:E. cbn zeta in H.
    destruct H as (SU & WU & SS & WS & SV & WV).
    set (k := Nat.min m n) in *. assert (Hk : (0 < k)%nat) by lia.
    rewrite (tensor_eta U0 WU), SU, (tensor_eta Sg WS), SS, (tensor_eta V WV), SV in HE.
    change [1%Z; 0%Z] with (map Z.of_nat [1%nat; 0%nat]) in HE.
    rewrite permute_tbuild in HE by (apply perm_swap). cbn [bind map nth] in HE.
    set (D := length (filter (fun z : K => kabsgt z (1 # 100000000)) (data (tbuild [k] (tget Sg))))) in *.
    assert (HD : (D <= k)%nat).
    { unfold D. etransitivity; [apply filter_le|]. cbn [data tbuild]. rewrite map_length, all_idx_length. cbn [prodn]. lia. }
    unfold diag in HE. rewrite tbuild_shape in HE. cbn [bind shape nth tbuild] in HE. fold (tbuild [k; k]
        (fun idx => if (nth 0 idx 0 =? nth 1 idx 0)%nat then tget (tbuild [k] (tget Sg)) [nth 0 idx 0%nat] else 0)) in HE.
    destruct (D <? k)%nat eqn:EL.
    - destruct (index_select (tbuild [m; k] (tget U0)) 1 (seq 0 D)) as [U1|] eqn:E1; [|discriminate].
      pose proof (index_select_cols_inv _ _ _ _ _ HD E1) as HD0. rewrite index_select_cols in E1 by lia. injection E1 as <-.
      cbn [bind] in HE. rewrite index_select_rows in HE by lia. cbn [bind fst snd] in HE.
      rewrite tconj_tbuild, matmul_2d in HE. cbn [bind] in HE. injection HE as <- <-. eauto 7.
    - cbn [bind fst snd] in HE.
      rewrite tconj_tbuild, matmul_2d in HE. cbn [bind] in HE. injection HE as <- <-. exists k. eauto 7.
  Qed.

  Lemma decomp2_shape : forall Dl Dr T a b, (0 < Dl)%nat -> (0 < Dr)%nat ->
    TensorDecompAfterTwoQbitGate svd (tbuild [2%nat; 2%nat; Dl; Dr] T) = Ok (a, b) -> chain Dl [a; b] Dr.
  Proof.
    intros Dl Dr T a b HDl HDr. unfold TensorDecompAfterTwoQbitGate.
    rewrite !tsel2_tbuild by lia. cbn [bind cat mfold]. rewrite cat2_cols. cbn [bind]. rewrite cat2_cols. cbn [bind]. rewrite cat2_rows. cbn [bind].
    replace (Dl + Dl)%nat with (2 * Dl)%nat by lia. replace (Dr + Dr)%nat with (2 * Dr)%nat by lia.
    intros H. apply bind_inv in H. destruct H as ([U C] & E & H).
    apply svd_cut_shape in E; [|lia|lia]. destruct E as (D & u & c & HD & -> & ->). cbn [fst snd] in H.
    rewrite view_site_ok in H by lia. cbn [bind] in H. rewrite fold_cols_ok in H by lia. cbn [bind] in H.
    rewrite view_site_ok in H by lia. cbn [bind] in H. injection H as <- <-.
    exists D. rewrite !tbuild_shape. repeat split; auto. { apply tbuild_wf. }
    exists Dr. repeat split; auto. apply tbuild_wf.
  Qed.

  Lemma decomp3_shape : forall Dl Dr T a b c, (0 < Dl)%nat -> (0 < Dr)%nat ->
    TensorDecompAfterThreeQbitGate svd (tbuild [2%nat; 2%nat; 2%nat; Dl; Dr] T) = Ok (a, b, c) -> chain Dl [a; b; c] Dr.
  Proof.
    intros Dl Dr T a b c HDl HDr. unfold TensorDecompAfterThreeQbitGate. cbn [shape tbuild length Nat.eqb negb raise_if].
    fold (tbuild [2%nat; 2%nat; 2%nat; Dl; Dr] T).
    rewrite !tsel3_tbuild by lia. cbn [bind cat mfold]. do 6 (rewrite cat2_cols; cbn [bind]). rewrite cat2_rows. cbn [bind].
    replace (Dl + Dl)%nat with (2 * Dl)%nat by lia. replace (Dr + Dr + Dr + Dr)%nat with (2 * (2 * Dr))%nat by lia.
    intros H. apply bind_inv in H. destruct H as ([U C] & E & H).
    apply svd_cut_shape in E; [|lia|lia]. destruct E as (D & u & c' & HD & -> & ->). cbn [fst snd] in H.
    rewrite view_site_ok in H by lia. cbn [bind] in H. rewrite fold_cols_ok in H by lia. cbn [bind] in H.
    apply bind_inv in H. destruct H as ([U2 C2] & E & H).
    apply svd_cut_shape in E; [|lia|lia]. destruct E as (D2 & u2 & c2 & HD2 & -> & ->). cbn [fst snd] in H.
    rewrite view_site_ok in H by lia. cbn [bind] in H. rewrite fold_cols_ok in H by lia. cbn [bind] in H.
    rewrite view_site_ok in H by lia. cbn [bind] in H. injection H as <- <- <-.
    exists D. rewrite !tbuild_shape. repeat split; auto. { apply tbuild_wf. }
    exists D2. repeat split; auto. { apply tbuild_wf. }
    exists Dr. repeat split; auto. apply tbuild_wf.
  Qed.

  Lemma chain_mid : forall l1 m m' l2 Dl Dr, chain 1 l1 Dl -> chain Dl m' Dr -> chain Dr l2 1 -> length m = length m' ->
    mps_shape (length (l1 ++ m ++ l2)) (l1 ++ m' ++ l2).
  Proof.
    intros l1 m m' l2 Dl Dr H1 H2 H3 L. split; [rewrite !app_length; lia|]. apply chain_app. exists Dl. split; auto. apply chain_app. eauto.
  Qed.

  Lemma single_shape : forall n A l l' w, mps_shape n l -> (w < n)%nat ->
    single_TN_operation (op_tensor 1 A) (Z.of_nat n) (WInt (Z.of_nat w)) l = Ok l' -> mps_shape n l'.
  Proof.
    intros n A l l' w H Hw. unfold single_TN_operation, unset, wires_unset. replace (Z.of_nat n =? -1)%Z with false by lia.
    replace (Z.of_nat w =? -1)%Z with false by lia. cbn [orb raise_if wire_int bind].
    destruct (single_site_ok n A l (mps_amp l) w) as (s & s' & E1 & E2 & l'' & E & HM); auto. { split; auto. intros b Hb. reflexivity. }
    rewrite E1. cbn [bind]. rewrite E2. cbn [bind]. rewrite E. intros X. injection X as <-. apply HM.
  Qed.

  Lemma two_site_shape : forall n A l i l', mps_shape n l -> (S i < n)%nat ->
    two_site svd (op_tensor 2 A) l (Z.of_nat i) (Z.of_nat (S i)) = Ok l' -> mps_shape n l'.
  Proof.
    intros n A l i l' [Hn HC] Hi.
    destruct (list_split3 tensor i 2 l ltac:(lia)) as (l1 & m & l2 & -> & L1 & L2).
    destruct m as [|a [|b [|]]]; try discriminate. cbn [app] in *.
    apply chain_app in HC. destruct HC as (Dl & C1 & HC). cbn [chain] in HC.
    destruct HC as (D & HD & Sa & Wa & Dr & HDr & Sb & Wb & C3).
    pose proof (chain_pos l1 1 Dl ltac:(lia) C1) as HDl.
    unfold two_site. rewrite (py_nth_nat _ _ i a), (py_nth_nat _ _ (S i) a) by (rewrite app_length; cbn [length]; lia).
    rewrite !app_nth2 by lia. rewrite L1, Nat.sub_diag. replace (S i - i)%nat with 1%nat by lia. cbn [nth bind].
    set (L := l1 ++ a :: b :: l2) in *.
    replace (unsqueeze a 1) with (unsqueeze (tbuild [2%nat; Dl; D] (tget a)) 1) by (now rewrite <- (site_eta a Dl D Sa Wa)).
    replace (unsqueeze b 0) with (unsqueeze (tbuild [2%nat; D; Dr] (tget b)) 0) by (now rewrite <- (site_eta b D Dr Sb Wb)).
    edestruct (merge2 _ (fun t => do rs <- TensorDecompAfterTwoQbitGate svd t;
      do MPS1 <- py_set L (Z.of_nat i) (fst rs); py_set MPS1 (Z.of_nat (S i)) (snd rs)) A Dl D Dr (tget a) (tget b)) as (T & HT & E).
    cbn beta in E. match type of E with ?X = _ => match goal with |- ?Y = Ok l' -> _ => change Y with X end end.
    rewrite E. clear E. intros H. apply bind_inv in H. destruct H as ([a' b'] & E & H). apply decomp2_shape in E; auto. cbn [fst snd] in H.
    unfold L in *. rewrite py_set_nat in H by (rewrite app_length; cbn [length]; lia).
    replace (set_nth i a' (l1 ++ a :: b :: l2)) with (l1 ++ a' :: b :: l2) in H by (rewrite <- L1; now rewrite set_nth_mid). cbn [bind] in H.
    rewrite py_set_nat in H by (rewrite app_length; cbn [length]; lia).
    replace (set_nth (S i) b' (l1 ++ a' :: b :: l2)) with (l1 ++ a' :: b' :: l2) in H.
    2:{ change (l1 ++ a' :: b :: l2) with (l1 ++ [a'] ++ b :: l2). rewrite app_assoc. replace (S i) with (length (l1 ++ [a'])) by (rewrite app_length; cbn; lia).
        rewrite set_nth_mid, <- app_assoc. reflexivity. }
    injection H as <-. rewrite <- Hn. exact (chain_mid l1 [a; b] [a'; b'] l2 Dl Dr C1 E C3 eq_refl).
  Qed.

  Lemma three_site_shape : forall n A l i l', mps_shape n l -> (S (S i) < n)%nat ->
    three_site svd (Ok (op_tensor 3 A)) l (Z.of_nat (S i)) = Ok l' -> mps_shape n l'.
  Proof.
    intros n A l i l' [Hn HC] Hi.
    destruct (list_split3 tensor i 3 l ltac:(lia)) as (l1 & m & l2 & -> & L1 & L2).
    destruct m as [|a [|b [|c [|]]]]; try discriminate. cbn [app] in *.
    apply chain_app in HC. destruct HC as (Dl & C1 & HC). cbn [chain] in HC.
    destruct HC as (D1 & HD1 & Sa & Wa & D2 & HD2 & Sb & Wb & Dr & HDr & Sc & Wc & C3).
    pose proof (chain_pos l1 1 Dl ltac:(lia) C1) as HDl.
    unfold three_site. replace (Z.of_nat (S i) - 1)%Z with (Z.of_nat i) by lia. replace (Z.of_nat (S i) + 1)%Z with (Z.of_nat (S (S i))) by lia.
    rewrite (py_nth_nat _ _ i a), (py_nth_nat _ _ (S i) a), (py_nth_nat _ _ (S (S i)) a) by (rewrite app_length; cbn [length]; lia).
    rewrite !app_nth2 by lia. rewrite L1, Nat.sub_diag. replace (S i - i)%nat with 1%nat by lia. replace (S (S i) - i)%nat with 2%nat by lia. cbn [nth bind].
    set (L := l1 ++ a :: b :: c :: l2) in *.
    replace (unsqueeze a 1) with (unsqueeze (tbuild [2%nat; Dl; D1] (tget a)) 1) by (now rewrite <- (site_eta a Dl D1 Sa Wa)).
    replace (unsqueeze b 1) with (unsqueeze (tbuild [2%nat; D1; D2] (tget b)) 1) by (now rewrite <- (site_eta b D1 D2 Sb Wb)).
    replace (unsqueeze c 0) with (unsqueeze (tbuild [2%nat; D2; Dr] (tget c)) 0) by (now rewrite <- (site_eta c D2 Dr Sc Wc)).
    edestruct (merge3 _ (fun t => do rs <- TensorDecompAfterThreeQbitGate svd t;
      let '(r0, r1, r2) := rs in
      do MPS <- py_set L (Z.of_nat i) r0; do MPS <- py_set MPS (Z.of_nat (S i)) r1; py_set MPS (Z.of_nat (S (S i))) r2)
      A Dl D1 D2 Dr (tget a) (tget b) (tget c)) as (T & HT & E).
    cbn beta in E. match type of E with ?X = _ => match goal with |- ?Y = Ok l' -> _ => change Y with X end end.
    rewrite E. clear E. intros H. apply bind_inv in H. destruct H as ([[a' b'] c'] & E & H). apply decomp3_shape in E; auto.
    unfold L in *. rewrite py_set_nat in H by (rewrite app_length; cbn [length]; lia).
    replace (set_nth i a' (l1 ++ a :: b :: c :: l2)) with (l1 ++ a' :: b :: c :: l2) in H by (rewrite <- L1; now rewrite set_nth_mid). cbn [bind] in H.
    rewrite py_set_nat in H by (rewrite app_length; cbn [length]; lia).
    replace (set_nth (S i) b' (l1 ++ a' :: b :: c :: l2)) with (l1 ++ a' :: b' :: c :: l2) in H.
    2:{ change (l1 ++ a' :: b :: c :: l2) with (l1 ++ [a'] ++ b :: c :: l2). rewrite app_assoc. replace (S i) with (length (l1 ++ [a'])) by (rewrite app_length; cbn; lia).
        rewrite set_nth_mid, <- app_assoc. reflexivity. }
    cbn [bind] in H. rewrite py_set_nat in H by (rewrite app_length; cbn [length]; lia).
    replace (set_nth (S (S i)) c' (l1 ++ a' :: b' :: c :: l2)) with (l1 ++ a' :: b' :: c' :: l2) in H.
    2:{ change (l1 ++ a' :: b' :: c :: l2) with (l1 ++ [a'; b'] ++ c :: l2). rewrite app_assoc. replace (S (S i)) with (length (l1 ++ [a'; b'])) by (rewrite app_length; cbn; lia).
        rewrite set_nth_mid, <- app_assoc. reflexivity. }
    injection H as <-. rewrite <- Hn. exact (chain_mid l1 [a; b; c] [a'; b'; c'] l2 Dl Dr C1 E C3 eq_refl).
  Qed.

  (** loops *)
  Lemma mfold_shape : forall B (f : list tensor -> B -> res (list tensor)) n bs l l',
    (forall l l' b, In b bs -> mps_shape n l -> f l b = Ok l' -> mps_shape n l') ->
    mps_shape n l -> mfold f bs l = Ok l' -> mps_shape n l'.
  Proof.
    intros B f n bs. induction bs as [|b bs IH]; intros l l' Hf Hl H; cbn [mfold] in H. { injection H as <-. exact Hl. }
    apply bind_inv in H. destruct H as (l1 & E & H). apply (IH l1); auto. { intros; eapply Hf; eauto; simpl; auto. }
    eapply Hf; eauto; simpl; auto.
  Qed.
  Lemma in_zrange2 : forall a b i, In i (zrange2 a b) -> (a <= i < b)%Z.
  Proof. intros a b i H. unfold zrange2 in H. apply in_map_iff in H. destruct H as (k & <- & H). apply in_seq in H. lia. Qed.
  Lemma in_zrange_down : forall a b i, In i (zrange_down a b) -> (b < i <= a)%Z.
  Proof. intros a b i H. unfold zrange_down in H. apply in_map_iff in H. destruct H as (k & <- & H). apply in_seq in H. lia. Qed.

  Lemma two_site_shape_z : forall n A l i j l', mps_shape n l -> (0 <= i)%Z -> j = (i + 1)%Z -> (j < Z.of_nat n)%Z ->
    two_site svd (op_tensor 2 A) l i j = Ok l' -> mps_shape n l'.
  Proof.
    intros n A l i j l' H Hi -> Hj E. apply (two_site_shape n A l (Z.to_nat i) l' H); [lia|].
    replace (Z.of_nat (Z.to_nat i)) with i by lia. now replace (Z.of_nat (S (Z.to_nat i))) with (i + 1)%Z by lia.
  Qed.

  Lemma swap_TN_shape : forall n a b l l', mps_shape n l -> (0 <= a < Z.of_nat n)%Z -> (0 <= b < Z.of_nat n)%Z ->
    swap_TN_operation svd (Z.of_nat n) (WList [a; b]) l = Ok l' -> mps_shape n l'.
  Proof.
    intros n a b l l' H Ha Hb. unfold swap_TN_operation, unset, wires_unset.
    replace (Z.of_nat n =? -1)%Z with false by lia. cbn [orb raise_if wire_list bind length Nat.eqb negb py_min py_max fold_left].
    rewrite mat4_swap. intros E. apply bind_inv in E. destruct E as (l1 & E1 & E2).
    assert (M1 : mps_shape n l1).
    { revert E1. apply mfold_shape; auto. intros x x' i Hi Hx. apply in_zrange2 in Hi. apply two_site_shape_z; auto; lia. }
    revert E2. apply mfold_shape; auto. intros x x' i Hi Hx. apply in_zrange_down in Hi. apply two_site_shape_z; auto; lia.
  Qed.

  Lemma ladder_shape : forall n up d l l', mps_shape n l -> (0 <= up)%Z -> (d < Z.of_nat n)%Z ->
    mfold (fun MPS i => swap_step svd (Z.of_nat n) MPS i (i + 1)%Z) (zrange2 up d) l = Ok l' -> mps_shape n l'.
  Proof.
    intros n up d l l' H Hu Hd. apply mfold_shape; auto. intros x x' i Hi Hx. apply in_zrange2 in Hi. apply swap_TN_shape; auto; lia.
  Qed.
  Lemma ladder_shape_down : forall n up d l l', mps_shape n l -> (0 <= up)%Z -> (d < Z.of_nat n)%Z ->
    mfold (fun MPS i => swap_step svd (Z.of_nat n) MPS (i - 1)%Z i) (zrange_down d up) l = Ok l' -> mps_shape n l'.
  Proof.
    intros n up d l l' H Hu Hd. apply mfold_shape; auto. intros x x' i Hi Hx. apply in_zrange_down in Hi. apply swap_TN_shape; auto; lia.
  Qed.

  Lemma ctrl_TN_shape : forall n A B l l' c t, mps_shape n l -> (c < n)%nat -> (t < n)%nat -> c <> t ->
    ctrl_TN_operation svd (op_tensor 2 A) (Ok (op_tensor 2 B)) (Z.of_nat n) (WList [Z.of_nat c; Z.of_nat t]) l = Ok l' -> mps_shape n l'.
  Proof.
    intros n A B l l' c t H Hc Ht Hn. unfold ctrl_TN_operation, unset, wires_unset. replace (Z.of_nat n =? -1)%Z with false by lia.
    cbn [orb raise_if wire_list bind length Nat.eqb negb py_min py_max fold_left].
    change (py_nth [Z.of_nat c; Z.of_nat t] 0) with (Ok (Z.of_nat c)). cbn [bind].
    intros E. apply bind_inv in E. destruct E as (l1 & E1 & E). apply ladder_shape in E1; [|auto|lia|lia].
    apply bind_inv in E. destruct E as (G & EG & E). apply bind_inv in E. destruct E as (l2 & E2 & E).
    assert (M2 : mps_shape n l2).
    { revert E2. destruct (Z.of_nat c =? _)%Z; injection EG as <-; apply two_site_shape_z; auto; lia. }
    apply ladder_shape_down in E; auto; lia.
  Qed.

  Lemma cnot_TN_shape : forall n A B l l' c t, mps_shape n l -> (c < n)%nat -> (t < n)%nat -> c <> t ->
    cnot_TN_operation svd (op_tensor 2 A) (Ok (op_tensor 2 B)) (Z.of_nat n) (WList [Z.of_nat c; Z.of_nat t]) l = Ok l' -> mps_shape n l'.
  Proof.
    intros n A B l l' c t H Hc Ht Hn. pose proof (ctrl_TN_shape n A B l l' c t H Hc Ht Hn) as G.
    unfold cnot_TN_operation. unfold ctrl_TN_operation in G. unfold unset, wires_unset in *. replace (Z.of_nat n =? -1)%Z with false in * by lia.
    cbn [orb raise_if wire_list bind length Nat.eqb negb py_min py_max fold_left] in *.
    destruct (Z.min (Z.of_nat c) (Z.of_nat t) + 1 =? Z.max (Z.of_nat c) (Z.of_nat t))%Z eqn:E; [|exact G]. clear G.
    change (py_nth [Z.of_nat c; Z.of_nat t] 0) with (Ok (Z.of_nat c)). cbn [bind].
    destruct (Z.of_nat c =? _)%Z; cbn [bind]; apply two_site_shape_z; auto; lia.
  Qed.

  Lemma toffoli_TN_shape : forall n A B C l l' c1 c2 t, mps_shape n l -> good_wires n [c1; c2; t] ->
    toffoli_TN_operation svd (op_tensor 3 A) (Ok (op_tensor 3 B)) (Ok (op_tensor 3 C))
        (Z.of_nat n) (WList [Z.of_nat c1; Z.of_nat c2; Z.of_nat t]) l = Ok l' -> mps_shape n l'.
  Proof.
    intros n A B C l l' c1 c2 t H [Wn Wb].
    assert (H1 : (c1 < n)%nat) by (apply Wb; simpl; auto). assert (H2 : (c2 < n)%nat) by (apply Wb; simpl; auto).
    assert (H3 : (t < n)%nat) by (apply Wb; simpl; auto).
    inversion Wn as [|? ? N1 Wn']; subst. inversion Wn' as [|? ? N2 _]; subst. cbn [In] in N1, N2.
    unfold toffoli_TN_operation, unset, wires_unset. replace (Z.of_nat n =? -1)%Z with false by lia.
    cbn [orb raise_if wire_list bind zsort fold_right].
    change (py_nth [Z.of_nat c1; Z.of_nat c2; Z.of_nat t] 2) with (Ok (Z.of_nat t)). cbn [bind].
    assert (K : forall up mid d (G : bool) (G2 : bool), (0 <= up < mid)%Z -> (mid < d)%Z -> (d < Z.of_nat n)%Z ->
      (do MPS <- mfold (fun MPS i => swap_step svd (Z.of_nat n) MPS i (i + 1)%Z) (zrange2 up (mid - 1)) l;
       do MPS <- mfold (fun MPS i => swap_step svd (Z.of_nat n) MPS (i - 1)%Z i) (zrange_down d (mid + 1)) MPS;
       do MPS <- three_site svd (if G then Ok (op_tensor 3 A) else if G2 then Ok (op_tensor 3 B) else Ok (op_tensor 3 C)) MPS mid;
       do MPS <- mfold (fun MPS i => swap_step svd (Z.of_nat n) MPS (i - 1)%Z i) (zrange_down (mid - 1) up) MPS;
       mfold (fun MPS i => swap_step svd (Z.of_nat n) MPS i (i + 1)%Z) (zrange2 (mid + 1) d) MPS) = Ok l' -> mps_shape n l').
    { intros up mid d G G2 Hu Hm Hd E. apply bind_inv in E. destruct E as (l1 & E1 & E). apply ladder_shape in E1; [|auto|lia|lia].
      apply bind_inv in E. destruct E as (l2 & E2 & E). apply ladder_shape_down in E2; [|auto|lia|lia].
      apply bind_inv in E. destruct E as (l3 & E3 & E).
      assert (M3 : mps_shape n l3).
      { replace mid with (Z.of_nat (S (Z.to_nat mid - 1))) in E3 by lia.
        destruct G; [|destruct G2]; (eapply three_site_shape; [exact E2| |exact E3]; lia). }
      apply bind_inv in E. destruct E as (l4 & E4 & E). apply ladder_shape_down in E4; [|auto|lia|lia].
      apply ladder_shape in E; auto; lia. }
    cbn [zinsert].
    destruct (Nat.lt_ge_cases c1 c2), (Nat.lt_ge_cases c2 t), (Nat.lt_ge_cases c1 t); try lia;
      repeat match goal with |- context [(Z.of_nat ?x <=? Z.of_nat ?y)%Z] =>
        first [replace (Z.of_nat x <=? Z.of_nat y)%Z with true by lia|replace (Z.of_nat x <=? Z.of_nat y)%Z with false by lia]; cbn [zinsert] end;
      match goal with |- context [py_nth [?x; ?y; ?z] 0] =>
        change (py_nth [x; y; z] 0) with (Ok x); change (py_nth [x; y; z] 1) with (Ok y); change (py_nth [x; y; z] 2) with (Ok z) end; cbn [bind];
      apply K; lia.
  Qed.

  (** StateVec2MPS *)
  Lemma StateVec2MPS_shape : forall N t l, (0 < N)%nat -> wf t -> StateVec2MPS svd t N = Ok l -> mps_shape N l.
  Proof.
    intros N t l HN Wt. unfold StateVec2MPS. destruct (negb (length (shape t) =? 2)) eqn:E1; [discriminate|].
    cbn [raise_if]. destruct (shape t) as [|d0 [|d1 [|]]] eqn:St; try discriminate. cbn [nth].
    destruct (negb (d0 =? 1)%nat || negb (d1 =? 2 ^ N)%nat) eqn:E2; [discriminate|]. cbn [raise_if].
    assert (d0 = 1%nat) by lia. assert (d1 = 2 ^ N)%nat by lia. subst d0 d1.
    rewrite (tensor_eta t Wt), St. generalize (tget t). intros f H.
    apply bind_inv in H. destruct H as ([c sites] & E & H). injection H as <-. cbn [snd].
    assert (X : forall k st, (k <= N)%nat -> mfold (fun (st : tensor * list tensor) i =>
        do c <- fold_cols (fst st);
        if (i =? N - 1)%nat
        then do s <- view_site c; Ok (c, snd st ++ [s])
        else do uc <- svd_cut svd c;
             do s <- view_site (fst uc);
             Ok (snd uc, snd st ++ [s])) (seq 0 k) (tbuild [1%nat; (2 ^ N)%nat] f, []) = Ok st ->
        exists D c, (0 < D)%nat /\ fst st = tbuild [if (k =? N)%nat then (2 * D)%nat else D; (if (k =? N)%nat then 1 else 2 ^ (N - k))%nat] c /\
          length (snd st) = k /\ chain 1 (snd st) (if (k =? N)%nat then 1 else D)%nat).
    { induction k as [|k IH]; intros st Hk Hst.
      - cbn [seq mfold] in Hst. injection Hst as <-. exists 1%nat, f. replace (0 =? N)%nat with false by lia. cbn [fst snd chain length].
        rewrite Nat.sub_0_r. repeat split; auto.
      - rewrite seq_S, mfold_app in Hst. apply bind_inv in Hst. destruct Hst as ([c0 s0] & E0 & Hst).
        destruct (IH _ ltac:(lia) E0) as (D & cf & HD & Ec & HL & HC). cbn [fst snd] in *. replace (k =? N)%nat with false in * by lia.
        subst c0. cbn [mfold Nat.add fst snd] in Hst.
        assert (E2k : (2 ^ (N - k) = 2 * 2 ^ (N - S k))%nat) by (replace (N - k)%nat with (S (N - S k)) by lia; reflexivity).
        assert (P2 : (0 < 2 ^ (N - S k))%nat) by (apply Nat.neq_0_lt_0, Nat.pow_nonzero; lia).
        rewrite E2k, fold_cols_ok in Hst by lia. cbn [bind] in Hst.
        destruct (k =? N - 1)%nat eqn:EK.
        + rewrite view_site_ok in Hst by lia. cbn [bind] in Hst. injection Hst as <-. exists D.
          replace (S k =? N)%nat with true by lia. replace (N - S k)%nat with 0%nat by lia. cbn [Nat.pow fst snd]. eexists. split; auto. split; [reflexivity|].
          rewrite app_length. cbn [length]. split; [lia|]. apply chain_app. exists D. split; auto. apply chain_1; auto. apply tbuild_wf.
        + apply bind_inv in Hst. destruct Hst as (st1 & Hst & X). injection X as ->. apply bind_inv in Hst. destruct Hst as ([U C] & ES & Hst).
          apply svd_cut_shape in ES; [|lia|lia]. destruct ES as (D' & u & c' & HD' & -> & ->). cbn [fst snd] in Hst.
          rewrite view_site_ok in Hst by lia. cbn [bind] in Hst. injection Hst as <-. exists D', c'.
          replace (S k =? N)%nat with false by lia. cbn [fst snd]. split; auto. split; [reflexivity|].
          rewrite app_length. cbn [length]. split; [lia|]. apply chain_app. exists D. split; auto. apply chain_1; auto. apply tbuild_wf. }
    destruct (X N (c, sites) ltac:(lia) E) as (D & cf & HD & Ec & HL & HC). cbn [fst snd] in *. rewrite Nat.eqb_refl in HC. split; auto.
  Qed.
End MPSFacts8.
