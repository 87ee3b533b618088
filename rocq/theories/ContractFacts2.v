(** Lemmas: TN_contract on state tensors, plain and batched. *)
From Coq Require Import List ZArith QArith Lia ZifyBool Bool Arith Permutation Ring Setoid Morphisms.
From Verif Require Import PyBase Scalar BigSum Index Tensor TensorFacts Spec SpecFacts QMath QTN QOperator ExpandFacts ExpandFacts2 ContractFacts.
Import ListNotations.
Local Close Scope Q_scope.
Local Open Scope nat_scope.

Section ContractFacts2.
  Context {SC : Scalar}.
  Add Ring KR : k_ring.

  Lemma rd_cons_S : forall x b ws, rd (x :: b) (map S ws) = rd b ws.
  Proof. intros. unfold rd. rewrite map_map. reflexivity. Qed.
  Lemma wr_cons_S : forall ws x b c, wr (x :: b) (map S ws) c = x :: wr b ws c.
  Proof. induction ws; destruct c; simpl; intros; auto. Qed.
  Lemma apply_on_S : forall A ws F x b,
    apply_on A (map S ws) F (x :: b) = apply_on A ws (fun b => F (x :: b)) b.
  Proof.
    intros. unfold apply_on. rewrite map_length, rd_cons_S. apply bigsum_ext. intros c _. now rewrite wr_cons_S.
  Qed.

  Lemma rd_repeat : forall n l, (forall w, In w l -> w < n) -> rd (repeat 2 n) l = repeat 2 (length l).
  Proof.
    intros n l H. induction l as [|w l IH]; simpl; auto. rewrite nth_repeat_lt by (apply H; simpl; auto). f_equal. apply IH.
    intros; apply H; simpl; auto.
  Qed.
  Lemma others_S : forall n ws, others (S n) (map S ws) = 0 :: map S (others n ws).
  Proof.
    intros. unfold others. cbn [seq filter].
    replace (existsb (Nat.eqb 0) (map S ws)) with false.
    2:{ symmetry. apply not_true_iff_false. rewrite existsb_eqb_In. intros H. apply in_map_iff in H. destruct H as [x [H _]]. discriminate. }
    cbn [negb]. f_equal. rewrite <- seq_shift. induction (seq 0 n) as [|i l IH]; auto. cbn [map filter].
    replace (existsb (Nat.eqb (S i)) (map S ws)) with (existsb (Nat.eqb i) ws).
    2:{ apply eq_true_iff_eq. rewrite !existsb_eqb_In, in_map_iff. split.
        - intros. exists i; auto. - intros [x [E Hx]]. injection E as ->. auto. }
    destruct (existsb (Nat.eqb i) ws); cbn [negb map]; rewrite IH; auto.
  Qed.

  (** shape given to view: not batched / batched *)
  Lemma vshape_plain : forall n ws, good_wires n ws ->
    rd (repeat 2 n) (others n ws) ++ repeat 2 (length ws) = repeat 2 n.
  Proof.
    intros n ws H. rewrite rd_repeat by (intros w Hw; apply in_others in Hw; tauto).
    rewrite <- repeat_app. f_equal. rewrite others_length by auto.
    pose proof (Permutation_length (others_perm n ws H)) as L. rewrite seq_length, app_length, others_length in L by auto. lia.
  Qed.
  Lemma vshape_batch : forall B n ws, good_wires n ws ->
    rd (B :: repeat 2 n) (others (S n) (map S ws)) ++ repeat 2 (length ws) = B :: repeat 2 n.
  Proof.
    intros B n ws H. rewrite others_S. change (0 :: map S (others n ws)) with ([0] ++ map S (others n ws)).
    rewrite rd_app, rd_cons_S. cbn [rd map nth app]. f_equal. now apply vshape_plain.
  Qed.
  Lemma map_repeat2 : forall n, map Z.of_nat (repeat 2 n) = repeat 2%Z (Z.to_nat (Z.of_nat n)).
  Proof. intros. rewrite Nat2Z.id. induction n; simpl; auto. now rewrite IHn. Qed.

  Lemma sentinel_n : forall n w, (Z.of_nat w =? -1)%Z = false -> unset (Z.of_nat n) (WInt (Z.of_nat w)) = false.
  Proof. intros. unfold unset, wires_unset. rewrite H. lia. Qed.

  (** the batched version of a map on states *)
  Definition batched (h : qstate -> qstate) (F : list nat -> K) : list nat -> K :=
    fun idx => h (fun b => F (hd 0 idx :: b)) (tl idx).

  Lemma batched_apply_on : forall B n A ws F, tbuild (B :: repeat 2 n) (apply_on A (map S ws) F) =
    tbuild (B :: repeat 2 n) (batched (apply_on A ws) F).
  Proof.
    intros. apply tbuild_ext. intros idx Hv. destruct idx as [|x b]; [inversion Hv|]. unfold batched. cbn [hd tl]. apply apply_on_S.
  Qed.

  Lemma single_contract : forall n w A f, w < n ->
    single_TN_contract (op_tensor 1 A) (Z.of_nat n) (WInt (Z.of_nat w)) (tbuild (repeat 2 n) f) false =
    Ok (tbuild (repeat 2 n) (apply_on A [w] f)).
  Proof.
    intros n w A f Hw. unfold single_TN_contract, raise_if. rewrite sentinel_n by lia. cbn [wire_int bind].
    pose proof (contract1_ok (repeat 2 n) w A f) as H. rewrite repeat_length in H. apply H; auto. now apply nth_repeat_lt.
  Qed.
  Lemma single_contract_batch : forall B n w A F, w < n ->
    single_TN_contract (op_tensor 1 A) (Z.of_nat n) (WInt (Z.of_nat w)) (tbuild (B :: repeat 2 n) F) true =
    Ok (tbuild (B :: repeat 2 n) (batched (apply_on A [w]) F)).
  Proof.
    intros B n w A F Hw. unfold single_TN_contract, raise_if. rewrite sentinel_n by lia. cbn [wire_int bind].
    pose proof (contract1_ok (B :: repeat 2 n) (S w) A F) as H. cbn [length] in H. rewrite repeat_length in H.
    replace (Z.of_nat n + 1)%Z with (Z.of_nat (S n)) by lia. replace (Z.of_nat w + 1)%Z with (Z.of_nat (S w)) by lia.
    rewrite H; [|lia|cbn [nth]; now apply nth_repeat_lt]. change [S w] with (map S [w]). now rewrite batched_apply_on.
  Qed.

  Lemma wire_at_nat : forall l i d, i < length l -> wire_at (WList (map Z.of_nat l)) (Z.of_nat i) = Ok (Z.of_nat (nth i l d)).
  Proof.
    intros. unfold wire_at. rewrite (py_nth_nat _ _ i (Z.of_nat d)) by (now rewrite map_length). now rewrite map_nth.
  Qed.

  Lemma double_contract : forall n c t A f, c < n -> t < n -> c <> t ->
    double_TN_contract (op_tensor 2 A) (Z.of_nat n) (WList [Z.of_nat c; Z.of_nat t]) (tbuild (repeat 2 n) f) false =
    Ok (tbuild (repeat 2 n) (apply_on A [c; t] f)).
  Proof.
    intros n c t A f Hc Ht Hne. unfold double_TN_contract, raise_if, unset, wires_unset.
    replace (Z.of_nat n =? -1)%Z with false by lia. cbn [orb].
    change (wire_at (WList [Z.of_nat c; Z.of_nat t]) 0) with (Ok (Z.of_nat c)).
    change (wire_at (WList [Z.of_nat c; Z.of_nat t]) 1) with (Ok (Z.of_nat t)). cbn [bind].
    unfold assert_, rank. rewrite tbuild_shape, repeat_length, Z.eqb_refl.
    replace (Z.of_nat c =? Z.of_nat t)%Z with false by lia. cbn [negb].
    pose proof (contract2_ok (repeat 2 n) c t A f) as H. rewrite repeat_length in H. apply H; auto using nth_repeat_lt.
    intros T HT. change [2; 2] with (repeat 2 (length [c; t])). rewrite vshape_plain by (now apply good_wires_2). symmetry; apply map_repeat2.
  Qed.
  Lemma double_contract_batch : forall B n c t A F, c < n -> t < n -> c <> t ->
    double_TN_contract (op_tensor 2 A) (Z.of_nat n) (WList [Z.of_nat c; Z.of_nat t]) (tbuild (B :: repeat 2 n) F) true =
    Ok (tbuild (B :: repeat 2 n) (batched (apply_on A [c; t]) F)).
  Proof.
    intros B n c t A F Hc Ht Hne. unfold double_TN_contract, raise_if, unset, wires_unset.
    replace (Z.of_nat n =? -1)%Z with false by lia. cbn [orb].
    change (wire_at (WList [Z.of_nat c; Z.of_nat t]) 0) with (Ok (Z.of_nat c)).
    change (wire_at (WList [Z.of_nat c; Z.of_nat t]) 1) with (Ok (Z.of_nat t)). cbn [bind].
    unfold assert_, rank. rewrite tbuild_shape. cbn [length]. rewrite repeat_length.
    replace (Z.of_nat (S n) =? Z.of_nat n + 1)%Z with true by lia.
    replace (Z.of_nat c =? Z.of_nat t)%Z with false by lia. cbn [negb].
    pose proof (contract2_ok (B :: repeat 2 n) (S c) (S t) A F) as H. cbn [length] in H. rewrite repeat_length in H.
    replace (Z.of_nat n + 1)%Z with (Z.of_nat (S n)) by lia. replace (Z.of_nat c + 1)%Z with (Z.of_nat (S c)) by lia.
    replace (Z.of_nat t + 1)%Z with (Z.of_nat (S t)) by lia.
    rewrite H; try lia; try (cbn [nth]; now apply nth_repeat_lt).
    - change [S c; S t] with (map S [c; t]). now rewrite batched_apply_on.
    - change [S c; S t] with (map S [c; t]). intros T HT. change [2; 2] with (repeat 2 (length [c; t])).
      rewrite vshape_batch by (now apply good_wires_2). rewrite HT, others_S. cbn [rd map nth app].
      now rewrite map_repeat2.
  Qed.

  Lemma swap_contract : forall n c t f, c < n -> t < n -> c <> t ->
    swap_TN_contract (Z.of_nat n) (WList [Z.of_nat c; Z.of_nat t]) (tbuild (repeat 2 n) f) false =
    Ok (tbuild (repeat 2 n) (fun b => f (swapped c t b))).
  Proof.
    intros n c t f Hc Ht Hne. unfold swap_TN_contract, raise_if, unset, wires_unset.
    replace (Z.of_nat n =? -1)%Z with false by lia. cbn [orb].
    change (wire_at (WList [Z.of_nat c; Z.of_nat t]) 0) with (Ok (Z.of_nat c)).
    change (wire_at (WList [Z.of_nat c; Z.of_nat t]) 1) with (Ok (Z.of_nat t)). cbn [bind].
    unfold assert_, rank. rewrite tbuild_shape, repeat_length, Z.eqb_refl.
    replace (Z.of_nat c =? Z.of_nat t)%Z with false by lia. cbn [negb].
    pose proof (swap_contract_ok (repeat 2 n) c t f) as H. rewrite repeat_length in H. apply H; auto using nth_repeat_lt.
  Qed.
  Lemma swap_contract_batch : forall B n c t F, c < n -> t < n -> c <> t ->
    swap_TN_contract (Z.of_nat n) (WList [Z.of_nat c; Z.of_nat t]) (tbuild (B :: repeat 2 n) F) true =
    Ok (tbuild (B :: repeat 2 n) (batched (fun f b => f (swapped c t b)) F)).
  Proof.
    intros B n c t F Hc Ht Hne. unfold swap_TN_contract, raise_if, unset, wires_unset.
    replace (Z.of_nat n =? -1)%Z with false by lia. cbn [orb].
    change (wire_at (WList [Z.of_nat c; Z.of_nat t]) 0) with (Ok (Z.of_nat c)).
    change (wire_at (WList [Z.of_nat c; Z.of_nat t]) 1) with (Ok (Z.of_nat t)). cbn [bind].
    unfold assert_, rank. rewrite tbuild_shape. cbn [length]. rewrite repeat_length.
    replace (Z.of_nat (S n) =? Z.of_nat n + 1)%Z with true by lia.
    replace (Z.of_nat c =? Z.of_nat t)%Z with false by lia. cbn [negb].
    pose proof (swap_contract_ok (B :: repeat 2 n) (S c) (S t) F) as H. cbn [length] in H. rewrite repeat_length in H.
    replace (Z.of_nat n + 1)%Z with (Z.of_nat (S n)) by lia. replace (Z.of_nat c + 1)%Z with (Z.of_nat (S c)) by lia.
    replace (Z.of_nat t + 1)%Z with (Z.of_nat (S t)) by lia.
    rewrite H; try lia; try (cbn [nth]; now apply nth_repeat_lt).
    f_equal. apply tbuild_ext. intros idx Hv. destruct idx as [|x b]; [inversion Hv|]. unfold batched. cbn [hd tl]. f_equal.
  Qed.

  Lemma triple_contract : forall n a b t A f, a < n -> b < n -> t < n -> a <> b -> a <> t -> b <> t ->
    triple_TN_contract (op_tensor 3 A) (Z.of_nat n) (WList [Z.of_nat a; Z.of_nat b; Z.of_nat t]) (tbuild (repeat 2 n) f) false =
    Ok (tbuild (repeat 2 n) (apply_on A [a; b; t] f)).
  Proof.
    intros n a b t A f Ha Hb Ht Hab Hat Hbt. unfold triple_TN_contract, raise_if, unset, wires_unset.
    replace (Z.of_nat n =? -1)%Z with false by lia. cbn [orb].
    change (wire_at (WList [Z.of_nat a; Z.of_nat b; Z.of_nat t]) 0) with (Ok (Z.of_nat a)).
    change (wire_at (WList [Z.of_nat a; Z.of_nat b; Z.of_nat t]) 1) with (Ok (Z.of_nat b)).
    change (wire_at (WList [Z.of_nat a; Z.of_nat b; Z.of_nat t]) 2) with (Ok (Z.of_nat t)). cbn [bind].
    unfold assert_, rank. rewrite tbuild_shape, repeat_length, Z.eqb_refl.
    replace (Z.of_nat a =? Z.of_nat b)%Z with false by lia. replace (Z.of_nat a =? Z.of_nat t)%Z with false by lia.
    replace (Z.of_nat b =? Z.of_nat t)%Z with false by lia. cbn [negb andb].
    pose proof (contract3_ok (repeat 2 n) a b t A f) as H. rewrite repeat_length in H. apply H; auto using nth_repeat_lt.
    intros T HT. change [2; 2; 2] with (repeat 2 (length [a; b; t])). rewrite vshape_plain by (now apply good_wires_3). symmetry; apply map_repeat2.
  Qed.
  Lemma triple_contract_batch : forall B n a b t A F, a < n -> b < n -> t < n -> a <> b -> a <> t -> b <> t ->
    triple_TN_contract (op_tensor 3 A) (Z.of_nat n) (WList [Z.of_nat a; Z.of_nat b; Z.of_nat t]) (tbuild (B :: repeat 2 n) F) true =
    Ok (tbuild (B :: repeat 2 n) (batched (apply_on A [a; b; t]) F)).
  Proof.
    intros B n a b t A F Ha Hb Ht Hab Hat Hbt. unfold triple_TN_contract, raise_if, unset, wires_unset.
    replace (Z.of_nat n =? -1)%Z with false by lia. cbn [orb].
    change (wire_at (WList [Z.of_nat a; Z.of_nat b; Z.of_nat t]) 0) with (Ok (Z.of_nat a)).
    change (wire_at (WList [Z.of_nat a; Z.of_nat b; Z.of_nat t]) 1) with (Ok (Z.of_nat b)).
    change (wire_at (WList [Z.of_nat a; Z.of_nat b; Z.of_nat t]) 2) with (Ok (Z.of_nat t)). cbn [bind].
    unfold assert_, rank. rewrite tbuild_shape. cbn [length]. rewrite repeat_length.
    replace (Z.of_nat (S n) =? Z.of_nat n + 1)%Z with true by lia.
    replace (Z.of_nat a =? Z.of_nat b)%Z with false by lia. replace (Z.of_nat a =? Z.of_nat t)%Z with false by lia.
    replace (Z.of_nat b =? Z.of_nat t)%Z with false by lia. cbn [negb andb].
    pose proof (contract3_ok (B :: repeat 2 n) (S a) (S b) (S t) A F) as H. cbn [length] in H. rewrite repeat_length in H.
    replace (Z.of_nat n + 1)%Z with (Z.of_nat (S n)) by lia. replace (Z.of_nat a + 1)%Z with (Z.of_nat (S a)) by lia.
    replace (Z.of_nat b + 1)%Z with (Z.of_nat (S b)) by lia. replace (Z.of_nat t + 1)%Z with (Z.of_nat (S t)) by lia.
    rewrite H; try lia; try (cbn [nth]; now apply nth_repeat_lt).
    - change [S a; S b; S t] with (map S [a; b; t]). now rewrite batched_apply_on.
    - change [S a; S b; S t] with (map S [a; b; t]). intros T HT. change [2; 2; 2] with (repeat 2 (length [a; b; t])).
      rewrite vshape_batch by (now apply good_wires_3). rewrite HT, others_S. cbn [rd map nth app].
      now rewrite map_repeat2.
  Qed.

  (** states *)
  Lemma act_swap : forall n a b f, a < n -> b < n -> st_eq n (act n (swap_op a b) f) (fun x => f (swapped a b x)).
  Proof.
    intros n a b f Ha Hb r Hr. unfold act, swap_op. pose proof (bits_length _ _ Hr) as Lr.
    rewrite (bigsum_single _ _ (swapped a b r)).
    - rewrite swapped_invol, id_op_refl by lia. ring.
    - apply bits_NoDup.
    - now apply swapped_in_bits.
    - intros x Hx Hne. pose proof (bits_length _ _ Hx) as Lx. rewrite id_op_ne; [ring|]. intros ->. apply Hne.
      now rewrite swapped_invol by lia.
  Qed.

  Lemma state_eta : forall n t psi, is_state n (repeat 2 n) t psi <-> t = tbuild (repeat 2 n) psi.
  Proof.
    intros n t psi. split.
    - intros [Hs [Hd He]].
      assert (W : wf t) by (unfold wf; rewrite Hs, prodn_repeat; auto).
      rewrite (tensor_eta t W), Hs. apply tbuild_ext. intros idx Hv. apply bits_valid in Hv. rewrite <- He by auto.
      unfold tget, amp. rewrite Hs. f_equal. symmetry. apply bval_flat_n. now apply bits_length.
    - intros ->. split; [reflexivity|]. split. { cbn [data tbuild]. rewrite map_length, all_idx_length, prodn_repeat. auto. }
      intros b Hb. unfold amp. rewrite (bval_flat_n n) by (now apply bits_length).
      pose proof (tget_tbuild (repeat 2 n) psi b) as H. unfold tget in H. rewrite tbuild_shape in H. apply H. now apply bits_valid.
  Qed.

  Lemma is_state_ext : forall n s t f g, st_eq n f g -> is_state n s t f -> is_state n s t g.
  Proof. intros n s t f g H [H1 [H2 H3]]. repeat split; auto. now rewrite H3. Qed.
  Lemma tbuild_st_ext : forall n f g, st_eq n f g -> tbuild (repeat 2 n) f = tbuild (repeat 2 n) g.
  Proof. intros. apply tbuild_ext. intros idx Hv. apply H. now apply bits_valid. Qed.
  Lemma tbuild_st_inj : forall n f g, tbuild (repeat 2 n) f = tbuild (repeat 2 n) g -> st_eq n f g.
  Proof. intros n f g H b Hb. eapply tbuild_inj; eauto. now apply bits_valid. Qed.
End ContractFacts2.
