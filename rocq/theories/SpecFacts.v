(** Consequences of the definitions of [Spec]. *)
From Coq Require Import List ZArith Lia Bool Arith Ring Permutation Setoid Morphisms.
From Verif Require Import PyBase Scalar BigSum Index Tensor TensorFacts Spec.
Import ListNotations.

(** ** bit strings *)
Lemma bits_all_idx : forall n, bits n = all_idx (repeat 2 n).
Proof. induction n; simpl; auto. rewrite <- IHn. now rewrite app_nil_r. Qed.

Lemma nth_repeat_lt : forall A (a d : A) n i, i < n -> nth i (repeat a n) d = a.
Proof. induction n; simpl; intros; [lia|]. destruct i; auto. apply IHn; lia. Qed.

Lemma in_bits : forall n b, In b (bits n) <-> length b = n /\ forall i, i < n -> nth i b 0 < 2.
Proof.
  intros. rewrite bits_all_idx, in_all_idx, valid_nth, repeat_length. split; intros [H1 H2]; split; auto;
  intros i Hi; specialize (H2 i Hi); rewrite nth_repeat_lt in *; auto.
Qed.

Lemma bits_valid : forall n b, In b (bits n) <-> valid (repeat 2 n) b.
Proof. intros. now rewrite bits_all_idx, in_all_idx. Qed.

Lemma bits_length : forall n b, In b (bits n) -> length b = n.
Proof. intros n b H. apply in_bits in H. tauto. Qed.

Lemma bits_NoDup : forall n, NoDup (bits n).
Proof. intros. rewrite bits_all_idx. apply all_idx_NoDup. Qed.

Lemma bits_app : forall m n b1 b2, In b1 (bits m) -> In b2 (bits n) -> In (b1 ++ b2) (bits (m + n)).
Proof.
  intros m n b1 b2 H1 H2. apply bits_valid in H1, H2. apply bits_valid.
  rewrite repeat_app. apply valid_app; auto. now apply valid_length in H1.
Qed.

Lemma bits_cons : forall n x b, In (x :: b) (bits (S n)) <-> x < 2 /\ In b (bits n).
Proof. intros. rewrite !bits_valid. simpl. apply valid_cons. Qed.

Lemma bval_aux : forall b a, fold_left (fun a x => 2 * a + x) b a = a * 2 ^ length b + bval b.
Proof.
  unfold bval. induction b; intros a0; simpl length; cbn [fold_left]; [simpl; lia|].
  rewrite IHb, (IHb (2 * 0 + a)). rewrite Nat.pow_succ_r'. lia.
Qed.

Lemma bval_cons : forall x b, bval (x :: b) = x * 2 ^ length b + bval b.
Proof. intros. unfold bval at 1. cbn [fold_left]. rewrite bval_aux. f_equal. Qed.

Lemma bval_flat : forall b, bval b = flat (repeat 2 (length b)) b.
Proof.
  induction b; auto. rewrite bval_cons, IHb. simpl. now rewrite prodn_repeat.
Qed.

Lemma bval_flat_n : forall n b, length b = n -> bval b = flat (repeat 2 n) b.
Proof. intros; subst; apply bval_flat. Qed.

Lemma bval_app : forall a b, bval (a ++ b) = bval a * 2 ^ length b + bval b.
Proof. intros. unfold bval at 1. rewrite fold_left_app. fold (bval a). apply bval_aux. Qed.

Lemma bval_snoc : forall a x, bval (a ++ [x]) = 2 * bval a + x.
Proof. intros. rewrite bval_app. simpl. unfold bval at 2. simpl. lia. Qed.

Lemma bval_lt : forall n b, In b (bits n) -> bval b < 2 ^ n.
Proof.
  intros n b H. rewrite (bval_flat_n n) by (now apply bits_length).
  rewrite <- prodn_repeat. apply flat_lt. now apply bits_valid.
Qed.

Lemma bval_inj : forall n a b, In a (bits n) -> In b (bits n) -> bval a = bval b -> a = b.
Proof.
  intros n a b Ha Hb H. rewrite !(bval_flat_n n) in H by (now apply bits_length).
  apply flat_inj in H; auto; now apply bits_valid.
Qed.

Definition bitsof (n k : nat) : list nat := unflat (repeat 2 n) k.

Lemma bitsof_in : forall n k, k < 2 ^ n -> In (bitsof n k) (bits n).
Proof. intros. apply bits_valid. apply unflat_valid. now rewrite prodn_repeat. Qed.

Lemma bval_bitsof : forall n k, k < 2 ^ n -> bval (bitsof n k) = k.
Proof.
  intros. rewrite (bval_flat_n n). 2:{ unfold bitsof. now rewrite unflat_length, repeat_length. }
  apply flat_unflat. now rewrite prodn_repeat.
Qed.

Lemma bitsof_bval : forall n b, In b (bits n) -> bitsof n (bval b) = b.
Proof.
  intros. rewrite (bval_flat_n n) by (now apply bits_length). apply unflat_flat. now apply bits_valid.
Qed.

Lemma bits_map : forall n, bits n = map (bitsof n) (seq 0 (2 ^ n)).
Proof. intros. rewrite bits_all_idx, all_idx_eq, prodn_repeat. reflexivity. Qed.

(** ** reading and writing wires *)
Lemma rd_length : forall b ws, length (rd b ws) = length ws.
Proof. intros. unfold rd. apply map_length. Qed.

Lemma rd_in_bits : forall n b ws, In b (bits n) -> (forall w, In w ws -> w < n) -> In (rd b ws) (bits (length ws)).
Proof.
  intros n b ws Hb Hw. apply in_bits. rewrite rd_length. split; auto. intros i Hi.
  unfold rd. rewrite (nth_map' _ _ _ _ _ _ 0) by auto.
  apply in_bits in Hb. destruct Hb as [_ Hb]. apply Hb, Hw. now apply nth_In.
Qed.

Lemma wr_length : forall ws b c, length (wr b ws c) = length b.
Proof. induction ws; destruct c; simpl; auto. rewrite IHws. apply set_nth_length. Qed.

Lemma nth_wr_out : forall ws b c i, ~ In i ws -> (forall w, In w ws -> w < length b) ->
  nth i (wr b ws c) 0 = nth i b 0.
Proof.
  induction ws; destruct c; simpl; intros i Hi Hw; auto.
  rewrite IHws by (try rewrite set_nth_length; auto).
  rewrite nth_set_nth by auto. destruct (i =? a) eqn:E; auto.
  apply Nat.eqb_eq in E. subst. tauto.
Qed.

Lemma nth_wr_in : forall ws b c i, NoDup ws -> (forall w, In w ws -> w < length b) ->
  length c = length ws -> In i ws -> nth i (wr b ws c) 0 = nth (index_of i ws) c 0.
Proof.
  induction ws; destruct c; simpl; intros i Hn Hw HL Hi; try tauto; try discriminate.
  inversion Hn; subst. destruct (a =? i) eqn:E.
  - apply Nat.eqb_eq in E. subst i. rewrite nth_wr_out; auto.
    + rewrite nth_set_nth by auto. now rewrite Nat.eqb_refl.
    + rewrite set_nth_length; auto.
  - apply Nat.eqb_neq in E. destruct Hi; [congruence|]. apply IHws; auto. rewrite set_nth_length; auto.
Qed.

Lemma wr_in_bits : forall n b ws c, In b (bits n) -> good_wires n ws -> In c (bits (length ws)) ->
  In (wr b ws c) (bits n).
Proof.
  intros n b ws c Hb [Hn Hw] Hc. apply in_bits in Hb, Hc. destruct Hb as [Hb1 Hb2], Hc as [Hc1 Hc2].
  apply in_bits. rewrite wr_length. split; auto. intros i Hi.
  destruct (in_dec Nat.eq_dec i ws).
  - rewrite nth_wr_in; auto. { apply Hc2. now apply index_of_lt. } rewrite Hb1; auto.
  - rewrite nth_wr_out; auto. rewrite Hb1; auto.
Qed.

Lemma rd_wr : forall n b ws c, length b = n -> good_wires n ws -> length c = length ws ->
  rd (wr b ws c) ws = c.
Proof.
  intros n b ws c Hb [Hn Hw] Hc. apply nth_ext with (d := 0) (d' := 0). { now rewrite rd_length. }
  intros k Hk. rewrite rd_length in Hk. unfold rd. rewrite (nth_map' _ _ _ _ _ _ 0) by auto.
  rewrite nth_wr_in; auto.
  - now rewrite index_of_nth.
  - rewrite Hb; auto.
  - now apply nth_In.
Qed.

Lemma same_off_spec : forall n ws r c, length r = n ->
  (same_off ws r c = true <-> forall i, i < n -> ~ In i ws -> nth i r 0 = nth i c 0).
Proof.
  intros n ws r c Hr. unfold same_off. rewrite forallb_forall, Hr. split.
  - intros H i Hi Hn. specialize (H i). rewrite in_seq in H. specialize (H ltac:(lia)).
    apply orb_true_iff in H. destruct H as [H|H].
    + apply existsb_exists in H. destruct H as [x [Hx E]]. apply Nat.eqb_eq in E. subst. tauto.
    + now apply Nat.eqb_eq in H.
  - intros H i Hi. apply in_seq in Hi. apply orb_true_iff.
    destruct (in_dec Nat.eq_dec i ws).
    + left. apply existsb_exists. exists i. split; auto. apply Nat.eqb_refl.
    + right. apply Nat.eqb_eq. apply H; auto. lia.
Qed.

Lemma same_off_wr : forall n b ws c, length b = n -> good_wires n ws -> same_off ws b (wr b ws c) = true.
Proof.
  intros n b ws c Hb [Hn Hw]. apply (same_off_spec n); auto. intros i Hi Hni.
  symmetry. apply nth_wr_out; auto. rewrite Hb; auto.
Qed.

Lemma wr_rd : forall n b ws c, length b = n -> length c = n -> good_wires n ws ->
  same_off ws b c = true -> wr b ws (rd c ws) = c.
Proof.
  intros n b ws c Hb Hc [Hn Hw] H. rewrite (same_off_spec n) in H by auto.
  apply nth_ext with (d := 0) (d' := 0). { now rewrite wr_length, Hb. }
  intros k Hk. rewrite wr_length, Hb in Hk. destruct (in_dec Nat.eq_dec k ws).
  - rewrite nth_wr_in; auto.
    + unfold rd. rewrite (nth_map' _ _ _ _ _ _ 0) by (now apply index_of_lt). now rewrite nth_index_of.
    + rewrite Hb; auto.
    + apply rd_length.
  - rewrite nth_wr_out; auto. rewrite Hb; auto.
Qed.

Lemma same_off_refl : forall ws r, same_off ws r r = true.
Proof. intros. apply (same_off_spec (length r)); auto. Qed.

Lemma same_off_sym : forall n ws r c, length r = n -> length c = n -> same_off ws r c = same_off ws c r.
Proof.
  intros n ws r c Hr Hc. apply eq_true_iff_eq. rewrite !(same_off_spec n) by auto.
  split; intros H i Hi Hn; symmetry; auto.
Qed.

Lemma same_off_trans : forall n ws r m c, length r = n -> length m = n -> same_off ws r m = true ->
  same_off ws m c = same_off ws r c.
Proof.
  intros n ws r m c Hr Hm H. apply eq_true_iff_eq. rewrite (same_off_spec n) in H by auto.
  rewrite !(same_off_spec n) by auto. split; intros H2 i Hi Hn; rewrite <- H2 by auto; [symmetry|]; symmetry; auto.
Qed.

(** two strings agreeing on and off the wires are equal *)
Lemma same_off_rd_eq : forall n ws r c, length r = n -> length c = n -> good_wires n ws ->
  (same_off ws r c = true /\ rd r ws = rd c ws <-> r = c).
Proof.
  intros n ws r c Hr Hc Hw. split.
  - intros [H1 H2]. transitivity (wr r ws (rd r ws)).
    + symmetry. apply (wr_rd n); auto. apply same_off_refl.
    + rewrite H2. now apply (wr_rd n).
  - intros ->. split; auto. apply same_off_refl.
Qed.

Section SpecFacts.
  Context {SC : Scalar}.
  Add Ring KR : k_ring.
  Local Open Scope k_scope.

  Lemma bigsum_bits_seq : forall n (f : nat -> K),
    bigsum (bits n) (fun b => f (bval b)) = bigsum (seq 0 (2 ^ n)) f.
  Proof.
    intros. rewrite bits_map, bigsum_map. apply bigsum_ext. intros k Hk. apply in_seq in Hk.
    now rewrite bval_bitsof by lia.
  Qed.

  Lemma bigsum_bits_app : forall m n (f : list nat -> K),
    bigsum (bits (m + n)) f = bigsum (bits m) (fun a => bigsum (bits n) (fun b => f (a ++ b))).
  Proof.
    intros. rewrite !bits_all_idx, repeat_app, all_idx_app, bigsum_flat_map.
    apply bigsum_ext. intros a Ha. now rewrite bigsum_map.
  Qed.

  Lemma bigsum_bits_1 : forall (f : list nat -> K), bigsum (bits 1) f = f [0%nat] + f [1%nat].
  Proof. intros. simpl. unfold bigsum. simpl. ring. Qed.

  Lemma bigsum_bits_S : forall n (f : list nat -> K),
    bigsum (bits (S n)) f = bigsum (bits n) (fun b => f (0%nat :: b)) + bigsum (bits n) (fun b => f (1%nat :: b)).
  Proof. intros. simpl bits. now rewrite bigsum_app, !bigsum_map. Qed.

  (** summing over strings that agree with r off ws = summing over the values written on ws *)
  Lemma bigsum_same_off : forall n ws r g, good_wires n ws -> In r (bits n) ->
    bigsum (bits n) (fun c => if same_off ws r c then g c else 0) =
    bigsum (bits (length ws)) (fun x => g (wr r ws x)).
  Proof.
    intros n ws r g Hw Hr. rewrite <- bigsum_filter, <- bigsum_map with (h := wr r ws).
    pose proof (bits_length _ _ Hr) as HL.
    apply bigsum_perm. apply NoDup_Permutation.
    - apply NoDup_filter, bits_NoDup.
    - apply NoDup_map_inj_in; [|apply bits_NoDup].
      intros x y Hx Hy E. apply bits_length in Hx, Hy.
      rewrite <- (rd_wr n r ws x), <- (rd_wr n r ws y); auto. now rewrite E.
    - intros c. rewrite filter_In, in_map_iff. split.
      + intros [H1 H2]. exists (rd c ws). split.
        * apply (wr_rd n); auto. now apply bits_length.
        * eapply rd_in_bits; eauto. apply Hw.
      + intros [x [E Hx]]. subst c. split. { now apply wr_in_bits. } now apply (same_off_wr n).
  Qed.

  Lemma act_lift : forall n M ws psi, good_wires n ws ->
    st_eq n (act n (lift M ws) psi) (apply_on M ws psi).
  Proof.
    intros n M ws psi Hw r Hr. unfold act, lift, apply_on.
    transitivity (bigsum (bits n) (fun c => if same_off ws r c then M (rd r ws) (rd c ws) * psi c else 0)).
    { apply bigsum_ext. intros c Hc. destruct (same_off ws r c); ring. }
    rewrite (bigsum_same_off n ws r (fun c => M (rd r ws) (rd c ws) * psi c)) by auto.
    apply bigsum_ext. intros x Hx. rewrite (rd_wr n); auto; now apply bits_length.
  Qed.

  Global Instance op_eq_equiv n : Equivalence (op_eq n).
  Proof.
    split; red; unfold op_eq; intros.
    - reflexivity.
    - symmetry; auto.
    - rewrite H; auto.
  Qed.
  Global Instance st_eq_equiv n : Equivalence (st_eq n).
  Proof.
    split; red; unfold st_eq; intros.
    - reflexivity.
    - symmetry; auto.
    - rewrite H; auto.
  Qed.
  Global Instance mul_op_proper n : Proper (op_eq n ==> op_eq n ==> op_eq n) (mul_op n).
  Proof.
    intros A A' HA B B' HB r c Hr Hc. unfold mul_op. apply bigsum_ext. intros m Hm.
    now rewrite HA, HB.
  Qed.
  Global Instance adj_op_proper n : Proper (op_eq n ==> op_eq n) adj_op.
  Proof. intros A A' HA r c Hr Hc. unfold adj_op. now rewrite HA. Qed.
  Global Instance act_proper n : Proper (op_eq n ==> st_eq n ==> st_eq n) (act n).
  Proof.
    intros A A' HA f f' Hf r Hr. unfold act. apply bigsum_ext. intros m Hm. now rewrite HA, Hf.
  Qed.
  Global Instance unitary_proper n : Proper (op_eq n ==> iff) (unitary n).
  Proof.
    intros A A' HA. unfold unitary. now rewrite HA.
  Qed.
  Global Instance inner_proper n : Proper (st_eq n ==> st_eq n ==> eq) (inner n).
  Proof. intros f f' Hf g g' Hg. unfold inner. apply bigsum_ext. intros b Hb. now rewrite Hf, Hg. Qed.

  Lemma mul_op_assoc : forall n A B C, op_eq n (mul_op n (mul_op n A B) C) (mul_op n A (mul_op n B C)).
  Proof.
    intros n A B C r c Hr Hc. unfold mul_op.
    transitivity (bigsum (bits n) (fun m => bigsum (bits n) (fun m0 => A r m0 * B m0 m * C m c))).
    { apply bigsum_ext. intros. now rewrite <- bigsum_mul_r. }
    rewrite bigsum_swap. apply bigsum_ext. intros m Hm. rewrite <- bigsum_mul_l.
    apply bigsum_ext. intros; ring.
  Qed.

  Lemma mul_op_id_l : forall n A, op_eq n (mul_op n id_op A) A.
  Proof.
    intros n A r c Hr Hc. unfold mul_op, id_op.
    rewrite (bigsum_single _ _ r); auto using bits_NoDup.
    - destruct (list_eq_dec Nat.eq_dec r r); [ring|congruence].
    - intros x Hx Hne. destruct (list_eq_dec Nat.eq_dec r x); [congruence|ring].
  Qed.
  Lemma mul_op_id_r : forall n A, op_eq n (mul_op n A id_op) A.
  Proof.
    intros n A r c Hr Hc. unfold mul_op, id_op.
    rewrite (bigsum_single _ _ c); auto using bits_NoDup.
    - destruct (list_eq_dec Nat.eq_dec c c); [ring|congruence].
    - intros x Hx Hne. destruct (list_eq_dec Nat.eq_dec x c); [congruence|ring].
  Qed.

  Lemma act_mul : forall n A B psi, st_eq n (act n (mul_op n A B) psi) (act n A (act n B psi)).
  Proof.
    intros n A B psi r Hr. unfold act, mul_op.
    transitivity (bigsum (bits n) (fun c => bigsum (bits n) (fun m => A r m * B m c * psi c))).
    { apply bigsum_ext. intros. now rewrite <- bigsum_mul_r. }
    rewrite bigsum_swap. apply bigsum_ext. intros m Hm. rewrite <- bigsum_mul_l.
    apply bigsum_ext. intros; ring.
  Qed.
  Lemma act_id : forall n psi, st_eq n (act n id_op psi) psi.
  Proof.
    intros n psi r Hr. unfold act, id_op.
    rewrite (bigsum_single _ _ r); auto using bits_NoDup.
    - destruct (list_eq_dec Nat.eq_dec r r); [ring|congruence].
    - intros x Hx Hne. destruct (list_eq_dec Nat.eq_dec r x); [congruence|ring].
  Qed.

  Lemma adj_mul : forall n A B, op_eq n (adj_op (mul_op n A B)) (mul_op n (adj_op B) (adj_op A)).
  Proof.
    intros n A B r c Hr Hc. unfold adj_op, mul_op. rewrite bigsum_conj. apply bigsum_ext.
    intros. rewrite kconj_mul. ring.
  Qed.
  Lemma adj_adj : forall n A, op_eq n (adj_op (adj_op A)) A.
  Proof. intros n A r c Hr Hc. unfold adj_op. apply kconj_invol. Qed.
  Lemma adj_id : forall n, op_eq n (adj_op id_op) id_op.
  Proof.
    intros n r c Hr Hc. unfold adj_op, id_op.
    destruct (list_eq_dec Nat.eq_dec c r), (list_eq_dec Nat.eq_dec r c); try congruence.
    apply kconj_1. apply kconj_0.
  Qed.

  (** lifting is compatible with products, identity and adjoint *)
  Lemma lift_mul : forall n ws A B, good_wires n ws ->
    op_eq n (mul_op n (lift A ws) (lift B ws)) (lift (mul_op (length ws) A B) ws).
  Proof.
    intros n ws A B Hw r c Hr Hc. unfold mul_op, lift.
    pose proof (bits_length _ _ Hr) as HLr. pose proof (bits_length _ _ Hc) as HLc.
    transitivity (bigsum (bits n) (fun m => if same_off ws r m then
       (if same_off ws r c then A (rd r ws) (rd m ws) * B (rd m ws) (rd c ws) else 0) else 0)).
    { apply bigsum_ext. intros m Hm. pose proof (bits_length _ _ Hm) as HLm.
      destruct (same_off ws r m) eqn:E; [|ring].
      rewrite (same_off_trans n ws r m c) by auto. destruct (same_off ws r c); ring. }
    rewrite (bigsum_same_off n ws r (fun m => if same_off ws r c then A (rd r ws) (rd m ws) * B (rd m ws) (rd c ws) else 0)) by auto.
    destruct (same_off ws r c).
    - apply bigsum_ext. intros x Hx. apply bits_length in Hx. rewrite (rd_wr n); auto.
    - apply bigsum_0.
  Qed.

  Lemma lift_id : forall n ws, good_wires n ws -> op_eq n (lift id_op ws) id_op.
  Proof.
    intros n ws Hw r c Hr Hc. unfold lift, id_op.
    pose proof (bits_length _ _ Hr) as HLr. pose proof (bits_length _ _ Hc) as HLc.
    pose proof (same_off_rd_eq n ws r c HLr HLc Hw) as H.
    destruct (same_off ws r c), (list_eq_dec Nat.eq_dec (rd r ws) (rd c ws)), (list_eq_dec Nat.eq_dec r c); auto;
      exfalso; intuition congruence.
  Qed.

  Lemma lift_adj : forall n ws A, op_eq n (adj_op (lift A ws)) (lift (adj_op A) ws).
  Proof.
    intros n ws A r c Hr Hc. unfold adj_op, lift.
    pose proof (bits_length _ _ Hr) as HLr. pose proof (bits_length _ _ Hc) as HLc.
    rewrite (same_off_sym n ws c r) by auto. destruct (same_off ws r c); auto. apply kconj_0.
  Qed.

  Lemma lift_ext : forall n ws A B, (forall w, In w ws -> w < n)%nat -> op_eq (length ws) A B -> op_eq n (lift A ws) (lift B ws).
  Proof.
    intros n ws A B Hw H r c Hr Hc. unfold lift. destruct (same_off ws r c); auto.
    apply H; eapply rd_in_bits; eauto.
  Qed.

  Lemma lift_unitary : forall n ws A, good_wires n ws -> unitary (length ws) A -> unitary n (lift A ws).
  Proof.
    intros n ws A Hw [H1 H2]. split; rewrite lift_adj, lift_mul by auto;
      rewrite <- (lift_id n ws Hw); apply lift_ext; auto; apply Hw.
  Qed.

  Lemma unitary_mul : forall n A B, unitary n A -> unitary n B -> unitary n (mul_op n A B).
  Proof.
    intros n A B [A1 A2] [B1 B2]. split; rewrite adj_mul.
    - rewrite mul_op_assoc, <- (mul_op_assoc n (adj_op A)), A1, mul_op_id_l. auto.
    - rewrite mul_op_assoc, <- (mul_op_assoc n B), B2, mul_op_id_l. auto.
  Qed.
  Lemma unitary_id : forall n, unitary n id_op.
  Proof. intros n. split; rewrite adj_id, mul_op_id_l; reflexivity. Qed.
  Lemma unitary_adj : forall n A, unitary n A -> unitary n (adj_op A).
  Proof. intros n A [H1 H2]. split; rewrite adj_adj; auto. Qed.

  (** unitary operators preserve inner products *)
  Lemma inner_act : forall n A f g, inner n f (act n A g) = inner n (act n (adj_op A) f) g.
  Proof.
    intros. unfold inner, act, adj_op.
    transitivity (bigsum (bits n) (fun b => bigsum (bits n) (fun c => kconj (f b) * A b c * g c))).
    { apply bigsum_ext. intros b Hb. rewrite <- bigsum_mul_l. apply bigsum_ext; intros; ring. }
    rewrite bigsum_swap. apply bigsum_ext. intros c Hc. rewrite bigsum_conj, <- bigsum_mul_r.
    apply bigsum_ext. intros b Hb. rewrite kconj_mul, kconj_invol. ring.
  Qed.
  Lemma unitary_inner : forall n A f g, unitary n A -> inner n (act n A f) (act n A g) = inner n f g.
  Proof.
    intros n A f g [H1 H2]. rewrite inner_act.
    assert (E : st_eq n (act n (adj_op A) (act n A f)) f) by (rewrite <- act_mul, H1; apply act_id).
    now rewrite E.
  Qed.

  Lemma lift_mul_disjoint : forall n ws vs A B r c, good_wires n ws -> good_wires n vs ->
    (forall w, In w ws -> ~ In w vs) -> In r (bits n) -> In c (bits n) ->
    mul_op n (lift A ws) (lift B vs) r c =
    if same_off (ws ++ vs) r c then A (rd r ws) (rd c ws) * B (rd r vs) (rd c vs) else 0.
  Proof.
    intros n ws vs A B r c Hw Hv Hd Hr Hc.
      pose proof (bits_length _ _ Hr) as HLr. pose proof (bits_length _ _ Hc) as HLc.
      unfold mul_op, lift.
      transitivity (bigsum (bits n) (fun m => if same_off ws r m then
        A (rd r ws) (rd m ws) * (if same_off vs m c then B (rd m vs) (rd c vs) else 0) else 0)).
      { apply bigsum_ext. intros m Hm. destruct (same_off ws r m); ring. }
      rewrite (bigsum_same_off n ws r (fun m => A (rd r ws) (rd m ws) * (if same_off vs m c then B (rd m vs) (rd c vs) else 0))) by auto.
      rewrite (bigsum_single _ _ (rd c ws)).
      - rewrite (rd_wr n); auto using rd_length.
        assert (E1 : rd (wr r ws (rd c ws)) vs = rd r vs).
        { unfold rd at 1 3. apply map_ext_in. intros w Hin. apply nth_wr_out.
          - intros H. apply (Hd w); auto.
          - rewrite HLr. apply Hw. }
        rewrite E1.
        assert (E2 : same_off vs (wr r ws (rd c ws)) c = same_off (ws ++ vs) r c).
        { apply eq_true_iff_eq. rewrite !(same_off_spec n) by (rewrite ?wr_length; auto).
          split; intros H i Hi Hni.
          - rewrite <- H; auto. { symmetry. apply nth_wr_out. intros Hx. apply Hni, in_or_app; auto. rewrite HLr; apply Hw. }
            intros Hx. apply Hni, in_or_app; auto.
          - destruct (in_dec Nat.eq_dec i ws).
            + rewrite nth_wr_in; auto using rd_length; try apply Hw.
              * unfold rd. rewrite (nth_map' _ _ _ _ _ _ 0%nat) by (now apply index_of_lt). now rewrite nth_index_of.
              * rewrite HLr; apply Hw.
            + rewrite nth_wr_out; auto. 2:{ rewrite HLr; apply Hw. } apply H; auto. rewrite in_app_iff. tauto. }
        rewrite E2. destruct (same_off (ws ++ vs) r c); ring.
      - apply bits_NoDup.
      - eapply rd_in_bits; eauto. apply Hw.
      - intros x Hx Hne. destruct (same_off vs (wr r ws x) c) eqn:E; [|ring]. exfalso. apply Hne.
        rewrite (same_off_spec n) in E by (rewrite wr_length; auto).
        rewrite <- (rd_wr n r ws x); auto. 2:{ now apply bits_length. }
        unfold rd at 1 2. apply map_ext_in. intros w Hin. apply E; auto. now apply Hw.
  Qed.

  (** operators on disjoint wires commute *)
  Lemma lift_comm : forall n ws vs A B, good_wires n ws -> good_wires n vs ->
    (forall w, In w ws -> ~ In w vs) ->
    op_eq n (mul_op n (lift A ws) (lift B vs)) (mul_op n (lift B vs) (lift A ws)).
  Proof.
    intros n ws vs A B Hw Hv Hd r c Hr Hc.
    rewrite (lift_mul_disjoint n ws vs A B), (lift_mul_disjoint n vs ws B A); auto.
    - replace (same_off (vs ++ ws) r c) with (same_off (ws ++ vs) r c).
      + destruct (same_off (ws ++ vs) r c); ring.
      + pose proof (bits_length _ _ Hr). pose proof (bits_length _ _ Hc).
        apply eq_true_iff_eq. rewrite !(same_off_spec n) by auto.
        split; intros H1 i Hi Hni; apply H1; auto; rewrite in_app_iff in *; tauto.
    - intros w H1 H2. apply (Hd w); auto.
  Qed.

  (** ** tensors and operators *)
  Lemma is_op_ext : forall n t A B, is_op n t A -> op_eq n A B -> is_op n t B.
  Proof. intros n t A B [H1 [H2 H3]] H. repeat split; auto. now rewrite H3. Qed.

  (** canonical tensor of an operator *)
  Definition op_tensor (n : nat) (A : qop) : tensor :=
    tbuild [(2 ^ n)%nat; (2 ^ n)%nat] (fun idx => A (bitsof n (nth 0 idx 0%nat)) (bitsof n (nth 1 idx 0%nat))).

  Lemma is_op_tensor : forall n A, is_op n (op_tensor n A) A.
  Proof.
    intros. repeat split. { apply tbuild_wf. } intros r c Hr Hc. unfold op_of, op_tensor.
    rewrite tget_tbuild.
    - cbn [nth]. now rewrite !bitsof_bval.
    - repeat (apply valid_cons; split); try (apply bval_lt; auto). constructor.
  Qed.

  Lemma is_op_eq : forall n t A, is_op n t A <-> t = op_tensor n A.
  Proof.
    intros n t A. split.
    - intros [H1 [H2 H3]]. rewrite (tensor_eta t H2), H1. unfold op_tensor. apply tbuild_ext.
      intros idx H. destruct idx as [|i [|j [|]]]; try solve [inversion H as [|? ? ? ? ? H']; inversion H' as [|? ? ? ? ? H'']; inversion H''].
      apply valid_cons in H. destruct H as [Hi H]. apply valid_cons in H. destruct H as [Hj _].
      cbn [nth]. rewrite <- H3 by (now apply bitsof_in). unfold op_of. now rewrite !bval_bitsof.
    - intros ->. apply is_op_tensor.
  Qed.

  Lemma op_tensor_ext : forall n A B, op_eq n A B -> op_tensor n A = op_tensor n B.
  Proof. intros. apply is_op_eq. eapply is_op_ext; [apply is_op_tensor|auto]. Qed.

  Lemma op_tensor_inj : forall n A B, op_tensor n A = op_tensor n B -> op_eq n A B.
  Proof.
    intros n A B H. destruct (is_op_tensor n A) as [_ [_ H1]]. destruct (is_op_tensor n B) as [_ [_ H2]].
    rewrite <- H1, <- H2, H. reflexivity.
  Qed.

  Lemma matmul_op : forall n A B, matmul (op_tensor n A) (op_tensor n B) = Ok (op_tensor n (mul_op n A B)).
  Proof.
    intros. unfold op_tensor. rewrite matmul_2d. f_equal. apply tbuild_ext. intros idx H.
    cbn [nth]. unfold mul_op. rewrite bits_map, bigsum_map. reflexivity.
  Qed.

  Lemma eye_op : forall n, eye (2 ^ n) = op_tensor n id_op.
  Proof.
    intros. apply is_op_eq. repeat split. { apply tbuild_wf. } intros r c Hr Hc. unfold op_of, eye.
    rewrite tget_tbuild.
    - cbn [nth]. unfold id_op. destruct (list_eq_dec Nat.eq_dec r c).
      + subst. now rewrite Nat.eqb_refl.
      + destruct (bval r =? bval c)%nat eqn:E; auto. apply Nat.eqb_eq in E. apply (bval_inj n) in E; auto. congruence.
    - repeat (apply valid_cons; split); try (apply bval_lt; auto). constructor.
  Qed.

  Lemma tadd_op : forall n A B, tadd (op_tensor n A) (op_tensor n B) = Ok (op_tensor n (fun r c => A r c + B r c)).
  Proof. intros. unfold op_tensor. now rewrite tadd_tbuild. Qed.
  Lemma tsub_op : forall n A B, tsub (op_tensor n A) (op_tensor n B) = Ok (op_tensor n (fun r c => A r c - B r c)).
  Proof. intros. unfold op_tensor. now rewrite tsub_tbuild. Qed.
  Lemma tscale_op : forall n z A, tscale z (op_tensor n A) = op_tensor n (fun r c => z * A r c).
  Proof. intros. unfold op_tensor. now rewrite tscale_tbuild. Qed.
  Lemma tconj_op : forall n A, tconj (op_tensor n A) = op_tensor n (fun r c => kconj (A r c)).
  Proof. intros. unfold op_tensor. now rewrite tconj_tbuild. Qed.
End SpecFacts.
