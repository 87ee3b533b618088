(** Lemmas: products of 2x2 factors and the operators they expand to. *)
From Coq Require Import List ZArith QArith Lia Bool Arith Permutation Ring Setoid Morphisms.
From Verif Require Import PyBase Scalar BigSum Index Tensor TensorFacts Spec SpecFacts QMath QTN QOperator.
Import ListNotations.
Local Close Scope Q_scope.
Local Open Scope nat_scope.

Lemma bitsof_length : forall n k, k < 2 ^ n -> length (bitsof n k) = n.
Proof. intros. eapply bits_length, bitsof_in; auto. Qed.

Lemma bitsof_add : forall m n k, k < 2 ^ (m + n) ->
  bitsof (m + n) k = bitsof m (k / 2 ^ n) ++ bitsof n (k mod 2 ^ n).
Proof.
  intros m n k H.
  assert (Hp : 2 ^ n <> 0) by (apply Nat.pow_nonzero; lia).
  assert (H1 : k / 2 ^ n < 2 ^ m) by (apply Nat.div_lt_upper_bound; [lia|]; rewrite <- Nat.pow_add_r, Nat.add_comm; auto).
  assert (H2 : k mod 2 ^ n < 2 ^ n) by (now apply Nat.mod_upper_bound).
  apply (bval_inj (m + n)).
  - now apply bitsof_in.
  - apply bits_app; now apply bitsof_in.
  - rewrite bval_app, bitsof_length, !bval_bitsof by auto.
    rewrite (Nat.div_mod k (2 ^ n)) at 1 by auto. lia.
Qed.

(** the wires not in ws, in increasing order *)
Definition others (n : nat) (ws : list nat) : list nat := filter (fun i => negb (existsb (Nat.eqb i) ws)) (seq 0 n).

Lemma existsb_eqb_In : forall i ws, existsb (Nat.eqb i) ws = true <-> In i ws.
Proof.
  intros. rewrite existsb_exists. split.
  - intros [x [H1 H2]]. apply Nat.eqb_eq in H2. now subst.
  - intros H. exists i. split; auto. apply Nat.eqb_refl.
Qed.

Lemma in_others : forall n ws i, In i (others n ws) <-> i < n /\ ~ In i ws.
Proof.
  intros. unfold others. rewrite filter_In, in_seq, negb_true_iff, <- not_true_iff_false, existsb_eqb_In.
  split; intros [? ?]; split; auto; lia.
Qed.

Lemma others_NoDup : forall n ws, NoDup (others n ws).
Proof. intros. apply NoDup_filter, seq_NoDup. Qed.

Lemma others_perm : forall n ws, good_wires n ws -> Permutation (seq 0 n) (others n ws ++ ws).
Proof.
  intros n ws [Hn Hl]. apply NoDup_Permutation; auto using seq_NoDup.
  - apply NoDup_app_intro; auto using others_NoDup. intros x Hx. apply in_others in Hx. tauto.
  - intros x. rewrite in_app_iff, in_others, in_seq. split.
    + intros H. destruct (in_dec Nat.eq_dec x ws); auto. left. split; auto; lia.
    + intros [H|H]; [lia|]. apply Hl in H. lia.
Qed.

Lemma map_nth_seq : forall A (l : list A) d, map (fun k => nth k l d) (seq 0 (length l)) = l.
Proof.
  intros. apply nth_ext with (d := d) (d' := d).
  - now rewrite map_length, seq_length.
  - intros k Hk. rewrite map_length, seq_length in Hk.
    rewrite (nth_map' _ _ _ _ _ _ 0) by now rewrite seq_length. now rewrite seq_nth.
Qed.

Section ExpandFacts.
  Context {SC : Scalar}.
  Add Ring KR : k_ring.
  Local Open Scope k_scope.

  Lemma kron_op : forall m n A B,
    kron (op_tensor m A) (op_tensor n B) =
    op_tensor (m + n) (fun r c => A (firstn m r) (firstn m c) * B (skipn m r) (skipn m c)).
  Proof.
    intros m n A B. unfold op_tensor. rewrite kron_2d. rewrite <- !Nat.pow_add_r.
    apply tbuild_ext. intros idx Hv. cbn [nth].
    assert (L : length idx = 2%nat) by (now apply valid_length in Hv).
    destruct idx as [|i [|j [|? ?]]]; try discriminate.
    apply valid_cons in Hv. destruct Hv as [Hi Hv]. apply valid_cons in Hv. destruct Hv as [Hj _].
    cbn [nth]. rewrite !bitsof_add by auto.
    assert (Hp : (2 ^ n)%nat <> 0%nat) by (apply Nat.pow_nonzero; lia).
    assert (Hd : forall k, (k < 2 ^ (m + n))%nat -> length (bitsof m (k / 2 ^ n)) = m).
    { intros k Hk. apply bitsof_length. apply Nat.div_lt_upper_bound; [lia|].
      rewrite <- Nat.pow_add_r, Nat.add_comm; auto. }
    rewrite !firstn_app, !skipn_app, !Hd, !Nat.sub_diag by auto.
    rewrite !firstn_O, !skipn_O, !app_nil_r.
    rewrite !firstn_all2, !skipn_all2 by (rewrite Hd; auto). reflexivity.
  Qed.

  (** product of one-qubit factors, factor i acting on qubit i *)
  Definition prod_of (n : nat) (F : nat -> qop) : qop :=
    fun r c => bigprod (seq 0 n) (fun i => F i [nth i r 0%nat] [nth i c 0%nat]).

  Lemma bigprod_seq_shift : forall n f,
    bigprod (seq 0 (S n)) f = f 0%nat * bigprod (seq 0 n) (fun i => f (S i)).
  Proof. intros. cbn [seq]. rewrite bigprod_cons, <- seq_shift, bigprod_map. reflexivity. Qed.

  Lemma fold_kron_op : forall Fs m A,
    fold_left kron (map (op_tensor 1) Fs) (op_tensor m A) =
    op_tensor (m + length Fs) (fun r c =>
      A (firstn m r) (firstn m c) * prod_of (length Fs) (fun i => nth i Fs id_op) (skipn m r) (skipn m c)).
  Proof.
    induction Fs as [|F Fs IH]; intros m A.
    - cbn. rewrite Nat.add_0_r. apply op_tensor_ext. intros r c Hr Hc.
      rewrite !firstn_all2 by (rewrite (bits_length m); auto). unfold prod_of. cbn. ring.
    - cbn [map fold_left]. rewrite kron_op, IH. cbn [length].
      replace (m + 1 + length Fs)%nat with (m + S (length Fs))%nat by lia.
      apply op_tensor_ext. intros r c Hr Hc.
      pose proof (bits_length _ _ Hr) as Lr. pose proof (bits_length _ _ Hc) as Lc.
      rewrite !firstn_firstn. replace (Nat.min m (m + 1)) with m by lia.
      unfold prod_of. rewrite bigprod_seq_shift. cbn [nth].
      assert (E1 : forall x : list nat, length x = (m + S (length Fs))%nat ->
                 skipn m (firstn (m + 1) x) = [nth 0 (skipn m x) 0%nat]).
      { intros x Lx. rewrite skipn_firstn_comm. replace (m + 1 - m)%nat with 1%nat by lia.
        assert (L : length (skipn m x) = S (length Fs)) by (rewrite skipn_length; lia).
        destruct (skipn m x); [discriminate|]. reflexivity. }
      rewrite !E1 by auto.
      assert (E2 : forall (x : list nat) i, nth i (skipn (m + 1) x) 0%nat = nth (S i) (skipn m x) 0%nat).
      { intros x i. rewrite !nth_skipn'. f_equal. lia. }
      transitivity (A (firstn m r) (firstn m c) * (F [nth 0 (skipn m r) 0%nat] [nth 0 (skipn m c) 0%nat] *
         bigprod (seq 0 (length Fs)) (fun i => nth i Fs id_op [nth i (skipn (m + 1) r) 0%nat] [nth i (skipn (m + 1) c) 0%nat]))).
      { ring. }
      f_equal. f_equal. apply bigprod_ext. intros i _. now rewrite !E2.
  Qed.

  Lemma multi_kron_op : forall Fs, Fs <> [] ->
    multi_kron (map (op_tensor 1) Fs) = Ok (op_tensor (length Fs) (prod_of (length Fs) (fun i => nth i Fs id_op))).
  Proof.
    intros [|F Fs] H; [congruence|]. cbn [map multi_kron]. rewrite fold_kron_op. f_equal.
    apply op_tensor_ext. intros r c Hr Hc.
    pose proof (bits_length _ _ Hr) as Lr. pose proof (bits_length _ _ Hc) as Lc.
    destruct r as [|x r]; [discriminate|]. destruct c as [|y c]; [discriminate|].
    unfold prod_of. cbn [length]. rewrite bigprod_seq_shift. cbn [nth firstn skipn]. reflexivity.
  Qed.

  Lemma prod_of_ext : forall n F G, (forall i, i < n -> op_eq 1 (F i) (G i))%nat -> op_eq n (prod_of n F) (prod_of n G).
  Proof.
    intros n F G H r c Hr Hc. unfold prod_of. apply bigprod_ext. intros i Hi. apply in_seq in Hi.
    apply H; [lia| |]; apply in_bits; split; auto; intros [|k] Hk; try lia; cbn.
    - apply in_bits in Hr. apply Hr; lia.
    - apply in_bits in Hc. apply Hc; lia.
  Qed.

  (** factors that are the identity off ws *)
  Lemma prod_lift : forall n F ws, good_wires n ws -> (forall i, (i < n)%nat -> ~ In i ws -> F i = id_op) ->
    op_eq n (prod_of n F)
      (lift (fun r c => bigprod (seq 0 (length ws)) (fun k => F (nth k ws 0%nat) [nth k r 0%nat] [nth k c 0%nat])) ws).
  Proof.
    intros n F ws Hw Hid r c Hr Hc. unfold prod_of, lift.
    pose proof (bits_length _ _ Hr) as Lr. pose proof (bits_length _ _ Hc) as Lc.
    assert (O1 : forall x, id_op [x] [x] = 1).
    { intros x. unfold id_op. destruct (list_eq_dec Nat.eq_dec [x] [x]); congruence. }
    destruct (same_off ws r c) eqn:E.
    - pose proof (proj1 (same_off_spec n ws r c Lr) E) as Hs.
      rewrite (bigprod_perm _ _ _ _ (others_perm n ws Hw)), bigprod_app.
      rewrite (bigprod_ext _ (others n ws) _ (fun _ => 1)), bigprod_1.
      + transitivity (bigprod (map (fun k => nth k ws 0%nat) (seq 0 (length ws)))
                        (fun i => F i [nth i r 0%nat] [nth i c 0%nat])).
        * rewrite map_nth_seq. ring.
        * rewrite bigprod_map. apply bigprod_ext. intros k Hk. apply in_seq in Hk.
          unfold rd. rewrite !(nth_map' _ _ _ ws _ _ 0%nat) by lia. reflexivity.
      + intros i Hi. apply in_others in Hi. rewrite Hid, Hs by tauto. apply O1.
    - assert (D : exists i, (i < n)%nat /\ ~ In i ws /\ nth i r 0%nat <> nth i c 0%nat).
      { unfold same_off in E. rewrite Lr in E.
        assert (X : existsb (fun i => negb (existsb (Nat.eqb i) ws || (nth i r 0 =? nth i c 0)%nat)) (seq 0 n) = true).
        { clear - E. induction (seq 0 n); simpl in *; [discriminate|].
          destruct (_ || _); simpl in *; auto. }
        apply existsb_exists in X. destruct X as [i [Hi Hx]]. apply in_seq in Hi.
        apply negb_true_iff, orb_false_iff in Hx. destruct Hx as [H1 H2]. exists i. split; [lia|]. split.
        - intros H. assert (existsb (Nat.eqb i) ws = true) by (apply existsb_exists; exists i; split; auto; apply Nat.eqb_refl). congruence.
        - now apply Nat.eqb_neq in H2. }
      destruct D as [i [Hi [Hni Hne]]].
      apply (bigprod_zero _ _ _ i). { apply in_seq; lia. }
      rewrite Hid by auto. unfold id_op. destruct (list_eq_dec Nat.eq_dec [nth i r 0%nat] [nth i c 0%nat]); congruence.
  Qed.

  (** ** controls *)
  Lemma all_one_same_off : forall n ws cs r c, length r = n -> (forall w, In w cs -> w < n)%nat ->
    (forall w, In w cs -> ~ In w ws) -> same_off ws r c = true -> all_one cs r = all_one cs c.
  Proof.
    intros n ws cs r c Lr Hc Hd Hs. pose proof (proj1 (same_off_spec n ws r c Lr) Hs) as H.
    unfold all_one. induction cs as [|w cs IH]; simpl; auto.
    rewrite H by (try apply Hd; try apply Hc; simpl; auto). f_equal. apply IH; intros; [apply Hc|apply Hd]; simpl; auto.
  Qed.

  Lemma ctrl_ext : forall n cs A B, op_eq n A B -> op_eq n (ctrl cs A) (ctrl cs B).
  Proof. intros n cs A B H r c Hr Hc. unfold ctrl. destruct (all_one cs c); auto. Qed.

  Lemma id_op_refl : forall r, id_op r r = 1.
  Proof. intros. unfold id_op. destruct (list_eq_dec Nat.eq_dec r r); congruence. Qed.
  Lemma id_op_ne : forall r c, r <> c -> id_op r c = 0.
  Proof. intros. unfold id_op. destruct (list_eq_dec Nat.eq_dec r c); congruence. Qed.

  Lemma ctrl_mul : forall n cs ws A B, good_wires n ws -> (forall w, In w cs -> w < n)%nat ->
    (forall w, In w cs -> ~ In w ws) ->
    op_eq n (mul_op n (ctrl cs (lift A ws)) (ctrl cs (lift B ws))) (ctrl cs (lift (mul_op (length ws) A B) ws)).
  Proof.
    intros n cs ws A B Hw Hc Hd.
    intros r c Hr Hcc. unfold mul_op at 1. unfold ctrl at 3.
    destruct (all_one cs c) eqn:E.
    - rewrite <- (lift_mul n ws A B Hw r c Hr Hcc). unfold mul_op. apply bigsum_ext. intros m Hm.
      unfold ctrl. rewrite E. unfold lift at 2 4. destruct (same_off ws m c) eqn:S; [|ring].
      rewrite (all_one_same_off n ws cs m c), E by (auto using bits_length). reflexivity.
    - rewrite (bigsum_single _ _ c); auto using bits_NoDup.
      + unfold ctrl. rewrite E, id_op_refl. ring.
      + intros m Hm Hne. unfold ctrl. rewrite E, (id_op_ne m c) by auto. ring.
  Qed.

  Lemma ctrl_id : forall n cs, op_eq n (ctrl cs id_op) id_op.
  Proof. intros n cs r c _ _. unfold ctrl. destruct (all_one cs c); auto. Qed.

  Lemma id_op_sym : forall r c, id_op r c = id_op c r.
  Proof. intros. unfold id_op. destruct (list_eq_dec Nat.eq_dec r c), (list_eq_dec Nat.eq_dec c r); congruence. Qed.
  Lemma id_op_conj : forall r c, kconj (id_op r c) = id_op r c.
  Proof. intros. unfold id_op. destruct (list_eq_dec Nat.eq_dec r c); auto using kconj_0, kconj_1. Qed.

  Lemma ctrl_adj : forall n cs ws A, good_wires n ws -> (forall w, In w cs -> w < n)%nat ->
    (forall w, In w cs -> ~ In w ws) ->
    op_eq n (adj_op (ctrl cs (lift A ws))) (ctrl cs (lift (adj_op A) ws)).
  Proof.
    intros n cs ws A Hw Hc Hd r c Hr Hcc. rewrite <- (ctrl_ext n cs _ _ (lift_adj n ws A) r c Hr Hcc).
    unfold adj_op, ctrl. unfold lift. destruct (same_off ws c r) eqn:S.
    - rewrite (all_one_same_off n ws cs c r) by (auto using bits_length).
      destruct (all_one cs r); auto. rewrite id_op_conj. apply id_op_sym.
    - rewrite id_op_conj || idtac. assert (r <> c). { intros ->. now rewrite same_off_refl in S. }
      destruct (all_one cs r), (all_one cs c); rewrite ?kconj_0, ?id_op_conj, ?id_op_ne by auto; auto.
  Qed.

  Lemma ctrl_unitary : forall n cs ws A, good_wires n ws -> (forall w, In w cs -> w < n)%nat ->
    (forall w, In w cs -> ~ In w ws) -> unitary (length ws) A -> unitary n (ctrl cs (lift A ws)).
  Proof.
    intros n cs ws A Hw Hc Hd [U1 U2]. split.
    - rewrite ctrl_adj, ctrl_mul by auto. rewrite <- (ctrl_id n cs) . apply ctrl_ext.
      rewrite <- (lift_id n ws Hw). apply lift_ext; auto. apply Hw.
    - rewrite ctrl_adj, ctrl_mul by auto. rewrite <- (ctrl_id n cs) . apply ctrl_ext.
      rewrite <- (lift_id n ws Hw). apply lift_ext; auto. apply Hw.
  Qed.

  Global Instance add_op_proper n : Proper (op_eq n ==> op_eq n ==> op_eq n) add_op.
  Proof. intros A A' HA B B' HB r c Hr Hc. unfold add_op. now rewrite HA, HB. Qed.
  Global Instance scale_op_proper n : Proper (eq ==> op_eq n ==> op_eq n) scale_op.
  Proof. intros z z' Hz A A' HA r c Hr Hc. unfold scale_op. subst. now rewrite HA. Qed.
End ExpandFacts.
