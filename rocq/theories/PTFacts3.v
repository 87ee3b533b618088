(** Lemmas: partial_trace_old and ptrace as matrix products; sorting; the recursion. *)
From Coq Require Import List ZArith QArith Lia Bool Arith Permutation Sorted.
From Verif Require Import PyBase Scalar BigSum Index Tensor TensorFacts Spec SpecFacts QMath PTSpec PTFacts1 PTFacts2.
Import ListNotations.
Local Close Scope Q_scope.
Local Open Scope nat_scope.

Lemma divmod_add : forall f D s, s < D -> (f * D + s) / D = f /\ (f * D + s) mod D = s.
Proof.
  intros f D s H. split.
  - rewrite Nat.div_add_l, Nat.div_small by lia. lia.
  - rewrite Nat.add_comm, Nat.mod_add, Nat.mod_small by lia. auto.
Qed.

Lemma filter_all : forall X (p : X -> bool) l, (forall x, In x l -> p x = true) -> filter p l = l.
Proof. induction l as [|x l IH]; intros H; cbn; auto. rewrite H by (now left). f_equal. apply IH. intros; apply H; now right. Qed.
Lemma filter_none : forall X (p : X -> bool) l, (forall x, In x l -> p x = false) -> filter p l = [].
Proof. induction l as [|x l IH]; intros H; cbn; auto. rewrite H by (now left). apply IH. intros; apply H; now right. Qed.

Section PTFacts.
  Context {SC : Scalar}.
  Add Ring KR : k_ring.
  Local Open Scope k_scope.

  Lemma tadd_0 : forall n A, tadd (mkT [] [k0]) (op_tensor n A) = Ok (op_tensor n A).
  Proof.
    intros n A. unfold tadd, map2b. cbn [shape]. change (shape (op_tensor n A)) with [2 ^ n; 2 ^ n]%nat. rewrite bcast_nil_l. f_equal. unfold op_tensor at 2.
    apply tbuild_ext. intros idx Hi. rewrite bidx_nil, bidx_same by auto. unfold op_tensor. rewrite tget_tbuild by auto. cbn. ring.
  Qed.

  (** the matrix of partial_trace_old for qubit q and bit b *)
  Lemma old_matrix : forall n q b, (q < n)%nat -> (b < 2)%nat -> exists e, tselect (eye 2) (Z.of_nat b) = Ok e /\
    kron (kron (eye (2 ^ q)) e) (eye (2 ^ (n - 1 - q))) = pick (n - 1) n (fun r => put n [q] r [b]).
  Proof.
    intros n q b H Hb. unfold eye at 1. rewrite select_tbuild by auto. eexists. split; [reflexivity|].
    unfold eye. rewrite kron_row, !kron_2d. unfold pick.
    replace (2 ^ q * 1 * 2 ^ (n - 1 - q))%nat with (2 ^ (n - 1))%nat by (rewrite Nat.mul_1_r, <- Nat.pow_add_r; f_equal; lia).
    replace (2 ^ q * 2 * 2 ^ (n - 1 - q))%nat with (2 ^ n)%nat by (replace n with (q + 1 + (n - 1 - q))%nat at 1 by lia; rewrite !Nat.pow_add_r; reflexivity).
    apply tbuild_ext. intros idx Hi. apply idx2 in Hi. destruct Hi as (i & j & -> & Hi & Hj). cbn [nth].
    rewrite Nat.div_1_r.
    set (D := (2 ^ (n - 1 - q))%nat). assert (HD : (0 < D)%nat) by (apply Nat.neq_0_lt_0, Nat.pow_nonzero; lia).
    assert (Hr := bitsof_in (n - 1) i Hi). set (r := bitsof (n - 1) i) in *. assert (Ei : i = bval r) by (symmetry; now apply bval_bitsof).
    rewrite put1 by (auto using bits_length). unfold ins. destruct (firstn_bits (n - 1) q r ltac:(lia) Hr) as [H1 H2].
    assert (Ef : (i / D = bval (firstn q r) /\ i mod D = bval (skipn q r))%nat).
    { rewrite Ei. rewrite <- (firstn_skipn q r) at 1 3. rewrite bval_app, (bits_length _ _ H2). fold D. apply bval_lt in H2. fold D in H2.
      now apply divmod_add. }
    destruct Ef as [E1 E2]. rewrite E1, E2. rewrite bval_app, bval_cons. cbn [length]. rewrite (bits_length _ _ H2). fold D.
    set (f := bval (firstn q r)). set (s := bval (skipn q r)).
    assert (Hs : (s < D)%nat) by (unfold s, D; now apply bval_lt).
    change (2 ^ S (n - 1 - q))%nat with (2 * D)%nat.
    destruct (j =? f * (2 * D) + (b * D + s))%nat eqn:E; [apply Nat.eqb_eq in E|apply Nat.eqb_neq in E].
    - replace (j / D)%nat with (f * 2 + b)%nat by (rewrite E; replace (f * (2 * D) + (b * D + s))%nat with ((f * 2 + b) * D + s)%nat by lia; rewrite Nat.div_add_l, Nat.div_small; lia).
      replace (j mod D)%nat with s by (rewrite E; replace (f * (2 * D) + (b * D + s))%nat with (s + (f * 2 + b) * D)%nat by lia; rewrite Nat.mod_add, Nat.mod_small; lia).
      rewrite Nat.div_add_l, Nat.div_small by lia. rewrite (Nat.add_comm (f * 2)), Nat.mod_add, Nat.mod_small by lia. rewrite Nat.add_0_r, !Nat.eqb_refl. ring.
    - destruct (f =? j / D / 2)%nat eqn:F1; [apply Nat.eqb_eq in F1|ring]. destruct (b =? (j / D) mod 2)%nat eqn:F2; [apply Nat.eqb_eq in F2|ring]. destruct (s =? j mod D)%nat eqn:F3; [apply Nat.eqb_eq in F3|ring].
      exfalso. apply E. rewrite (Nat.div_mod j D) at 1 by lia. rewrite (Nat.div_mod (j / D) 2) at 1 by lia. rewrite <- F1, <- F2, <- F3. lia.
  Qed.
  Lemma old_step : forall n q A, (q < n)%nat ->
    mfold (fun acc b => do e <- tselect (eye 2) (Z.of_nat b); let A0 := kron (kron (eye (2 ^ q)) e) (eye (2 ^ (n - 1 - q))) in
      do x <- matmul A0 (op_tensor n A); do Ad <- dag A0; do y <- matmul x Ad; tadd acc y) [0; 1]%nat (mkT [] [k0]) = Ok (op_tensor (n - 1) (ptr n [q] A)).
  Proof.
    intros n q A H.
    assert (S1 : forall acc b, (b < 2)%nat -> (do e <- tselect (eye 2) (Z.of_nat b); let A0 := kron (kron (eye (2 ^ q)) e) (eye (2 ^ (n - 1 - q))) in
      do x <- matmul A0 (op_tensor n A); do Ad <- dag A0; do y <- matmul x Ad; tadd acc y) = tadd acc (op_tensor (n - 1) (fun r c => A (put n [q] r [b]) (put n [q] c [b])))).
    { intros acc b Hb. destruct (old_matrix n q b H Hb) as (e & E1 & E2). rewrite E1. cbn [bind]. cbv zeta. rewrite E2.
      assert (G : forall r, In r (bits (n - 1)) -> In (put n [q] r [b]) (bits n)).
      { intros r Hr. apply put_bits; [now apply good1|auto|]. apply bits_cons. split; auto. now left. }
      rewrite (pick_mul (n - 1) n (fun r => put n [q] r [b]) A G). cbn [bind]. rewrite pick_dag. cbn [bind].
      rewrite (mul_pick (n - 1) n (fun r c => A (put n [q] r [b]) c) (fun r => put n [q] r [b]) G). reflexivity. }
    cbn [mfold]. rewrite S1 by lia. rewrite tadd_0. cbn [bind]. rewrite S1 by lia. rewrite tadd_op. cbn [bind]. f_equal.
    apply op_tensor_ext. intros r c Hr Hc. rewrite (ptr_put n [q]); auto using good1. cbn [length]. rewrite bigsum_bits_1. reflexivity.
  Qed.

  (** ptrace *)
  Lemma last_good : forall a b, good_wires (a + b) (seq a b).
  Proof. intros a b. split; [apply seq_NoDup|]. intros w Hw. apply in_seq in Hw. lia. Qed.
  Lemma kept_last : forall a b, kept (a + b) (seq a b) = seq 0 a.
  Proof.
    intros a b. unfold kept. rewrite seq_app, filter_app. cbn [plus].
    assert (X : forall i, existsb (Nat.eqb i) (seq a b) = true <-> In i (seq a b)).
    { intros i. rewrite existsb_exists. split; [intros (y & Hy & E); apply Nat.eqb_eq in E; now subst|]. intros Hi. exists i. split; auto. apply Nat.eqb_refl. }
    rewrite filter_all, filter_none; [apply app_nil_r| |].
    - intros x Hx. apply negb_false_iff. now apply X.
    - intros x Hx. apply negb_true_iff, not_true_iff_false. rewrite X. apply in_seq in Hx. rewrite in_seq. lia.
  Qed.
  Lemma put_last : forall a b r t, In r (bits a) -> In t (bits b) -> put (a + b) (seq a b) r t = r ++ t.
  Proof.
    intros a b r t Hr Ht. symmetry. apply bits_length in Hr, Ht. apply put_char; [apply last_good|rewrite app_length; lia| |].
    - rewrite kept_last. apply nth_ext with (d := 0%nat) (d' := 0%nat); rewrite rd_length, seq_length; [lia|]. intros i Hi. unfold rd. rewrite (nth_map' _ _ _ _ _ _ 0%nat) by (now rewrite seq_length).
      rewrite seq_nth by auto. cbn [plus]. apply app_nth1. lia.
    - apply nth_ext with (d := 0%nat) (d' := 0%nat); rewrite rd_length, seq_length; [lia|]. intros i Hi. unfold rd. rewrite (nth_map' _ _ _ _ _ _ 0%nat) by (now rewrite seq_length).
      rewrite seq_nth by auto. rewrite app_nth2 by lia. f_equal. lia.
  Qed.
  Lemma ptrace_row : forall a b k, (k < 2 ^ b)%nat -> exists row col, tselect (eye (2 ^ b)) (Z.of_nat k) = Ok row /\ view row [Z.of_nat (2 ^ b); 1%Z] = Ok col /\
    kron (eye (2 ^ a)) row = pick a (a + b) (fun r => r ++ bitsof b k) /\
    kron (eye (2 ^ a)) col = tbuild [(2 ^ (a + b))%nat; (2 ^ a)%nat] (fun idx => if (nth 0 idx 0 =? bval (bitsof a (nth 1 idx 0) ++ bitsof b k))%nat then 1 else 0).
  Proof.
    intros a b k Hk. unfold eye at 1. rewrite select_tbuild by auto. do 2 eexists. split; [reflexivity|]. split.
    { change [Z.of_nat (2 ^ b); 1%Z] with (map Z.of_nat [(2 ^ b)%nat; 1%nat]). rewrite view_tbuild_nat by (cbn; lia). reflexivity. }
    assert (HB : (0 < 2 ^ b)%nat) by (apply Nat.neq_0_lt_0, Nat.pow_nonzero; lia).
    assert (A1 : forall i j, (i < 2 ^ a)%nat -> (if (i =? j / 2 ^ b)%nat then 1 else 0) * (if (k =? j mod 2 ^ b)%nat then 1 else 0) = (if (j =? bval (bitsof a i ++ bitsof b k))%nat then 1 else 0)).
    { intros i j Hi. rewrite bval_app, !bval_bitsof, (bits_length _ _ (bitsof_in b k Hk)) by auto.
      destruct (j =? i * 2 ^ b + k)%nat eqn:E; [apply Nat.eqb_eq in E|apply Nat.eqb_neq in E].
      - rewrite E at 1 2. rewrite Nat.div_add_l, Nat.div_small by lia. rewrite (Nat.add_comm (i * 2 ^ b)), Nat.mod_add, Nat.mod_small by lia. rewrite Nat.add_0_r, !Nat.eqb_refl. ring.
      - destruct (i =? j / 2 ^ b)%nat eqn:F1; [apply Nat.eqb_eq in F1|ring]. destruct (k =? j mod 2 ^ b)%nat eqn:F2; [apply Nat.eqb_eq in F2|ring].
        exfalso. apply E. rewrite (Nat.div_mod j (2 ^ b)) at 1 by lia. lia. }
    split.
    - unfold eye. rewrite kron_row, kron_2d. unfold pick. rewrite Nat.mul_1_r, <- Nat.pow_add_r. apply tbuild_ext. intros idx Hi. apply idx2 in Hi. destruct Hi as (i & j & -> & Hi & Hj). cbn [nth].
      rewrite Nat.div_1_r. now apply A1.
    - unfold eye. rewrite kron_2d. rewrite Nat.mul_1_r, <- Nat.pow_add_r. apply tbuild_ext. intros idx Hi. apply idx2 in Hi. destruct Hi as (i & j & -> & Hi & Hj). cbn [nth].
      rewrite Nat.div_1_r, Nat.mod_1_r. rewrite <- A1 by auto. rewrite (Nat.eqb_sym (i / 2 ^ b)). f_equal.
      assert (HM : (i mod 2 ^ b < 2 ^ b)%nat) by (apply Nat.mod_upper_bound; lia). set (x := (i mod 2 ^ b)%nat) in *.
      replace (unflat [(2 ^ b)%nat] (flat [(2 ^ b)%nat; 1%nat] [x; 0%nat])) with [x]; [reflexivity|]. cbn [flat unflat prodn]. rewrite Nat.div_1_r. f_equal. lia.
  Qed.
  Lemma ptrace_ok : forall a b A, ptrace (op_tensor (a + b) A) a b = Ok (op_tensor a (ptr (a + b) (seq a b) A)).
  Proof.
    intros a b A. unfold ptrace.
    assert (S1 : forall acc k, (k < 2 ^ b)%nat -> (do row <- tselect (eye (2 ^ b)) (Z.of_nat k); do x <- matmul (kron (eye (2 ^ a)) row) (op_tensor (a + b) A);
      do col <- view row [Z.of_nat (2 ^ b); 1%Z]; do p <- matmul x (kron (eye (2 ^ a)) col); tadd acc p) = tadd acc (op_tensor a (fun r c => A (r ++ bitsof b k) (c ++ bitsof b k)))).
    { intros acc k Hk. destruct (ptrace_row a b k Hk) as (row & col & E1 & E2 & E3 & E4). rewrite E1. cbn [bind]. rewrite E3.
      assert (G : forall r, In r (bits a) -> In (r ++ bitsof b k) (bits (a + b))) by (intros r Hr; apply bits_app; auto using bitsof_in).
      rewrite (pick_mul a (a + b) (fun r => r ++ bitsof b k) A G). cbn [bind]. rewrite E2. cbn [bind]. rewrite E4.
      rewrite (mul_pick a (a + b) (fun r c => A (r ++ bitsof b k) c) (fun r => r ++ bitsof b k) G). reflexivity. }
    assert (G : forall l B, (forall k, In k l -> (k < 2 ^ b)%nat) -> mfold (fun pout i => do row <- tselect (eye (2 ^ b)) (Z.of_nat i); do x <- matmul (kron (eye (2 ^ a)) row) (op_tensor (a + b) A);
      do col <- view row [Z.of_nat (2 ^ b); 1%Z]; do p <- matmul x (kron (eye (2 ^ a)) col); tadd pout p) l (op_tensor a B) =
      Ok (op_tensor a (fun r c => B r c + bigsum l (fun k => A (r ++ bitsof b k) (c ++ bitsof b k))))).
    { induction l as [|k l IH]; intros B Hl.
      - cbn [mfold]. f_equal. apply op_tensor_ext. intros r c _ _. rewrite bigsum_nil. ring.
      - cbn [mfold]. rewrite S1 by (apply Hl; now left). rewrite tadd_op. cbn [bind]. rewrite IH by (intros; apply Hl; now right). f_equal. apply op_tensor_ext. intros r c _ _. rewrite bigsum_cons. ring. }
    assert (HB : (0 < 2 ^ b)%nat) by (apply Nat.neq_0_lt_0, Nat.pow_nonzero; lia).
    assert (ES : seq 0 (2 ^ b) = (0 :: seq 1 (2 ^ b - 1))%nat) by (destruct (2 ^ b)%nat; [lia|cbn; f_equal; f_equal; lia]).
    rewrite ES. cbn [mfold]. rewrite S1 by lia. rewrite tadd_0. cbn [bind].
    rewrite G by (intros k Hk; apply in_seq in Hk; lia). f_equal. apply op_tensor_ext. intros r c Hr Hc.
    rewrite ptr_put by (try apply last_good; rewrite seq_length; replace (a + b - b)%nat with a by lia; auto). rewrite seq_length.
    rewrite bits_map, bigsum_map, ES. rewrite bigsum_cons. rewrite !put_last by (auto; apply bitsof_in; lia). f_equal.
    apply bigsum_ext. intros k Hk. apply in_seq in Hk. rewrite !put_last by (auto; apply bitsof_in; lia). reflexivity.
  Qed.
End PTFacts.
