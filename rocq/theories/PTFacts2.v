(** Lemmas: one step of partial_trace, partial_trace_old and ptrace. *)
From Coq Require Import List ZArith QArith Lia Bool Arith Permutation.
From Verif Require Import PyBase Scalar BigSum Index Tensor TensorFacts Spec SpecFacts QMath PTSpec PTFacts1.
Import ListNotations.
Local Close Scope Q_scope.
Local Open Scope nat_scope.

Lemma seq_split : forall n q, q < n -> seq 0 n = seq 0 q ++ q :: seq (S q) (n - 1 - q).
Proof.
  intros n q H. replace n with (q + S (n - 1 - q)) at 1 by lia. rewrite seq_app. cbn. reflexivity.
Qed.
Lemma kept1 : forall n q, q < n -> kept n [q] = seq 0 q ++ seq (S q) (n - 1 - q).
Proof.
  intros n q H. unfold kept. rewrite (seq_split n q H), filter_app. cbn [filter existsb]. rewrite Nat.eqb_refl. cbn [orb negb].
  assert (G : forall l, (forall i, In i l -> i <> q) -> filter (fun i => negb ((i =? q) || false)) l = l).
  { induction l as [|a l IH]; intros Hl; cbn; auto. assert (a <> q) by (apply Hl; now left). apply Nat.eqb_neq in H0. rewrite H0. cbn. f_equal. apply IH. intros; apply Hl; now right. }
  f_equal; apply G; intros i Hi; apply in_seq in Hi; lia.
Qed.
Lemma good1 : forall n q, q < n -> good_wires n [q].
Proof. intros n q H. split; [repeat constructor; auto|]. intros w [<-|[]]; auto. Qed.
Lemma nth_kept1 : forall n q j, q < n -> j < n - 1 -> nth j (kept n [q]) 0 = if j <? q then j else S j.
Proof.
  intros n q j H Hj. rewrite kept1 by auto. destruct (j <? q) eqn:E; [apply Nat.ltb_lt in E|apply Nat.ltb_ge in E].
  - rewrite app_nth1 by (now rewrite seq_length). now rewrite seq_nth.
  - rewrite app_nth2 by (now rewrite seq_length). rewrite seq_length, seq_nth by lia. lia.
Qed.

(** the string with a bit inserted at position q *)
Definition ins (q b : nat) (r : list nat) : list nat := firstn q r ++ b :: skipn q r.
Lemma put1 : forall n q b r, q < n -> length r = n - 1 -> put n [q] r [b] = ins q b r.
Proof.
  intros n q b r H L. symmetry. apply put_char; [now apply good1| | |].
  - unfold ins. rewrite app_length. cbn [length]. rewrite firstn_length, skipn_length. lia.
  - apply nth_ext with (d := 0) (d' := 0); rewrite rd_length, kept_length by (now apply good1); cbn [length]; [lia|].
    intros j Hj. unfold rd. rewrite (nth_map' _ _ _ _ _ _ 0) by (rewrite kept_length by (now apply good1); cbn [length]; lia). rewrite nth_kept1 by lia. unfold ins.
    destruct (j <? q) eqn:E; [apply Nat.ltb_lt in E|apply Nat.ltb_ge in E].
    + rewrite app_nth1 by (rewrite firstn_length; lia). now apply nth_firstn'.
    + rewrite app_nth2 by (rewrite firstn_length; lia). rewrite firstn_length. replace (S j - Nat.min q (length r)) with (S (j - q)) by lia. cbn [nth]. rewrite nth_skipn'. f_equal. lia.
  - unfold rd, ins. cbn [map]. rewrite app_nth2 by (rewrite firstn_length; lia). rewrite firstn_length. replace (q - Nat.min q (length r)) with 0 by lia. reflexivity.
Qed.
Lemma firstn_bits : forall n q r, q <= n -> In r (bits n) -> In (firstn q r) (bits q) /\ In (skipn q r) (bits (n - q)).
Proof.
  intros n q r H Hr. apply in_bits in Hr. destruct Hr as [L B]. split; apply in_bits.
  - rewrite firstn_length. split; [lia|]. intros i Hi. rewrite nth_firstn' by auto. apply B. lia.
  - rewrite skipn_length. split; [lia|]. intros i Hi. rewrite nth_skipn'. apply B. lia.
Qed.

Lemma index_lst_length : forall n q b, q < n -> length (index_lst n q b) = 2 ^ (n - 1).
Proof.
  intros n q b H. unfold index_lst. replace (2 ^ (n - 1)) with (2 ^ q * 2 ^ (n - q - 1)) by (rewrite <- Nat.pow_add_r; f_equal; lia).
  rewrite <- (seq_length (2 ^ q) 0) at 2. induction (seq 0 (2 ^ q)) as [|a l IH]; cbn [flat_map length]; auto. rewrite app_length, map_length, seq_length, IH. lia.
Qed.
Lemma index_lst_nth : forall n q b r, q < n -> In r (bits (n - 1)) -> nth (bval r) (index_lst n q b) 0 = bval (put n [q] r [b]).
Proof.
  intros n q b r H Hr. rewrite put1 by (auto using bits_length). unfold ins. destruct (firstn_bits (n - 1) q r ltac:(lia) Hr) as [H1 H2].
  rewrite <- (firstn_skipn q r) at 1. set (f := firstn q r) in *. set (s := skipn q r) in *. rewrite !bval_app, bval_cons. cbn [length].
  rewrite (bits_length _ _ H2). unfold index_lst.
  replace (n - 1 - q) with (n - q - 1) by lia. replace (n - 1 - q) with (n - q - 1) in H2 by lia.
  rewrite (nth_flat_map_const _ _ _ _ (2 ^ (n - q - 1)) (bval f) (bval s) 0 0).
  - rewrite seq_nth by (now apply bval_lt). rewrite (nth_map' _ _ _ _ _ _ 0) by (rewrite seq_length; now apply bval_lt). rewrite seq_nth by (now apply bval_lt). cbn [plus].
    replace (2 ^ (n - q)) with (2 ^ S (n - q - 1)) by (f_equal; lia). lia.
  - intros a _. now rewrite map_length, seq_length.
  - rewrite seq_length. now apply bval_lt.
  - now apply bval_lt.
Qed.

Section PTFacts.
  Context {SC : Scalar}.
  Add Ring KR : k_ring.
  Local Open Scope k_scope.

  Lemma trace_op_tensor : forall n A, ttrace (op_tensor n A) = Ok (trace_op n A).
  Proof.
    intros n A. unfold ttrace, op_tensor, trace_op. cbn [shape tbuild]. rewrite Nat.min_id, bits_map, bigsum_map. f_equal. apply bigsum_ext. intros i Hi. apply in_seq in Hi.
    change (tget (op_tensor n A) [i; i] = A (bitsof n i) (bitsof n i)). unfold op_tensor. rewrite tget_tbuild; auto. repeat (apply valid_cons; split; [lia|]). constructor.
  Qed.

  Lemma idx2 : forall m n idx, valid [m; n] idx -> exists i j, idx = [i; j] /\ (i < m)%nat /\ (j < n)%nat.
  Proof.
    intros m n idx H. destruct idx as [|i [|j [|]]]; try solve [inversion H as [|? ? ? ? ? H']; inversion H' as [|? ? ? ? ? H'']; inversion H''].
    apply valid_cons in H. destruct H as [H1 H2]. apply valid_cons in H2. destruct H2 as [H2 _]. eauto.
  Qed.

  (** keeping the rows and columns listed in l *)
  Lemma select_rc : forall n m A l (g : list nat -> list nat), length l = (2 ^ m)%nat -> (forall r, In r (bits m) -> nth (bval r) l 0%nat = bval (g r) /\ In (g r) (bits n)) ->
    exists M, index_select (op_tensor n A) 0 l = Ok M /\ index_select M 1 l = Ok (op_tensor m (fun r c => A (g r) (g c))).
  Proof.
    intros n m A l g L H.
    assert (G : forall k, (k < 2 ^ m)%nat -> nth k l 0%nat = bval (g (bitsof m k)) /\ In (g (bitsof m k)) (bits n)).
    { intros k Hk. rewrite <- (bval_bitsof m k) at 1 by auto. apply H. now apply bitsof_in. }
    assert (E : ((length l =? 0)%nat || existsb (fun i => (2 ^ n <=? i)%nat) l)%bool = false).
    { apply orb_false_iff. split. { rewrite L. apply Nat.eqb_neq. apply Nat.pow_nonzero. discriminate. }
      apply not_true_iff_false. intros X. apply existsb_exists in X. destruct X as (x & Hx & X). apply Nat.leb_le in X. apply In_nth with (d := 0%nat) in Hx. destruct Hx as (k & Hk & <-).
      rewrite L in Hk. destruct (G k Hk) as [E1 E2]. apply bval_lt in E2. lia. }
    exists (tbuild [length l; 2 ^ n]%nat (fun idx => tget (op_tensor n A) (set_nth 0 (nth (nth 0 idx 0%nat) l 0%nat) idx))). split.
    { unfold index_select. change (shape (op_tensor n A)) with [2 ^ n; 2 ^ n]%nat. cbn [nth_error set_nth]. now rewrite E. }
    unfold index_select. rewrite tbuild_shape. cbn [nth_error set_nth]. rewrite E. f_equal. unfold op_tensor at 2. rewrite L.
    apply tbuild_ext. intros idx Hi. apply idx2 in Hi. destruct Hi as (i & j & -> & Hi & Hj). cbn [nth set_nth].
    destruct (G i Hi) as [E1 E2]. destruct (G j Hj) as [E3 E4]. rewrite tget_tbuild.
    2:{ repeat (apply valid_cons; split); try constructor; auto. rewrite E3. now apply bval_lt. }
    cbn [nth set_nth]. unfold op_tensor. rewrite tget_tbuild.
    2:{ repeat (apply valid_cons; split); try constructor; auto; rewrite ?E1, ?E3; now apply bval_lt. }
    cbn [nth]. rewrite E1, E3, !bitsof_bval; auto.
  Qed.

  (** one step of partial_trace *)
  Lemma pt_step : forall n q A, (q < n)%nat -> exists M0 M1 M00 M11,
    index_select (op_tensor n A) 0 (index_lst n q 0) = Ok M0 /\ index_select (op_tensor n A) 0 (index_lst n q 1) = Ok M1 /\
    index_select M0 1 (index_lst n q 0) = Ok M00 /\ index_select M1 1 (index_lst n q 1) = Ok M11 /\
    tadd M00 M11 = Ok (op_tensor (n - 1) (ptr n [q] A)).
  Proof.
    intros n q A H. assert (S1 : forall b, (b < 2)%nat -> exists M, index_select (op_tensor n A) 0 (index_lst n q b) = Ok M /\
      index_select M 1 (index_lst n q b) = Ok (op_tensor (n - 1) (fun r c => A (put n [q] r [b]) (put n [q] c [b])))).
    { intros b Hb. apply (select_rc n (n - 1) A (index_lst n q b) (fun r => put n [q] r [b])); [now apply index_lst_length|]. intros r Hr. split; [now apply index_lst_nth|].
      apply put_bits; [now apply good1|auto|]. apply bits_cons. split; auto. now left. }
    destruct (S1 0%nat ltac:(lia)) as (M0 & E0 & F0). destruct (S1 1%nat ltac:(lia)) as (M1 & E1 & F1). do 4 eexists. repeat split; eauto.
    rewrite tadd_op. f_equal. apply op_tensor_ext. intros r c Hr Hc. rewrite (ptr_put n [q]); auto using good1. cbn [length]. rewrite bigsum_bits_1. reflexivity.
  Qed.

  (** kron of a matrix and a vector *)
  Lemma kron_row : forall m n q f g, kron (tbuild [m; n] f) (tbuild [q] g) = kron (tbuild [m; n] f) (tbuild [1%nat; q] (fun idx => g [nth 1 idx 0%nat])).
  Proof.
    intros. unfold kron, rank, padl. cbn [shape tbuild length Nat.max Nat.sub repeat app data]. apply tbuild_ext. intros idx Hi. f_equal. f_equal. f_equal.
    cbn [all_idx seq flat_map]. rewrite app_nil_r, map_map. rewrite !flat_map_concat_map, !concat_map, !map_map. f_equal.
  Qed.

  (** products with the 0/1 matrix that selects rows and columns *)
  Definition pick (m n : nat) (g : list nat -> list nat) : tensor :=
    tbuild [(2 ^ m)%nat; (2 ^ n)%nat] (fun idx => if (nth 1 idx 0 =? bval (g (bitsof m (nth 0 idx 0))))%nat then 1 else 0).
  Lemma pick_dag : forall m n g, dag (pick m n g) = Ok (tbuild [(2 ^ n)%nat; (2 ^ m)%nat] (fun idx => if (nth 0 idx 0 =? bval (g (bitsof m (nth 1 idx 0))))%nat then 1 else 0)).
  Proof.
    intros. unfold dag, pick. cbn [shape tbuild length Nat.eqb negb raise_if].
    change (mkT [(2 ^ m)%nat; (2 ^ n)%nat] (map (fun idx => if (nth 1 idx 0 =? bval (g (bitsof m (nth 0 idx 0))))%nat then 1 else 0) (all_idx [(2 ^ m)%nat; (2 ^ n)%nat]))) with (pick m n g).
    unfold pick. rewrite tconj_tbuild. change [1%Z; 0%Z] with (map Z.of_nat [1; 0]%nat). rewrite permute_tbuild by (cbn; apply perm_swap). cbn [map nth]. f_equal. apply tbuild_ext. intros idx Hi.
    apply idx2 in Hi. destruct Hi as (i & j & -> & _ & _). cbn. destruct (_ =? _)%nat; [apply kconj_1|apply kconj_0].
  Qed.
  Lemma pick_mul : forall m n g A, (forall r, In r (bits m) -> In (g r) (bits n)) ->
    matmul (pick m n g) (op_tensor n A) = Ok (tbuild [(2 ^ m)%nat; (2 ^ n)%nat] (fun idx => A (g (bitsof m (nth 0 idx 0%nat))) (bitsof n (nth 1 idx 0%nat)))).
  Proof.
    intros m n g A H. unfold pick, op_tensor. rewrite matmul_2d. f_equal. apply tbuild_ext. intros idx Hi. apply idx2 in Hi. destruct Hi as (i & j & -> & Hi & Hj). cbn [nth].
    assert (B := H _ (bitsof_in m i Hi)). rewrite (bigsum_single _ _ (bval (g (bitsof m i)))).
    - rewrite Nat.eqb_refl, bitsof_bval by auto. ring.
    - apply seq_NoDup.
    - apply in_seq. apply bval_lt in B. lia.
    - intros k Hk N. apply Nat.eqb_neq in N. rewrite N. ring.
  Qed.
  Lemma mul_pick : forall m n (h : list nat -> list nat -> K) g, (forall r, In r (bits m) -> In (g r) (bits n)) ->
    matmul (tbuild [(2 ^ m)%nat; (2 ^ n)%nat] (fun idx => h (bitsof m (nth 0 idx 0%nat)) (bitsof n (nth 1 idx 0%nat))))
      (tbuild [(2 ^ n)%nat; (2 ^ m)%nat] (fun idx => if (nth 0 idx 0 =? bval (g (bitsof m (nth 1 idx 0))))%nat then 1 else 0)) =
    Ok (op_tensor m (fun r c => h r (g c))).
  Proof.
    intros m n h g H. rewrite matmul_2d. f_equal. unfold op_tensor. apply tbuild_ext. intros idx Hi. apply idx2 in Hi. destruct Hi as (i & j & -> & Hi & Hj). cbn [nth].
    assert (B := H _ (bitsof_in m j Hj)). rewrite (bigsum_single _ _ (bval (g (bitsof m j)))).
    - rewrite Nat.eqb_refl, bitsof_bval by auto. ring.
    - apply seq_NoDup.
    - apply in_seq. apply bval_lt in B. lia.
    - intros k Hk N. apply Nat.eqb_neq in N. rewrite N. ring.
  Qed.
End PTFacts.
