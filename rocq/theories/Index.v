(** Multi-indices of row-major arrays. *)
From Coq Require Import List ZArith Lia Bool Arith.
From Verif Require Import PyBase.
Import ListNotations.

(** number of elements of an array of the given shape *)
Fixpoint prodn (s : list nat) : nat := match s with [] => 1 | n :: s' => n * prodn s' end.

(** row-major offset of a multi-index *)
Fixpoint flat (s idx : list nat) : nat :=
  match s, idx with
  | _ :: s', i :: idx' => i * prodn s' + flat s' idx'
  | _, _ => 0
  end.

(** all multi-indices in row-major order *)
Fixpoint all_idx (s : list nat) : list (list nat) :=
  match s with
  | [] => [[]]
  | n :: s' => flat_map (fun i => map (cons i) (all_idx s')) (seq 0 n)
  end.

(** inverse of [flat] *)
Fixpoint unflat (s : list nat) (k : nat) : list nat :=
  match s with
  | [] => []
  | _ :: s' => (k / prodn s') :: unflat s' (k mod prodn s')
  end.

Definition valid (s idx : list nat) : Prop := Forall2 (fun i n => i < n) idx s.

Lemma valid_nil : valid [] [].
Proof. constructor. Qed.
Lemma valid_cons : forall n s i idx, valid (n :: s) (i :: idx) <-> i < n /\ valid s idx.
Proof. intros; split; intros H; [inversion H; auto|constructor; tauto]. Qed.
Lemma valid_length : forall s idx, valid s idx -> length idx = length s.
Proof. intros s idx H. unfold valid in H. induction H; simpl; auto. Qed.
Lemma valid_app : forall s1 s2 i1 i2, length i1 = length s1 ->
  (valid (s1 ++ s2) (i1 ++ i2) <-> valid s1 i1 /\ valid s2 i2).
Proof.
  induction s1; destruct i1; simpl; intros i2 H; try discriminate.
  - split; [intros; split; auto; constructor|tauto].
  - rewrite !valid_cons, IHs1 by lia. tauto.
Qed.
Lemma valid_nth : forall s idx, valid s idx <->
  length idx = length s /\ forall k, k < length s -> nth k idx 0 < nth k s 0.
Proof.
  induction s; destruct idx; split; intros H; try (simpl in *; destruct H; discriminate); try solve [inversion H].
  - split; auto. simpl; intros; lia.
  - constructor.
  - rewrite valid_cons in H. destruct H as [H1 H2]. apply IHs in H2. destruct H2 as [H2 H3].
    split; simpl; [lia|]. intros [|k] Hk; [lia|]. apply H3; lia.
  - destruct H as [H1 H2]. apply valid_cons. split. { apply (H2 0). simpl; lia. }
    apply IHs. split; [simpl in H1; lia|]. intros k Hk. apply (H2 (S k)). simpl; lia.
Qed.

Lemma valid_dec : forall s idx, {valid s idx} + {~ valid s idx}.
Proof.
  induction s; destruct idx.
  - left; constructor.
  - right; intros H; inversion H.
  - right; intros H; inversion H.
  - destruct (lt_dec n a); [destruct (IHs idx)|].
    + left. now apply valid_cons.
    + right. intros H. apply valid_cons in H. tauto.
    + right. intros H. apply valid_cons in H. tauto.
Qed.

Lemma prodn_app : forall s1 s2, prodn (s1 ++ s2) = prodn s1 * prodn s2.
Proof. induction s1; simpl; intros; [lia|]. rewrite IHs1. lia. Qed.

Lemma prodn_repeat : forall a n, prodn (repeat a n) = a ^ n.
Proof. induction n; simpl; congruence. Qed.

Lemma flat_lt : forall s idx, valid s idx -> flat s idx < prodn s.
Proof.
  induction s; destruct idx; intros H; try solve [inversion H]; simpl; auto.
  apply valid_cons in H. destruct H as [H1 H2]. apply IHs in H2. nia.
Qed.

Lemma flat_app : forall s1 s2 i1 i2, length i1 = length s1 ->
  flat (s1 ++ s2) (i1 ++ i2) = flat s1 i1 * prodn s2 + flat s2 i2.
Proof.
  induction s1; destruct i1; simpl; intros i2 H; try discriminate; auto.
  rewrite prodn_app, IHs1 by lia. lia.
Qed.

Lemma flat_snoc : forall s n idx i, length idx = length s ->
  flat (s ++ [n]) (idx ++ [i]) = flat s idx * n + i.
Proof. intros. rewrite flat_app by auto. simpl. lia. Qed.

Lemma unflat_length : forall s k, length (unflat s k) = length s.
Proof. induction s; simpl; auto. Qed.

Lemma prodn_pos_tail : forall n s k, k < prodn (n :: s) -> 0 < prodn s.
Proof. simpl; intros. nia. Qed.

Lemma unflat_valid : forall s k, k < prodn s -> valid s (unflat s k).
Proof.
  induction s; simpl; intros k H. { constructor. }
  assert (0 < prodn s) by nia.
  apply valid_cons. split.
  - apply Nat.div_lt_upper_bound; lia.
  - apply IHs. apply Nat.mod_upper_bound; lia.
Qed.

Lemma flat_unflat : forall s k, k < prodn s -> flat s (unflat s k) = k.
Proof.
  induction s; simpl; intros k H; [lia|].
  assert (0 < prodn s) by nia.
  rewrite IHs by (apply Nat.mod_upper_bound; lia).
  rewrite (Nat.div_mod k (prodn s)) at 3 by lia. lia.
Qed.

Lemma unflat_flat : forall s idx, valid s idx -> unflat s (flat s idx) = idx.
Proof.
  induction s; destruct idx; simpl; intros H; try solve [inversion H]; auto.
  apply valid_cons in H. destruct H as [H1 H2].
  pose proof (flat_lt _ _ H2).
  rewrite Nat.div_add_l, Nat.div_small by lia.
  rewrite Nat.add_0_r. f_equal.
  rewrite Nat.add_comm, Nat.mod_add, Nat.mod_small by lia. auto.
Qed.

Lemma flat_inj : forall s i j, valid s i -> valid s j -> flat s i = flat s j -> i = j.
Proof. intros s i j Hi Hj H. rewrite <- (unflat_flat s i Hi), H. now apply unflat_flat. Qed.

Lemma in_all_idx : forall s idx, In idx (all_idx s) <-> valid s idx.
Proof.
  induction s; simpl; intros idx.
  - split; [intros [<-|[]]; constructor|intros H; inversion H; auto].
  - rewrite in_flat_map. split.
    + intros [i [Hi H]]. apply in_map_iff in H. destruct H as [t [<- Ht]].
      apply in_seq in Hi. apply valid_cons. split; [lia|]. now apply IHs.
    + intros H. destruct idx; [inversion H|]. apply valid_cons in H. destruct H.
      exists n. split; [apply in_seq; lia|]. apply in_map_iff. exists idx. split; auto. now apply IHs.
Qed.

Lemma all_idx_length : forall s, length (all_idx s) = prodn s.
Proof.
  induction s; simpl; auto. rewrite <- IHs. clear IHs.
  assert (H : forall k n, length (flat_map (fun i => map (cons i) (all_idx s)) (seq k n)) = n * length (all_idx s)).
  { intros k n; revert k. induction n; simpl; intros; auto. rewrite app_length, map_length, IHn. lia. }
  apply H.
Qed.

Lemma nth_flat_map_const : forall A B (f : A -> list B) l m i j d da,
  (forall a, In a l -> length (f a) = m) -> i < length l -> j < m ->
  nth (i * m + j) (flat_map f l) d = nth j (f (nth i l da)) d.
Proof.
  induction l; intros m i j d da Hm Hi Hj; [simpl in Hi; lia|].
  simpl flat_map. destruct i.
  - simpl. rewrite app_nth1; auto. rewrite Hm; simpl; auto.
  - rewrite app_nth2; rewrite (Hm a) by (simpl; auto); [|nia].
    replace (S i * m + j - m) with (i * m + j) by nia.
    simpl nth at 2. apply IHl; simpl in *; auto; try lia.
Qed.

Lemma nth_all_idx : forall s idx d, valid s idx -> nth (flat s idx) (all_idx s) d = idx.
Proof.
  induction s; destruct idx; intros d H; try solve [inversion H]; auto.
  apply valid_cons in H. destruct H as [H1 H2].
  simpl. rewrite (nth_flat_map_const _ _ _ _ _ n (flat s idx) d 0).
  - rewrite seq_nth by lia. simpl.
    rewrite (nth_indep _ d (cons n d)) by (rewrite map_length, all_idx_length; now apply flat_lt).
    rewrite map_nth. f_equal. apply IHs; auto.
  - intros. now rewrite map_length, all_idx_length.
  - now rewrite seq_length.
  - now apply flat_lt.
Qed.

Lemma all_idx_NoDup : forall s, NoDup (all_idx s).
Proof.
  intros s. apply (NoDup_nth (all_idx s) []). intros i j Hi Hj H.
  rewrite all_idx_length in *.
  rewrite <- (flat_unflat s i), <- (flat_unflat s j) in H by auto.
  rewrite !nth_all_idx in H by (now apply unflat_valid).
  rewrite <- (flat_unflat s i), <- (flat_unflat s j) by auto. now rewrite H.
Qed.

Lemma all_idx_eq : forall s, all_idx s = map (unflat s) (seq 0 (prodn s)).
Proof.
  intros s. apply nth_ext with (d := []) (d' := []).
  - now rewrite map_length, seq_length, all_idx_length.
  - intros k Hk. rewrite all_idx_length in Hk.
    rewrite <- (flat_unflat s k) at 1 by auto.
    rewrite nth_all_idx by now apply unflat_valid.
    rewrite (nth_indep _ [] (unflat s 0)) by (rewrite map_length, seq_length; auto).
    rewrite map_nth, seq_nth by auto. reflexivity.
Qed.

Lemma all_idx_app : forall s1 s2,
  all_idx (s1 ++ s2) = flat_map (fun i => map (app i) (all_idx s2)) (all_idx s1).
Proof.
  induction s1; simpl; intros.
  - rewrite app_nil_r, map_id. reflexivity.
  - rewrite IHs1. generalize (seq 0 a). induction l; simpl; auto.
    rewrite flat_map_app, IHl. f_equal.
    clear. induction (all_idx s1); simpl; auto. rewrite map_app, IHl. f_equal.
    rewrite map_map. reflexivity.
Qed.
