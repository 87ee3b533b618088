(** Lemmas about the partial trace of the specification. *)
From Coq Require Import List ZArith Lia Bool Arith Permutation.
From Verif Require Import PyBase Scalar BigSum Index Tensor TensorFacts Spec SpecFacts PTSpec.
Import ListNotations.

Lemma in_kept : forall n ts i, In i (kept n ts) <-> i < n /\ ~ In i ts.
Proof.
  intros n ts i. unfold kept. rewrite filter_In, in_seq, negb_true_iff.
  assert (E : existsb (Nat.eqb i) ts = false <-> ~ In i ts).
  { destruct (existsb (Nat.eqb i) ts) eqn:X.
    - apply existsb_exists in X. destruct X as (y & Hy & E). apply Nat.eqb_eq in E. subst. split; [discriminate|tauto].
    - split; auto. intros _ Hi. assert (existsb (Nat.eqb i) ts = true); [|congruence]. apply existsb_exists. exists i. split; auto. apply Nat.eqb_refl. }
  rewrite E. cbn. intuition lia.
Qed.
Lemma kept_NoDup : forall n ts, NoDup (kept n ts).
Proof. intros. apply NoDup_filter, seq_NoDup. Qed.
Lemma kept_good : forall n ts, good_wires n (kept n ts).
Proof. intros. split; [apply kept_NoDup|]. intros w H. now apply in_kept in H. Qed.
Lemma kept_perm : forall n ts, good_wires n ts -> Permutation (kept n ts ++ ts) (seq 0 n).
Proof.
  intros n ts [H1 H2]. apply NoDup_Permutation; [|apply seq_NoDup|].
  - apply NoDup_app_intro; auto using kept_NoDup. intros x Hx. now apply in_kept in Hx.
  - intros x. rewrite in_app_iff, in_kept, in_seq. split.
    + intros [[H _]|H]; [lia|]. apply H2 in H. lia.
    + intros H. destruct (in_dec Nat.eq_dec x ts); [auto|left; split; [lia|auto]].
Qed.
Lemma kept_length : forall n ts, good_wires n ts -> length (kept n ts) = n - length ts.
Proof.
  intros n ts H. pose proof (Permutation_length (kept_perm n ts H)) as E. rewrite app_length, seq_length in E. lia.
Qed.
Lemma good_length : forall n ts, good_wires n ts -> length ts <= n.
Proof. intros n ts H. pose proof (Permutation_length (kept_perm n ts H)) as E. rewrite app_length, seq_length in E. lia. Qed.
Lemma kept_ext : forall n ts us, (forall i, i < n -> (In i ts <-> In i us)) -> kept n ts = kept n us.
Proof.
  intros n ts us H. unfold kept. apply filter_ext_in. intros i Hi. apply in_seq in Hi. f_equal.
  apply eq_true_iff_eq. rewrite !existsb_exists. split; intros (y & Hy & E); apply Nat.eqb_eq in E; subst; exists y; (split; [apply H; auto; lia|apply Nat.eqb_refl]).
Qed.

(** the basis string with kept bits r and traced bits t *)
Definition put (n : nat) (ts r t : list nat) : list nat := wr (wr (repeat 0 n) (kept n ts) r) ts t.

Lemma rd_wr_out : forall n b ws c us, length b = n -> good_wires n ws -> (forall u, In u us -> ~ In u ws) -> rd (wr b ws c) us = rd b us.
Proof.
  intros n b ws c us Hb [H1 H2] H. unfold rd. apply map_ext_in. intros u Hu. apply nth_wr_out; auto. rewrite Hb; auto.
Qed.
Lemma put_length : forall n ts r t, length (put n ts r t) = n.
Proof. intros. unfold put. now rewrite !wr_length, repeat_length. Qed.
Lemma rd_put_ts : forall n ts r t, good_wires n ts -> length t = length ts -> rd (put n ts r t) ts = t.
Proof. intros n ts r t H L. unfold put. apply (rd_wr n); auto. now rewrite wr_length, repeat_length. Qed.
Lemma rd_put_kept : forall n ts r t, good_wires n ts -> length r = n - length ts -> rd (put n ts r t) (kept n ts) = r.
Proof.
  intros n ts r t H L. unfold put. rewrite (rd_wr_out n); auto.
  - apply (rd_wr n); [apply repeat_length|apply kept_good|]. now rewrite kept_length.
  - now rewrite wr_length, repeat_length.
  - intros u Hu. now apply in_kept in Hu.
Qed.
Lemma put_uniq : forall n ts x, good_wires n ts -> length x = n -> put n ts (rd x (kept n ts)) (rd x ts) = x.
Proof.
  intros n ts x H L. apply nth_ext with (d := 0) (d' := 0). { now rewrite put_length. }
  intros i Hi. rewrite put_length in Hi. unfold put.
  assert (L1 : length (wr (repeat 0 n) (kept n ts) (rd x (kept n ts))) = n) by now rewrite wr_length, repeat_length.
  destruct H as [H1 H2]. destruct (in_dec Nat.eq_dec i ts) as [Hin|Hin].
  - rewrite nth_wr_in; auto.
    + unfold rd. rewrite (nth_map' _ _ _ _ _ _ 0) by (now apply index_of_lt). now rewrite nth_index_of.
    + rewrite L1; auto.
    + apply rd_length.
  - rewrite nth_wr_out; auto; [|rewrite L1; auto]. assert (Hk : In i (kept n ts)) by (now apply in_kept).
    rewrite nth_wr_in; auto using kept_NoDup.
    + unfold rd. rewrite (nth_map' _ _ _ _ _ _ 0) by (now apply index_of_lt). now rewrite nth_index_of.
    + rewrite repeat_length. apply kept_good.
    + apply rd_length.
Qed.
Lemma put_char : forall n ts x r t, good_wires n ts -> length x = n -> rd x (kept n ts) = r -> rd x ts = t -> x = put n ts r t.
Proof. intros n ts x r t H L <- <-. symmetry. now apply put_uniq. Qed.
Lemma put_bits : forall n ts r t, good_wires n ts -> In r (bits (n - length ts)) -> In t (bits (length ts)) -> In (put n ts r t) (bits n).
Proof.
  intros n ts r t H Hr Ht. unfold put. apply wr_in_bits; auto. apply wr_in_bits; auto.
  - apply in_bits. split; [apply repeat_length|]. intros i Hi. rewrite nth_repeat_lt; lia.
  - apply kept_good.
  - now rewrite kept_length.
Qed.
Lemma put_wr : forall n ts r t c, good_wires n ts -> length r = n - length ts -> length t = length ts -> length c = n - length ts ->
  wr (put n ts r t) (kept n ts) c = put n ts c t.
Proof.
  intros n ts r t c H Lr Lt Lc. apply put_char; auto.
  - now rewrite wr_length, put_length.
  - apply (rd_wr n); [apply put_length|apply kept_good|]. now rewrite kept_length.
  - rewrite (rd_wr_out n); [now apply rd_put_ts|apply put_length|apply kept_good|].
    intros u Hu Hk. now apply in_kept in Hk.
Qed.
Lemma kept_nil : forall n, kept n [] = seq 0 n.
Proof. intros n. unfold kept. cbn. induction (seq 0 n); cbn; congruence. Qed.
Lemma rd_seq : forall n x, length x = n -> rd x (seq 0 n) = x.
Proof.
  intros n x L. apply nth_ext with (d := 0) (d' := 0). { now rewrite rd_length, seq_length. }
  intros k Hk. rewrite rd_length, seq_length in Hk. unfold rd. rewrite (nth_map' _ _ _ _ _ _ 0) by (now rewrite seq_length). now rewrite seq_nth.
Qed.

Section PTFacts.
  Context {SC : Scalar}.
  Add Ring KR : k_ring.
  Local Open Scope k_scope.

  Lemma ptr_put : forall n ts A r c, good_wires n ts -> In r (bits (n - length ts)) -> In c (bits (n - length ts)) ->
    ptr n ts A r c = bigsum (bits (length ts)) (fun t => A (put n ts r t) (put n ts c t)).
  Proof.
    intros n ts A r c H Hr Hc. unfold ptr.
    transitivity (bigsum (bits n) (fun x => if (if list_eq_dec Nat.eq_dec (rd x (kept n ts)) r then true else false) then A x (wr x (kept n ts) c) else 0)).
    { apply bigsum_ext. intros x Hx. destruct (list_eq_dec _ _ _); auto. }
    rewrite <- bigsum_filter.
    rewrite (bigsum_perm _ _ (map (put n ts r) (bits (length ts)))).
    - rewrite bigsum_map. apply bigsum_ext. intros t Ht. rewrite put_wr; auto using bits_length.
    - apply NoDup_Permutation.
      + apply NoDup_filter, bits_NoDup.
      + apply NoDup_map_inj_in; [|apply bits_NoDup]. intros t u Ht Hu E. apply (f_equal (fun x => rd x ts)) in E. rewrite !rd_put_ts in E; auto using bits_length.
      + intros x. rewrite filter_In, in_map_iff. split.
        * intros [Hx E]. destruct (list_eq_dec _ _ _) as [E1|]; [|discriminate]. exists (rd x ts). split.
          -- rewrite <- E1. apply put_uniq; auto using bits_length.
          -- eapply rd_in_bits; eauto. apply H.
        * intros (t & <- & Ht). split; [now apply put_bits|]. destruct (list_eq_dec _ _ _) as [|N]; auto. exfalso. apply N. apply rd_put_kept; auto using bits_length.
  Qed.

  Lemma ptr_ext : forall n ts A B, good_wires n ts -> op_eq n A B -> op_eq (n - length ts) (ptr n ts A) (ptr n ts B).
  Proof.
    intros n ts A B H E r c Hr Hc. rewrite !ptr_put by auto. apply bigsum_ext. intros t Ht. apply E; now apply put_bits.
  Qed.
  (** only which qubits are traced out matters *)
  Lemma ptr_set : forall n ts us A, (forall i, i < n -> (In i ts <-> In i us))%nat -> ptr n ts A = ptr n us A.
  Proof. intros n ts us A H. unfold ptr. now rewrite (kept_ext n ts us H). Qed.
  Lemma ptr_nil : forall n A, op_eq n (ptr n [] A) A.
  Proof.
    intros n A r c Hr Hc. rewrite ptr_put; cbn [length]; rewrite ?Nat.sub_0_r; auto; [|split; [constructor|intros ? []]].
    cbn [bits]. rewrite bigsum_cons, bigsum_nil. unfold put. rewrite kept_nil. cbn [wr].
    assert (E : forall x, In x (bits n) -> wr (repeat 0%nat n) (seq 0 n) x = x).
    { intros x Hx. rewrite <- (rd_seq n (wr _ _ _)) by (now rewrite wr_length, repeat_length). apply (rd_wr n); [apply repeat_length| |].
      - split; [apply seq_NoDup|]. intros w Hw. apply in_seq in Hw. lia.
      - rewrite seq_length. now apply bits_length. }
    rewrite !E by auto. ring.
  Qed.

  (** tracing preserves the trace, adjoints and quadratic forms *)
  Lemma bigsum_put : forall n ts (f : list nat -> K), good_wires n ts ->
    bigsum (bits n) f = bigsum (bits (n - length ts)) (fun r => bigsum (bits (length ts)) (fun t => f (put n ts r t))).
  Proof.
    intros n ts f H.
    rewrite (bigsum_perm _ (bits n) (flat_map (fun r => map (put n ts r) (bits (length ts))) (bits (n - length ts)))).
    - rewrite bigsum_flat_map. apply bigsum_ext. intros r Hr. now rewrite bigsum_map.
    - symmetry. apply NoDup_Permutation_bis.
      + assert (G : forall l, (forall r, In r l -> In r (bits (n - length ts))) -> NoDup l -> NoDup (flat_map (fun r => map (put n ts r) (bits (length ts))) l)).
        { induction l as [|r l IH]; intros Hl Hn; cbn; [constructor|]. inversion Hn; subst. apply NoDup_app_intro.
          - apply NoDup_map_inj_in; [|apply bits_NoDup]. intros t u Ht Hu E. apply (f_equal (fun x => rd x ts)) in E. rewrite !rd_put_ts in E; auto using bits_length.
          - apply IH; auto. intros; apply Hl; now right.
          - intros x Hx Hy. apply in_map_iff in Hx. destruct Hx as (t & <- & Ht). apply in_flat_map in Hy. destruct Hy as (r' & Hr' & Hy). apply in_map_iff in Hy. destruct Hy as (t' & E & Ht').
            apply (f_equal (fun x => rd x (kept n ts))) in E. rewrite !rd_put_kept in E; auto; try (apply bits_length, Hl; cbn; auto). subst. contradiction. }
        apply G; auto using bits_NoDup.
      + assert (LB : forall m, length (bits m) = (2 ^ m)%nat) by (intros; now rewrite bits_map, map_length, seq_length).
        rewrite LB. assert (G : forall l, length (flat_map (fun r => map (put n ts r) (bits (length ts))) l) = (length l * 2 ^ length ts)%nat).
        { induction l; cbn; auto. rewrite app_length, map_length, LB, IHl. lia. }
        rewrite G, LB, <- Nat.pow_add_r. replace (n - length ts + length ts)%nat with n; auto. pose proof (good_length _ _ H). lia.
      + intros x Hx. apply in_flat_map in Hx. destruct Hx as (r & Hr & Hx). apply in_map_iff in Hx. destruct Hx as (t & <- & Ht). now apply put_bits.
  Qed.
  Lemma ptr_trace : forall n ts A, good_wires n ts -> trace_op (n - length ts) (ptr n ts A) = trace_op n A.
  Proof.
    intros n ts A H. unfold trace_op. rewrite (bigsum_put n ts) by auto. apply bigsum_ext. intros r Hr. now rewrite ptr_put.
  Qed.
  Lemma ptr_adj : forall n ts A, good_wires n ts -> op_eq (n - length ts) (ptr n ts (adj_op A)) (adj_op (ptr n ts A)).
  Proof.
    intros n ts A H r c Hr Hc. unfold adj_op at 2. rewrite !ptr_put by auto. rewrite bigsum_conj. reflexivity.
  Qed.
  (** <v|ptr A|v> is the sum over t of <v_t|A|v_t>, v_t being v on the kept qubits and t on the others *)
  Definition slice (n : nat) (ts : list nat) (v : qstate) (t : list nat) : qstate := fun x =>
    if list_eq_dec Nat.eq_dec (rd x ts) t then v (rd x (kept n ts)) else 0.
  Lemma slice_sum : forall n ts (v : qstate) t (f : K -> list nat -> K), good_wires n ts -> In t (bits (length ts)) -> (forall x, f 0 x = 0) ->
    bigsum (bits n) (fun x => f (slice n ts v t x) x) = bigsum (bits (n - length ts)) (fun r => f (v r) (put n ts r t)).
  Proof.
    intros n ts v t f H Ht F0. rewrite (bigsum_put n ts) by auto. apply bigsum_ext. intros r Hr.
    rewrite (bigsum_single _ _ t); [|apply bits_NoDup|auto|].
    - unfold slice. rewrite rd_put_ts, rd_put_kept by auto using bits_length. destruct (list_eq_dec _ _ _); congruence.
    - intros u Hu N. unfold slice. rewrite rd_put_ts by auto using bits_length. destruct (list_eq_dec _ _ _); [congruence|apply F0].
  Qed.
  Lemma ptr_qform : forall n ts A v, good_wires n ts ->
    qform (n - length ts) (ptr n ts A) v = bigsum (bits (length ts)) (fun t => qform n A (slice n ts v t)).
  Proof.
    intros n ts A v H. unfold qform.
    rewrite (bigsum_ext _ (bits (length ts)) _ (fun t => bigsum (bits (n - length ts)) (fun r => bigsum (bits (n - length ts)) (fun c => kconj (v r) * A (put n ts r t) (put n ts c t) * v c)))).
    - symmetry. rewrite bigsum_swap. apply bigsum_ext. intros r Hr. rewrite bigsum_swap. apply bigsum_ext. intros c Hc.
      rewrite ptr_put by auto. rewrite <- bigsum_mul_l, <- bigsum_mul_r. apply bigsum_ext. intros t Ht. reflexivity.
    - intros t Ht. rewrite (slice_sum n ts v t (fun k x => bigsum (bits n) (fun c => kconj k * A x c * slice n ts v t c))); auto.
      + apply bigsum_ext. intros r Hr. rewrite (slice_sum n ts v t (fun k c => kconj (v r) * A (put n ts r t) c * k)); auto. intros x. ring.
      + intros x. apply bigsum_zero. intros c Hc. rewrite kconj_0. ring.
  Qed.

  (** tracing in two steps *)
  Lemma filter_filter' : forall X (p q : X -> bool) l, filter p (filter q l) = filter (fun x => p x && q x)%bool l.
  Proof.
    induction l as [|a l IH]; cbn; auto. destruct (q a) eqn:E1; cbn.
    - rewrite andb_true_r. destruct (p a); cbn; congruence.
    - rewrite andb_false_r. auto.
  Qed.
  Lemma kept_app : forall n ts us, good_wires n ts -> good_wires (n - length ts) us -> kept n (ts ++ orig n ts us) = orig n ts (kept (n - length ts) us).
  Proof.
    intros n ts us H Hu. unfold orig. set (k := kept n ts). assert (Lk : length k = (n - length ts)%nat) by (now apply kept_length).
    assert (E : k = map (fun j => nth j k 0%nat) (seq 0 (n - length ts))).
    { rewrite <- Lk. clear. apply nth_ext with (d := 0%nat) (d' := 0%nat); [now rewrite map_length, seq_length|]. intros i Hi. rewrite (nth_map' _ _ _ _ _ _ 0%nat) by (now rewrite seq_length). now rewrite seq_nth. }
    transitivity (filter (fun i => negb (existsb (Nat.eqb i) (map (fun j => nth j k 0%nat) us))) k).
    - change k with (kept n ts) at 3. unfold kept. rewrite filter_filter'. apply filter_ext. intros i. rewrite existsb_app, negb_orb. apply andb_comm.
    - etransitivity; [apply f_equal; exact E|]. unfold kept. assert (N : NoDup k) by apply kept_NoDup. clearbody k. clear E H.
      assert (B : forall j, In j (seq 0 (n - length ts)) -> (j < length k)%nat) by (intros j Hj; apply in_seq in Hj; lia).
      destruct Hu as [_ Hu]. assert (Hu' : forall u, In u us -> (u < length k)%nat) by (intros u X; apply Hu in X; lia). clear Hu Lk.
      induction (seq 0 (n - length ts)) as [|a l IH]; cbn; auto.
      assert (X : existsb (Nat.eqb (nth a k 0%nat)) (map (fun j => nth j k 0%nat) us) = existsb (Nat.eqb a) us).
      { apply eq_true_iff_eq. rewrite !existsb_exists. split.
        - intros (y & Hy & E). apply Nat.eqb_eq in E. subst y. apply in_map_iff in Hy. destruct Hy as (u & E & Hu). exists u. split; auto. apply Nat.eqb_eq.
          apply (proj1 (NoDup_nth k 0%nat) N); auto. apply B. now left.
        - intros (u & Hu & E). apply Nat.eqb_eq in E. subst u. exists (nth a k 0%nat). split; [|apply Nat.eqb_refl]. apply in_map_iff. now exists a. }
      rewrite X. destruct (negb (existsb (Nat.eqb a) us)); cbn; rewrite IH; auto; intros; apply B; now right.
  Qed.
  Lemma orig_good : forall n ts us, good_wires n ts -> good_wires (n - length ts) us -> good_wires n (ts ++ orig n ts us).
  Proof.
    intros n ts us H [U1 U2]. pose proof (kept_length n ts H) as Lk.
    assert (I : forall u, In u (orig n ts us) -> In u (kept n ts)).
    { intros u Hu. apply in_map_iff in Hu. destruct Hu as (j & <- & Hj). apply nth_In. rewrite Lk. auto. }
    split.
    - apply NoDup_app_intro; [apply H| |].
      + apply NoDup_map_inj_in; auto. intros x y Hx Hy E. apply (proj1 (NoDup_nth (kept n ts) 0%nat) (kept_NoDup n ts)) in E; auto; rewrite Lk; auto.
      + intros x Hx Hy. apply I, in_kept in Hy. tauto.
    - intros w Hw. apply in_app_iff in Hw. destruct Hw as [Hw|Hw]; [now apply H|]. apply I, in_kept in Hw. tauto.
  Qed.
  Lemma rd_orig : forall n ts us x, (forall u, In u us -> u < length (kept n ts))%nat -> rd x (orig n ts us) = rd (rd x (kept n ts)) us.
  Proof.
    intros n ts us x H. unfold rd, orig. rewrite map_map. apply map_ext_in. intros u Hu. now rewrite (nth_map' _ _ _ _ _ _ 0%nat) by auto.
  Qed.
  Lemma orig_length : forall n ts us, length (orig n ts us) = length us.
  Proof. intros. apply map_length. Qed.
  Lemma ptr_comp : forall n ts us A, good_wires n ts -> good_wires (n - length ts) us ->
    op_eq (n - length ts - length us) (ptr (n - length ts) us (ptr n ts A)) (ptr n (ts ++ orig n ts us) A).
  Proof.
    intros n ts us A H Hu r c Hr Hc. pose proof (orig_good n ts us H Hu) as G. pose proof (kept_length n ts H) as Lk.
    assert (LL : (n - length (ts ++ orig n ts us) = n - length ts - length us)%nat) by (rewrite app_length, orig_length; lia).
    rewrite ptr_put by auto. rewrite (ptr_put n) by (rewrite ?LL; auto).
    rewrite app_length, orig_length, bigsum_bits_app, bigsum_swap. apply bigsum_ext. intros u Hu'.
    rewrite ptr_put by (auto; apply put_bits; auto). apply bigsum_ext. intros t Ht.
    assert (E : forall s, In s (bits (n - length ts - length us)) -> put n ts (put (n - length ts) us s u) t = put n (ts ++ orig n ts us) s (t ++ u)).
    { intros s Hs. assert (Hp : In (put (n - length ts) us s u) (bits (n - length ts))) by (now apply put_bits).
      apply put_char; auto; [apply put_length| |].
      - rewrite kept_app by auto. rewrite rd_orig by (rewrite Lk; apply kept_good). rewrite rd_put_kept by auto using bits_length. apply rd_put_kept; auto using bits_length.
      - unfold rd at 1. rewrite map_app. change (rd (put n ts (put (n - length ts) us s u) t) ts ++ rd (put n ts (put (n - length ts) us s u) t) (orig n ts us) = t ++ u).
        rewrite rd_put_ts by auto using bits_length. f_equal. rewrite rd_orig by (rewrite Lk; apply Hu). rewrite rd_put_kept by auto using bits_length. apply rd_put_ts; auto using bits_length. }
    now rewrite !E.
  Qed.
End PTFacts.
