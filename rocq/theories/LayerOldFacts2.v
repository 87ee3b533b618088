(** Lemmas: tensor products of operators on consecutive groups of qubits as products of lifted operators. *)
From Coq Require Import List ZArith Reals Lra Lia ZifyBool Bool Arith Setoid Morphisms.
From Verif Require Import PyBase Scalar CInst BigSum Index Tensor TensorFacts Spec SpecFacts ExpandFacts ExpandFacts2 GateSpec GateFacts GateFacts2 RunSpec MPSSpec LayerSpec LayerFacts1 LayerFacts2 MPSFacts4 LayerOldSpec.
Import ListNotations.
Local Close Scope R_scope.
Local Open Scope nat_scope.

Section Gen.
  Context {SC : Scalar}.
  Add Ring KR : k_ring.
  Local Open Scope k_scope.

  (** operators acting one after the other *)
  Definition lprod (n : nat) (l : list (list nat * qop)) : qop := fold_left (fun P wa => mul_op n (lift (snd wa) (fst wa)) P) l id_op.
  Lemma lprod_fold : forall n l A, op_eq n (fold_left (fun P wa => mul_op n (lift (snd wa) (fst wa)) P) l A) (mul_op n (lprod n l) A).
  Proof.
    intros n. unfold lprod. induction l as [|x l IH]; intros A; cbn [fold_left].
    - symmetry. apply mul_op_id_l.
    - rewrite (IH (mul_op n (lift (snd x) (fst x)) A)), (IH (mul_op n (lift (snd x) (fst x)) id_op)). now rewrite mul_op_id_r, mul_op_assoc.
  Qed.
  Lemma lprod_cons : forall n x l, op_eq n (lprod n (x :: l)) (mul_op n (lprod n l) (lift (snd x) (fst x))).
  Proof. intros. unfold lprod at 1. cbn [fold_left]. rewrite lprod_fold. now rewrite mul_op_id_r. Qed.
  Lemma lprod_app : forall n l l', op_eq n (lprod n (l ++ l')) (mul_op n (lprod n l') (lprod n l)).
  Proof. intros. unfold lprod at 1. rewrite fold_left_app. apply lprod_fold. Qed.

  Definition shifted (k : nat) (wa : list nat * qop) : list nat * qop := (map (fun w => k + w)%nat (fst wa), snd wa).
  Lemma nth_seq_lt : forall k m v, (v < m)%nat -> nth v (seq k m) 0%nat = (k + v)%nat.
  Proof. intros. now apply seq_nth. Qed.
  Lemma lprod_shift : forall k m l, (forall wa v, In wa l -> In v (fst wa) -> v < m)%nat ->
    op_eq (k + m) (lift (lprod m l) (seq k m)) (lprod (k + m) (map (shifted k) l)).
  Proof.
    intros k m l H. assert (W : good_wires (k + m) (seq k m)) by (apply MPSFacts4.good_seq; lia).
    induction l as [|x l IH].
    - cbn [map]. unfold lprod. cbn [fold_left]. apply lift_id. exact W.
    - cbn [map]. rewrite (lprod_cons (k + m) (shifted k x)). rewrite (lift_ext (k + m) (seq k m) (lprod m (x :: l)) (mul_op m (lprod m l) (lift (snd x) (fst x)))).
      + pose proof (lift_mul (k + m) (seq k m) (lprod m l) (lift (snd x) (fst x)) W) as E. rewrite seq_length in E. rewrite <- E. clear E.
        rewrite IH by (intros wa v Hw; apply H; now right). apply mul_op_proper; [reflexivity|]. cbn [shifted fst snd].
        rewrite lift_lift; [|exact W|intros v Hv; rewrite seq_length; apply (H x v); [now left|exact Hv]].
        assert (E : map (fun v => nth v (seq k m) 0%nat) (fst x) = map (fun w => (k + w)%nat) (fst x)).
        { apply map_ext_in. intros v Hv. apply nth_seq_lt. apply (H x v); [now left|exact Hv]. }
        rewrite E. reflexivity.
      + intros w Hw. apply in_seq in Hw. lia.
      + rewrite seq_length. apply lprod_cons.
  Qed.
  Lemma lprod_one : forall n ws l l', good_wires n ws -> op_eq n (lprod n (l ++ (ws, id_op) :: l')) (lprod n (l ++ l')).
  Proof.
    intros n ws l l' W. rewrite !lprod_app, lprod_cons. cbn [fst snd]. rewrite (lift_id n ws W), mul_op_id_r. reflexivity.
  Qed.

  Lemma rd_seq_skip : forall k m r, length r = (k + m)%nat -> rd r (seq k m) = skipn k r.
  Proof.
    intros k m r L. pose proof (rd_seq_mid (skipn k r) (firstn k r) []) as X. rewrite app_nil_r, firstn_skipn in X.
    rewrite firstn_length, skipn_length in X. replace (Nat.min k (length r)) with k in X by lia. replace (length r - k)%nat with m in X by lia. exact X.
  Qed.
  Lemma kron_two : forall k m A B, op_eq (k + m) (fun r c => A (firstn k r) (firstn k c) * B (skipn k r) (skipn k c))
    (mul_op (k + m) (lift B (seq k m)) (lift A (seq 0 k))).
  Proof.
    intros k m A B r c Hr Hc. pose proof (bits_length _ _ Hr) as Lr. pose proof (bits_length _ _ Hc) as Lc.
    rewrite lift_mul_disjoint; auto; try (apply MPSFacts4.good_seq; lia).
    - rewrite !rd_seq_skip by auto. rewrite !rd_seq by lia.
      assert (E : same_off (seq k m ++ seq 0 k) r c = true).
      { apply (same_off_spec (k + m)); auto. intros i Hi Hn. exfalso. apply Hn. rewrite in_app_iff, !in_seq. lia. }
      rewrite E. ring.
    - intros w Hw Hv. apply in_seq in Hw. apply in_seq in Hv. lia.
  Qed.
End Gen.

(** the groups of qubits *)
Fixpoint blocks (off : nat) (fs : list (nat * @qop C_scalar)) : list (list nat * @qop C_scalar) :=
  match fs with [] => [] | (k, A) :: fs' => (seq off k, A) :: blocks (off + k) fs' end.
Lemma blocks_shift : forall fs k off, map (shifted k) (blocks off fs) = blocks (k + off) fs.
Proof.
  induction fs as [|[j A] fs IH]; intros k off; [reflexivity|]. cbn [blocks map]. rewrite IH, Nat.add_assoc. f_equal.
  unfold shifted. cbn [fst snd]. f_equal. clear. revert off. induction j as [|j IH]; intros off; [reflexivity|]. cbn [seq map]. f_equal. rewrite IH. now rewrite Nat.add_succ_r.
Qed.
Lemma blocks_lt : forall fs off wa v, In wa (blocks off fs) -> In v (fst wa) -> off <= v < off + list_sum (map fst fs).
Proof.
  induction fs as [|[j A] fs IH]; intros off wa v H Hv; [destruct H|]. cbn [blocks map list_sum fold_right fst] in *. destruct H as [<-|H].
  - cbn [fst] in Hv. apply in_seq in Hv. lia.
  - specialize (IH _ _ _ H Hv). unfold list_sum in IH. lia.
Qed.
Lemma kron_lprod : forall fs, op_eq (SC := C_scalar) (list_sum (map fst fs)) (kron_ops fs) (lprod (list_sum (map fst fs)) (blocks 0 fs)).
Proof.
  induction fs as [|[k A] fs IH].
  - intros r c Hr Hc. cbn in Hr, Hc. destruct Hr as [<-|[]], Hc as [<-|[]]. reflexivity.
  - cbn [map fst]. change (list_sum (k :: map fst fs)) with (k + list_sum (map fst fs)). set (m := list_sum (map fst fs)) in *.
    cbn [blocks Nat.add]. rewrite (lprod_cons (SC := C_scalar)). cbn [fst snd].
    replace (blocks k fs) with (map (shifted k) (blocks 0 fs)) by (rewrite blocks_shift; f_equal; lia).
    rewrite <- (lprod_shift (SC := C_scalar) k m) by (intros wa v H Hv; pose proof (blocks_lt _ _ _ _ H Hv); lia).
    transitivity (mul_op (SC := C_scalar) (k + m) (lift (kron_ops fs) (seq k m)) (lift A (seq 0 k))).
    + exact (kron_two (SC := C_scalar) k m A (kron_ops fs)).
    + apply mul_op_proper; [|reflexivity]. apply lift_ext; [intros w Hw; apply in_seq in Hw; lia|]. rewrite seq_length. exact IH.
Qed.

(** gates as lifted operators *)
Lemma gs_lprod : forall n gs l, Forall2 (fun g wa => op_eq (SC := C_scalar) n (gi_op n g) (lift (snd wa) (fst wa))) gs l -> op_eq n (gs_op n gs) (lprod n l).
Proof.
  intros n gs l H. induction H as [|g wa gs l Hg H IH]; [reflexivity|]. rewrite gs_op_cons, (lprod_cons (SC := C_scalar)). rewrite IH, Hg. reflexivity.
Qed.
Lemma obs_lprod : forall n Gs off, fold_left (fun B (wa : nat * qop) => mul_op (SC := C_scalar) n (lift (snd wa) [fst wa]) B) (combine (seq off (length Gs)) Gs) =
  fold_left (fun P wa => mul_op (SC := C_scalar) n (lift (snd wa) (fst wa)) P) (blocks off (map (fun A => (1, A)) Gs)).
Proof.
  intros n Gs. induction Gs as [|A Gs IH]; intros off; [reflexivity|]. cbn [length seq combine map blocks fold_left fst snd].
  rewrite Nat.add_1_r. now rewrite IH.
Qed.
