(** Facts about the torch primitives, as rewriting rules on [tbuild]. *)
From Coq Require Import List ZArith QArith Lia Bool Arith Ring Permutation.
From Verif Require Import PyBase Scalar BigSum Index Tensor.
Import ListNotations.
Local Close Scope Q_scope.
Local Open Scope nat_scope.

Section Facts.
  Context {SC : Scalar}.
  Add Ring KR : k_ring.

  Lemma tbuild_wf : forall s f, wf (tbuild s f).
  Proof. intros. unfold wf, tbuild. simpl. now rewrite map_length, all_idx_length. Qed.

  Lemma tbuild_shape : forall s f, shape (tbuild s f) = s.
  Proof. reflexivity. Qed.

  Lemma tget_tbuild : forall s f idx, valid s idx -> tget (tbuild s f) idx = f idx.
  Proof.
    intros s f idx H. unfold tget, tbuild. simpl.
    rewrite (nth_indep _ k0 (f [])) by (rewrite map_length, all_idx_length; now apply flat_lt).
    rewrite map_nth, nth_all_idx; auto.
  Qed.

  Lemma tbuild_ext : forall s f g, (forall idx, valid s idx -> f idx = g idx) -> tbuild s f = tbuild s g.
  Proof.
    intros. unfold tbuild. f_equal. apply map_ext_in. intros. apply H. now apply in_all_idx.
  Qed.

  Lemma tensor_eta : forall t, wf t -> t = tbuild (shape t) (tget t).
  Proof.
    intros [s d] H. unfold wf in H. simpl in *. unfold tbuild. f_equal.
    apply nth_ext with (d := k0) (d' := k0).
    - now rewrite map_length, all_idx_length.
    - intros k Hk. rewrite H in Hk.
      rewrite (nth_map' _ _ _ _ _ _ []) by (rewrite all_idx_length; auto).
      rewrite all_idx_eq, (nth_map' _ _ _ _ _ _ 0) by (rewrite seq_length; auto).
      rewrite seq_nth by auto. simpl. unfold tget. simpl. now rewrite flat_unflat.
  Qed.

  Lemma tensor_ext : forall a b, wf a -> wf b -> shape a = shape b ->
    (forall idx, valid (shape a) idx -> tget a idx = tget b idx) -> a = b.
  Proof.
    intros a b Ha Hb Hs H. rewrite (tensor_eta a Ha), (tensor_eta b Hb), <- Hs.
    apply tbuild_ext; auto.
  Qed.

  Lemma tbuild_inj : forall s f g idx, tbuild s f = tbuild s g -> valid s idx -> f idx = g idx.
  Proof. intros s f g idx H Hv. rewrite <- (tget_tbuild s f idx Hv), H. now apply tget_tbuild. Qed.

  (** reshaping *)
  Lemma reshape_tbuild : forall s s' f, prodn s = prodn s' ->
    mkT s' (data (tbuild s f)) = tbuild s' (fun idx => f (unflat s (flat s' idx))).
  Proof.
    intros s s' f H. unfold tbuild. simpl. f_equal.
    rewrite !all_idx_eq, !map_map, H. apply map_ext_in.
    intros k Hk. apply in_seq in Hk. rewrite flat_unflat; auto; lia.
  Qed.

  Lemma view_nat : forall t s', prodn (shape t) = prodn s' ->
    view t (map Z.of_nat s') = Ok (mkT s' (data t)).
  Proof.
    intros t s' H. unfold view, infer_shape.
    replace (existsb (fun d => (d <? -1)%Z) (map Z.of_nat s')) with false.
    2:{ symmetry. clear. induction s'; simpl; auto. rewrite IHs'.
        destruct (Z.of_nat a <? -1)%Z eqn:E; auto. apply Z.ltb_lt in E. lia. }
    replace (filter (fun d => negb (d =? -1)%Z) (map Z.of_nat s')) with (map Z.of_nat s').
    2:{ clear. induction s'; simpl; auto.
        destruct (Z.of_nat a =? -1)%Z eqn:E. { apply Z.eqb_eq in E. lia. } simpl. now f_equal. }
    rewrite Nat.sub_diag, map_map.
    rewrite (map_ext _ (fun x => x)) by apply Nat2Z.id. rewrite map_id, H, Nat.eqb_refl. reflexivity.
  Qed.

  Lemma view_tbuild_nat : forall s f s', prodn s = prodn s' ->
    view (tbuild s f) (map Z.of_nat s') = Ok (tbuild s' (fun idx => f (unflat s (flat s' idx)))).
  Proof. intros. rewrite view_nat by auto. now rewrite reshape_tbuild. Qed.

  (** one inferred dimension *)
  Lemma view_m1 : forall t s1 s2 m, 0 < prodn s1 -> 0 < prodn s2 ->
    prodn (shape t) = prodn (s1 ++ m :: s2) ->
    view t (map Z.of_nat s1 ++ (-1)%Z :: map Z.of_nat s2) = Ok (mkT (s1 ++ m :: s2) (data t)).
  Proof.
    intros t s1 s2 m H1 H2 H. unfold view, infer_shape.
    assert (Hneg : forall s, existsb (fun d => (d <? -1)%Z) (map Z.of_nat s) = false).
    { induction s; simpl; auto. rewrite IHs. destruct (Z.of_nat a <? -1)%Z eqn:E; auto. apply Z.ltb_lt in E. lia. }
    assert (Hf : forall s, filter (fun d => negb (d =? -1)%Z) (map Z.of_nat s) = map Z.of_nat s).
    { induction s; simpl; auto. destruct (Z.of_nat a =? -1)%Z eqn:E. { apply Z.eqb_eq in E. lia. } simpl. now f_equal. }
    rewrite existsb_app, Hneg. simpl existsb. rewrite Hneg. simpl orb.
    rewrite filter_app, Hf. cbn [filter]. replace (negb (-1 =? -1)%Z) with false by reflexivity.
    rewrite Hf, <- map_app.
    rewrite app_length, map_length. simpl length. rewrite !map_length.
    rewrite app_length. replace (length s1 + S (length s2) - (length s1 + length s2)) with 1 by lia.
    rewrite map_map. rewrite (map_ext (fun x => Z.to_nat (Z.of_nat x)) (fun x => x)) by apply Nat2Z.id. rewrite map_id.
    rewrite prodn_app in *. simpl prodn in H.
    assert (Hp : 0 < prodn s1 * prodn s2) by nia.
    replace (prodn s1 * prodn s2 =? 0) with false by (symmetry; apply Nat.eqb_neq; lia).
    replace (prodn (shape t)) with (m * (prodn s1 * prodn s2)) by nia.
    rewrite Nat.mod_mul, Nat.div_mul by lia. simpl Nat.eqb. cbn [negb].
    f_equal. f_equal. rewrite map_app. cbn [map]. f_equal; [|f_equal].
    - rewrite map_map. rewrite <- (map_id s1) at 2. apply map_ext. intros.
      destruct (Z.of_nat a =? -1)%Z eqn:E. { apply Z.eqb_eq in E. lia. } apply Nat2Z.id.
    - rewrite map_map. rewrite <- (map_id s2) at 2. apply map_ext. intros.
      destruct (Z.of_nat a =? -1)%Z eqn:E. { apply Z.eqb_eq in E. lia. } apply Nat2Z.id.
  Qed.

  Lemma tget_reshape : forall t s' idx idx', flat s' idx' = flat (shape t) idx ->
    tget (mkT s' (data t)) idx' = tget t idx.
  Proof. intros. unfold tget. simpl. now rewrite H. Qed.

  (** maps *)
  Lemma tmap_tbuild : forall g s f, tmap g (tbuild s f) = tbuild s (fun idx => g (f idx)).
  Proof. intros. unfold tmap, tbuild. simpl. now rewrite map_map. Qed.
  Lemma tscale_tbuild : forall c s f, tscale c (tbuild s f) = tbuild s (fun idx => kmul c (f idx)).
  Proof. intros. apply tmap_tbuild. Qed.
  Lemma tconj_tbuild : forall s f, tconj (tbuild s f) = tbuild s (fun idx => kconj (f idx)).
  Proof. intros. apply tmap_tbuild. Qed.

  (** broadcasting *)
  Lemma bcast_rev_same : forall s, bcast_rev s s = Some s.
  Proof. induction s; simpl; auto. now rewrite IHs, Nat.eqb_refl. Qed.
  Lemma bcast_same : forall s, bcast s s = Some s.
  Proof. intros. unfold bcast. now rewrite bcast_rev_same, rev_involutive. Qed.
  Lemma bcast_nil_l : forall s, bcast [] s = Some s.
  Proof. intros. unfold bcast. simpl. now rewrite rev_involutive. Qed.
  Lemma bcast_nil_r : forall s, bcast s [] = Some s.
  Proof.
    intros. unfold bcast. simpl.
    assert (H : forall l, bcast_rev l [] = Some l) by (destruct l; auto).
    now rewrite H, rev_involutive.
  Qed.

  Lemma zip0_same : forall s idx, valid s idx -> zip0 s idx = idx.
  Proof.
    induction s; destruct idx; intros H; try solve [inversion H]; auto.
    apply valid_cons in H. destruct H as [H1 H2]. simpl. rewrite IHs by auto. f_equal.
    destruct (a =? 1) eqn:E; auto. apply Nat.eqb_eq in E. lia.
  Qed.
  Lemma bidx_same : forall s idx, valid s idx -> bidx s idx = idx.
  Proof.
    intros s idx H. unfold bidx. rewrite (valid_length _ _ H), Nat.sub_diag. simpl. now apply zip0_same.
  Qed.
  Lemma bidx_nil : forall idx, bidx [] idx = [].
  Proof. intros. unfold bidx. reflexivity. Qed.

  Lemma map2b_tbuild : forall op s f g,
    map2b op (tbuild s f) (tbuild s g) = Ok (tbuild s (fun idx => op (f idx) (g idx))).
  Proof.
    intros. unfold map2b. rewrite !tbuild_shape, bcast_same. f_equal. apply tbuild_ext. intros idx H.
    rewrite bidx_same by auto. now rewrite !tget_tbuild.
  Qed.
  Lemma tadd_tbuild : forall s f g, tadd (tbuild s f) (tbuild s g) = Ok (tbuild s (fun idx => kadd (f idx) (g idx))).
  Proof. intros. apply map2b_tbuild. Qed.
  Lemma tsub_tbuild : forall s f g, tsub (tbuild s f) (tbuild s g) = Ok (tbuild s (fun idx => ksub (f idx) (g idx))).
  Proof. intros. apply map2b_tbuild. Qed.

  (** matrix product *)
  Lemma matmul_2d : forall m k n f g,
    matmul (tbuild [m; k] f) (tbuild [k; n] g) =
    Ok (tbuild [m; n] (fun idx => bigsum (seq 0 k) (fun l =>
          kmul (f [nth 0 idx 0; l]) (g [l; nth 1 idx 0])))).
  Proof.
    intros. unfold matmul. rewrite !tbuild_shape. cbn [rev app]. rewrite Nat.eqb_refl, bcast_nil_l. cbn [length app]. f_equal. apply tbuild_ext. intros idx H.
    apply bigsum_ext. intros l Hl. apply in_seq in Hl.
    destruct idx as [|i [|j [|]]]; try solve [inversion H as [|? ? ? ? ? H']; inversion H' as [|? ? ? ? ? H'']; inversion H''].
    apply valid_cons in H. destruct H as [H1 H2]. apply valid_cons in H2. destruct H2 as [H2 _].
    cbn [nth firstn]. rewrite bidx_nil. cbn [app].
    rewrite !tget_tbuild; auto; repeat (apply valid_cons; split; [lia|]); constructor.
  Qed.

  (** batch broadcasting on the left operand: a plain matrix times a stack of columns/matrices *)
  Lemma matmul_mat_stack : forall m k n bs f g,
    matmul (tbuild [m; k] f) (tbuild (bs ++ [k; n]) g) =
    Ok (tbuild (bs ++ [m; n]) (fun idx => bigsum (seq 0 k) (fun l =>
          kmul (f [nth (length bs) idx 0; l])
               (g (firstn (length bs) idx ++ [l; nth (S (length bs)) idx 0]))))).
  Proof.
    intros. unfold matmul. rewrite !tbuild_shape. rewrite rev_app_distr. cbn [rev app].
    rewrite Nat.eqb_refl, rev_involutive, bcast_nil_l. f_equal.
    apply tbuild_ext. intros idx H. pose proof (valid_length _ _ H) as HL.
    rewrite app_length in HL. simpl in HL.
    assert (Hd : idx = firstn (length bs) idx ++ [nth (length bs) idx 0; nth (S (length bs)) idx 0]).
    { rewrite <- (firstn_skipn (length bs) idx) at 1. f_equal.
      assert (HL2 : length (skipn (length bs) idx) = 2) by (rewrite skipn_length; lia).
      destruct (skipn (length bs) idx) as [|i [|j [|]]] eqn:E; simpl in HL2; try lia.
      f_equal; [|f_equal].
      - replace (length bs) with (length bs + 0) by lia. rewrite <- nth_skipn'. now rewrite E.
      - replace (S (length bs)) with (length bs + 1) by lia. rewrite <- nth_skipn'. now rewrite E. }
    rewrite Hd in H. apply valid_app in H. 2:{ rewrite firstn_length. lia. }
    destruct H as [Hb Hij]. apply valid_cons in Hij. destruct Hij as [Hi Hj]. apply valid_cons in Hj. destruct Hj as [Hj _].
    apply bigsum_ext. intros l Hl. apply in_seq in Hl.
    rewrite bidx_nil. rewrite bidx_same by auto. cbn [app].
    rewrite !tget_tbuild; auto.
    - apply valid_app. { now rewrite (valid_length _ _ Hb). } split; auto.
      repeat (apply valid_cons; split; [lia|]); constructor.
    - repeat (apply valid_cons; split; [lia|]); constructor.
  Qed.

  (** kron of matrices *)
  Lemma kron_2d : forall m n p q f g,
    kron (tbuild [m; n] f) (tbuild [p; q] g) =
    tbuild [m * p; n * q] (fun idx =>
      kmul (f [nth 0 idx 0 / p; nth 1 idx 0 / q]) (g [nth 0 idx 0 mod p; nth 1 idx 0 mod q])).
  Proof.
    intros. unfold kron, rank, padl. rewrite !tbuild_shape. cbn [length Nat.max Nat.sub repeat app map2n].
    apply tbuild_ext. intros idx H.
    destruct idx as [|i [|j [|]]]; try solve [inversion H as [|? ? ? ? ? H']; inversion H' as [|? ? ? ? ? H'']; inversion H''].
    apply valid_cons in H. destruct H as [H1 H2]. apply valid_cons in H2. destruct H2 as [H2 _].
    cbn [nth map2n]. f_equal.
    - change (mkT [m; n] (data (tbuild [m; n] f))) with (tbuild [m; n] f).
      rewrite tget_tbuild; auto. repeat (apply valid_cons; split).
      + apply Nat.div_lt_upper_bound; lia. + apply Nat.div_lt_upper_bound; lia. + constructor.
    - change (mkT [p; q] (data (tbuild [p; q] g))) with (tbuild [p; q] g).
      rewrite tget_tbuild; auto. repeat (apply valid_cons; split).
      + apply Nat.mod_upper_bound; lia. + apply Nat.mod_upper_bound; lia. + constructor.
  Qed.

  (** permutations *)
  Lemma index_of_nth : forall p k d, NoDup p -> k < length p -> index_of (nth k p d) p = k.
  Proof.
    induction p; simpl; intros k d Hn Hk; [lia|]. inversion Hn; subst. destruct k.
    - now rewrite Nat.eqb_refl.
    - destruct (a =? nth k p d) eqn:E.
      + apply Nat.eqb_eq in E. exfalso. apply H1. rewrite E. apply nth_In. lia.
      + f_equal. apply IHp; auto. lia.
  Qed.
  Lemma index_of_lt : forall p d, In d p -> index_of d p < length p.
  Proof.
    induction p; simpl; intros d []. { subst. rewrite Nat.eqb_refl. lia. }
    destruct (a =? d); [lia|]. apply IHp in H. lia.
  Qed.
  Lemma nth_index_of : forall p d x, In d p -> nth (index_of d p) p x = d.
  Proof.
    induction p; simpl; intros d x []. { subst. now rewrite Nat.eqb_refl. }
    destruct (a =? d) eqn:E. { now apply Nat.eqb_eq in E. } simpl. auto.
  Qed.

  Lemma is_perm_spec : forall p n, is_perm p n = true <-> Permutation p (seq 0 n).
  Proof.
    intros p n. unfold is_perm. rewrite andb_true_iff, Nat.eqb_eq, forallb_forall. split.
    - intros [H1 H2]. symmetry. apply NoDup_Permutation_bis.
      + apply seq_NoDup.
      + rewrite seq_length. lia.
      + intros d Hd. apply H2 in Hd. apply existsb_exists in Hd. destruct Hd as [x [Hx E]].
        apply Nat.eqb_eq in E. now subst.
    - intros H. split. { rewrite (Permutation_length H). apply seq_length. }
      intros d Hd. apply existsb_exists. exists d. split; [|apply Nat.eqb_refl].
      eapply Permutation_in; [symmetry; exact H|auto].
  Qed.

  Lemma unperm_length : forall p idx, length (unperm p idx) = length p.
  Proof. intros. unfold unperm. now rewrite map_length, seq_length. Qed.

  Lemma nth_unperm : forall p idx k d, k < length p -> nth k (unperm p idx) d = nth (index_of k p) idx 0.
  Proof.
    intros. unfold unperm.
    rewrite (nth_indep _ d (nth (index_of 0 p) idx 0)) by (rewrite map_length, seq_length; auto).
    rewrite (map_nth (fun d => nth (index_of d p) idx 0)), seq_nth by auto. reflexivity.
  Qed.

  (** [unperm p] inverts taking coordinates along [p] *)
  Lemma unperm_take : forall p b, Permutation p (seq 0 (length b)) ->
    unperm p (map (fun d => nth d b 0) p) = b.
  Proof.
    intros p b H. assert (HL : length p = length b) by (rewrite (Permutation_length H); apply seq_length).
    apply nth_ext with (d := 0) (d' := 0). { now rewrite unperm_length. }
    intros k Hk. rewrite unperm_length in Hk. rewrite nth_unperm by auto.
    assert (Hin : In k p). { eapply Permutation_in; [symmetry; exact H|]. apply in_seq. lia. }
    rewrite (nth_indep _ 0 (nth 0 b 0)) by (rewrite map_length; now apply index_of_lt).
    rewrite (map_nth (fun d => nth d b 0)). now rewrite nth_index_of.
  Qed.

  Lemma take_unperm : forall p idx, Permutation p (seq 0 (length idx)) ->
    map (fun d => nth d (unperm p idx) 0) p = idx.
  Proof.
    intros p idx H. assert (HL : length p = length idx) by (rewrite (Permutation_length H); apply seq_length).
    assert (Hn : NoDup p). { eapply Permutation_NoDup; [symmetry; exact H|apply seq_NoDup]. }
    apply nth_ext with (d := 0) (d' := 0). { now rewrite map_length. }
    intros k Hk. rewrite map_length in Hk.
    rewrite (nth_indep _ 0 (nth 0 (unperm p idx) 0)) by (now rewrite map_length).
    rewrite (map_nth (fun d => nth d (unperm p idx) 0)).
    rewrite nth_unperm.
    - now rewrite index_of_nth.
    - assert (In (nth k p 0) (seq 0 (length idx))). { eapply Permutation_in; [exact H|]. now apply nth_In. }
      apply in_seq in H0. lia.
  Qed.

  Lemma valid_unperm : forall p s idx, Permutation p (seq 0 (length s)) ->
    valid (map (fun d => nth d s 0) p) idx -> valid s (unperm p idx).
  Proof.
    intros p s idx H Hv. assert (HL : length p = length s) by (rewrite (Permutation_length H); apply seq_length).
    apply valid_nth. rewrite unperm_length. split; auto. intros k Hk.
    rewrite nth_unperm by lia. apply valid_nth in Hv. rewrite map_length in Hv. destruct Hv as [_ Hv].
    assert (Hin : In k p). { eapply Permutation_in; [symmetry; exact H|]. apply in_seq. lia. }
    specialize (Hv (index_of k p) (index_of_lt _ _ Hin)).
    rewrite (nth_indep (map _ p) 0 (nth 0 s 0)) in Hv by (rewrite map_length; now apply index_of_lt).
    rewrite (map_nth (fun d => nth d s 0)), nth_index_of in Hv by auto. exact Hv.
  Qed.

  Lemma dim_index_nat : forall n i, i < n -> dim_index n (Z.of_nat i) = Ok i.
  Proof. intros. unfold dim_index. now rewrite py_index_nat. Qed.

  Lemma mmap_dim_index : forall n p, (forall d, In d p -> d < n) ->
    mmap (dim_index n) (map Z.of_nat p) = Ok p.
  Proof.
    intros n p H. rewrite mmap_map. rewrite (mmap_Ok_ext _ _ _ (fun x => x)). { now rewrite map_id. }
    intros. apply dim_index_nat. auto.
  Qed.

  Lemma permute_tbuild : forall s f p, Permutation p (seq 0 (length s)) ->
    permute (tbuild s f) (map Z.of_nat p) =
    Ok (tbuild (map (fun d => nth d s 0) p) (fun idx => f (unperm p idx))).
  Proof.
    intros s f p H. unfold permute, rank. rewrite tbuild_shape.
    rewrite mmap_dim_index. 2:{ intros d Hd. assert (In d (seq 0 (length s))) by (eapply Permutation_in; eauto). apply in_seq in H0. lia. }
    simpl. replace (is_perm p (length s)) with true by (symmetry; now apply is_perm_spec).
    f_equal. apply tbuild_ext. intros idx Hv. apply tget_tbuild. now apply valid_unperm.
  Qed.

  (** unsqueeze *)
  Lemma unsqueeze_nat : forall t k, k <= rank t ->
    unsqueeze t (Z.of_nat k) = Ok (mkT (firstn k (shape t) ++ 1 :: skipn k (shape t)) (data t)).
  Proof. intros. unfold unsqueeze. now rewrite dim_index_nat by lia. Qed.

  Lemma dim_index_last : forall n, dim_index (S n) (-1)%Z = Ok n.
  Proof.
    intros. unfold dim_index, py_index.
    destruct ((0 <=? -1)%Z && (-1 <? Z.of_nat (S n))%Z) eqn:E. { simpl in E. discriminate. }
    destruct ((- Z.of_nat (S n) <=? -1)%Z && (-1 <? 0)%Z) eqn:E2.
    - f_equal. lia.
    - exfalso. apply andb_false_iff in E2. destruct E2 as [E2|E2]; [apply Z.leb_gt in E2; lia|discriminate].
  Qed.

  Lemma unsqueeze_last : forall t,
    unsqueeze t (-1)%Z = Ok (mkT (shape t ++ [1]) (data t)).
  Proof.
    intros. unfold unsqueeze. rewrite dim_index_last. simpl bind.
    unfold rank. now rewrite firstn_all, skipn_all.
  Qed.

  Lemma select_tbuild : forall n s f k, k < n ->
    tselect (tbuild (n :: s) f) (Z.of_nat k) = Ok (tbuild s (fun idx => f (k :: idx))).
  Proof.
    intros. unfold tselect. rewrite tbuild_shape, py_index_nat by auto. f_equal.
    apply tbuild_ext. intros. apply tget_tbuild. apply valid_cons; auto.
  Qed.
End Facts.
