(** Lemmas: torch primitives used by the matrix-product code. *)
From Coq Require Import List ZArith QArith Lia ZifyBool Bool Arith Ring Permutation.
From Verif Require Import PyBase Scalar BigSum Index Tensor TensorFacts Spec SpecFacts QMath QTN QOperator
  ExpandFacts ExpandFacts2 ContractFacts MPSSpec.
Import ListNotations.
Local Close Scope Q_scope.
Local Open Scope nat_scope.

(** indices of rank 1..5 *)
Lemma valid_inv0 : forall idx, valid [] idx -> idx = [].
Proof. intros idx H. inversion H. reflexivity. Qed.
Lemma valid_inv_cons : forall n s idx, valid (n :: s) idx -> exists i r, idx = i :: r /\ i < n /\ valid s r.
Proof. intros n s [|i r] H; [inversion H|]. apply valid_cons in H. eauto. Qed.

Lemma skipn_S_tl : forall A k (l : list A), skipn (S k) l = tl (skipn k l).
Proof. induction k; destruct l; auto. change (skipn (S k) l = tl (skipn k l)). apply IHk. Qed.

(** split a validity hypothesis on an explicit shape *)
Ltac vinv H :=
  lazymatch type of H with
  | valid [] ?i => apply valid_inv0 in H; subst i
  | valid (_ :: _) ?i =>
      let x := fresh "x" in let r := fresh "r" in let E := fresh "E" in let L := fresh "L" in
      destruct (valid_inv_cons _ _ _ H) as (x & r & E & L & H'); clear H; rename H' into H; subst i; vinv H
  end.
Ltac vok := repeat (apply valid_cons; split); [..|constructor]; try lia; try nia.

Section MPSFacts1.
  Context {SC : Scalar}.
  Add Ring KR : k_ring.
  Local Open Scope k_scope.

  (** ** matmul with batch dimensions, one of the two sizes being 1 in each *)
  Definition pair_ok (p : nat * nat) : Prop := fst p = 1%nat \/ snd p = 1%nat.
  Definition pmul (p : nat * nat) : nat := (fst p * snd p)%nat.

  Lemma bcast_rev_pairs : forall ps, Forall pair_ok ps ->
    bcast_rev (map fst ps) (map snd ps) = Some (map pmul ps).
  Proof.
    induction ps as [|[a b] ps IH]; intros H; auto. inversion H as [|? ? H1 H2]; subst. cbn [map fst snd bcast_rev].
    rewrite IH by auto. unfold pmul at 4. cbn [fst snd]. destruct H1 as [H1|H1]; cbn [fst snd] in H1; subst.
    - destruct (1 =? b)%nat eqn:E; cbn [Nat.eqb]; do 2 f_equal; lia.
    - destruct (a =? 1)%nat eqn:E; cbn [Nat.eqb]; do 2 f_equal; lia.
  Qed.
  Lemma bcast_pairs : forall ps, Forall pair_ok ps -> bcast (map fst ps) (map snd ps) = Some (map pmul ps).
  Proof.
    intros ps H. unfold bcast. rewrite <- !map_rev, bcast_rev_pairs by (now apply Forall_rev).
    now rewrite map_rev, rev_involutive.
  Qed.

  Lemma zip0_pairs1 : forall ps idx, Forall pair_ok ps -> valid (map pmul ps) idx -> valid (map fst ps) (zip0 (map fst ps) idx).
  Proof.
    induction ps as [|[a b] ps IH]; intros idx H V. { constructor. } inversion H as [|? ? H1 H2]; subst.
    destruct (valid_inv_cons _ _ _ V) as (i & r & -> & L & V'). cbn [map fst zip0]. apply valid_cons. split; auto.
    unfold pmul in L. cbn [fst snd] in *. destruct H1 as [H1|H1]; cbn [fst snd] in H1; subst; [cbn; lia|].
    destruct (a =? 1)%nat eqn:E; lia.
  Qed.
  Lemma zip0_pairs2 : forall ps idx, Forall pair_ok ps -> valid (map pmul ps) idx -> valid (map snd ps) (zip0 (map snd ps) idx).
  Proof.
    induction ps as [|[a b] ps IH]; intros idx H V. { constructor. } inversion H as [|? ? H1 H2]; subst.
    destruct (valid_inv_cons _ _ _ V) as (i & r & -> & L & V'). cbn [map snd zip0]. apply valid_cons. split; auto.
    unfold pmul in L. cbn [fst snd] in *. destruct H1 as [H1|H1]; cbn [fst snd] in H1; subst; [|cbn; lia].
    destruct (b =? 1)%nat eqn:E; lia.
  Qed.

  Lemma matmul_pairs : forall ps m k n f g, Forall pair_ok ps ->
    matmul (tbuild (map fst ps ++ [m; k]) f) (tbuild (map snd ps ++ [k; n]) g) =
    Ok (tbuild (map pmul ps ++ [m; n]) (fun idx => bigsum (seq 0 k) (fun l =>
          f (zip0 (map fst ps) (firstn (length ps) idx) ++ [nth (length ps) idx 0%nat; l]) *
          g (zip0 (map snd ps) (firstn (length ps) idx) ++ [l; nth (S (length ps)) idx 0%nat])))).
  Proof.
    intros ps m k n f g H. unfold matmul. rewrite !tbuild_shape, !rev_app_distr. cbn [rev app].
    rewrite Nat.eqb_refl, !rev_involutive, bcast_pairs by auto. rewrite map_length. f_equal. apply tbuild_ext. intros idx V.
    apply bigsum_ext. intros l Hl. apply in_seq in Hl.
    assert (Lx : length idx = (length ps + 2)%nat) by (apply valid_length in V; now rewrite app_length, map_length in V).
    rewrite <- (firstn_skipn (length ps) idx) in V. apply valid_app in V. 2:{ rewrite firstn_length, map_length; lia. }
    destruct V as [V1 V2].
    assert (N1 : nth (length ps) idx 0%nat = nth 0 (skipn (length ps) idx) 0%nat) by (rewrite nth_skipn'; f_equal; lia).
    assert (N2 : nth (S (length ps)) idx 0%nat = nth 1 (skipn (length ps) idx) 0%nat) by (rewrite nth_skipn'; f_equal; lia).
    rewrite N1, N2. clear N1 N2. remember (skipn (length ps) idx) as sk. clear Heqsk. vinv V2. cbn [nth].
    assert (Lf : length (firstn (length ps) idx) = length ps) by (rewrite firstn_length; lia).
    unfold bidx. rewrite Lf, !map_length, Nat.sub_diag. cbn [skipn].
    pose proof (zip0_pairs1 ps _ H V1) as Z1. pose proof (zip0_pairs2 ps _ H V1) as Z2.
    rewrite !tget_tbuild; auto; (apply valid_app; [erewrite valid_length by eauto; reflexivity|]); (split; [assumption|vok]).
  Qed.

  (** the first operand having further leading dimensions *)
  Lemma bcast_rev_app : forall s1 s2 s r, length s1 = length s2 -> bcast_rev s1 s2 = Some s -> bcast_rev (s1 ++ r) s2 = Some (s ++ r).
  Proof.
    induction s1 as [|a s1 IH]; intros [|b s2] s r HL H; try discriminate.
    - cbn in *. injection H as <-. destruct r; reflexivity.
    - cbn [app bcast_rev] in *. injection HL as HL. destruct (bcast_rev s1 s2) as [s'|] eqn:E; [|discriminate].
      rewrite (IH s2 s' r HL E).
      destruct (a =? b)%nat; [injection H as <-; reflexivity|].
      destruct (a =? 1)%nat; [injection H as <-; reflexivity|].
      destruct (b =? 1)%nat; [injection H as <-; reflexivity|discriminate].
  Qed.
  Lemma bcast_pre : forall pre ps, Forall pair_ok ps -> bcast (pre ++ map fst ps) (map snd ps) = Some (pre ++ map pmul ps).
  Proof.
    intros pre ps H. unfold bcast. rewrite rev_app_distr, <- !map_rev.
    rewrite (bcast_rev_app _ _ (map pmul (rev ps))).
    - now rewrite rev_app_distr, rev_involutive, <- map_rev, rev_involutive.
    - now rewrite !map_length.
    - apply bcast_rev_pairs. now apply Forall_rev.
  Qed.
  Lemma zip0_app : forall s1 s2 i1 i2, length i1 = length s1 -> zip0 (s1 ++ s2) (i1 ++ i2) = zip0 s1 i1 ++ zip0 s2 i2.
  Proof. induction s1; destruct i1; intros i2 H; try discriminate; auto. cbn [app zip0]. f_equal. apply IHs1. now injection H. Qed.

  Lemma matmul_pre : forall pre ps m k n f g, Forall pair_ok ps ->
    matmul (tbuild ((pre ++ map fst ps) ++ [m; k]) f) (tbuild (map snd ps ++ [k; n]) g) =
    Ok (tbuild ((pre ++ map pmul ps) ++ [m; n]) (fun idx => bigsum (seq 0 k) (fun l =>
          f ((firstn (length pre) idx ++ zip0 (map fst ps) (firstn (length ps) (skipn (length pre) idx))) ++ [nth (length pre + length ps) idx 0%nat; l]) *
          g (zip0 (map snd ps) (firstn (length ps) (skipn (length pre) idx)) ++ [l; nth (S (length pre + length ps)) idx 0%nat])))).
  Proof.
    intros pre ps m k n f g H. unfold matmul. rewrite !tbuild_shape, !(rev_app_distr _ [m; k]), (rev_app_distr _ [k; n]). cbn [rev app].
    rewrite Nat.eqb_refl, !rev_involutive, bcast_pre by auto. f_equal. apply tbuild_ext. intros idx V.
    rewrite app_length, map_length.
    apply bigsum_ext. intros l Hl. apply in_seq in Hl.
    set (p := length pre) in *. set (q := length ps) in *.
    assert (Lx : length idx = (p + q + 2)%nat) by (apply valid_length in V; rewrite !app_length, map_length in V; cbn in V; lia).
    rewrite <- app_assoc in V.
    rewrite <- (firstn_skipn p idx) in V. apply valid_app in V. 2:{ rewrite firstn_length; subst p; lia. }
    destruct V as [V1 V2].
    rewrite <- (firstn_skipn q (skipn p idx)) in V2. apply valid_app in V2.
    2:{ rewrite firstn_length, skipn_length, map_length; subst q; lia. }
    destruct V2 as [V2 V3].
    assert (N1 : nth (p + q) idx 0%nat = nth 0 (skipn q (skipn p idx)) 0%nat) by (rewrite !nth_skipn'; f_equal; lia).
    assert (N2 : nth (S (p + q)) idx 0%nat = nth 1 (skipn q (skipn p idx)) 0%nat) by (rewrite !nth_skipn'; f_equal; lia).
    rewrite N1, N2. clear N1 N2.
    assert (F : firstn (p + q) idx = firstn p idx ++ firstn q (skipn p idx)).
    { rewrite <- (firstn_skipn p idx) at 1. rewrite firstn_app, firstn_firstn, Nat.min_r by lia. f_equal. f_equal.
      rewrite firstn_length. lia. }
    rewrite F. remember (skipn q (skipn p idx)) as sk. clear Heqsk. vinv V3. cbn [nth].
    assert (L1 : length (firstn p idx) = p) by (rewrite firstn_length; lia).
    assert (L2 : length (firstn q (skipn p idx)) = q) by (rewrite firstn_length, skipn_length; lia).
    unfold bidx. rewrite !app_length, !map_length, L1, L2. fold p q. rewrite Nat.sub_diag. cbn [skipn].
    replace (p + q - q)%nat with p by lia. rewrite skipn_app, L1, Nat.sub_diag, skipn_O, (skipn_all2 (firstn p idx)) by lia. cbn [app].
    rewrite zip0_app by (subst p; exact L1). rewrite (zip0_same pre) by exact V1.
    pose proof (zip0_pairs1 ps _ H V2) as Z1. pose proof (zip0_pairs2 ps _ H V2) as Z2.
    assert (L3 : length (zip0 (map fst ps) (firstn q (skipn p idx))) = length (map fst ps)) by (now apply valid_length in Z1).
    rewrite !tget_tbuild; auto.
    - apply valid_app; [apply (valid_length _ _ Z2)|]. split; [assumption|vok].
    - apply valid_app; [rewrite !app_length, L1, L3; reflexivity|]. split; [apply valid_app; [exact L1|auto]|vok].
  Qed.

  Lemma unsqueeze_tbuild : forall s f k, (k <= length s)%nat ->
    unsqueeze (tbuild s f) (Z.of_nat k) =
    Ok (tbuild (firstn k s ++ 1%nat :: skipn k s) (fun idx => f (firstn k idx ++ skipn (S k) idx))).
  Proof.
    intros s f k Hk. rewrite unsqueeze_nat by exact Hk. cbn [shape tbuild].
    assert (P : prodn s = prodn (firstn k s ++ 1%nat :: skipn k s)).
    { rewrite <- (firstn_skipn k s) at 1. rewrite !prodn_app. cbn [prodn]. lia. }
    rewrite reshape_tbuild by exact P. f_equal. apply tbuild_ext. intros idx V. f_equal.
    assert (Lx : length idx = S (length s)).
    { apply valid_length in V. rewrite app_length in V. cbn [length] in V. rewrite firstn_length, skipn_length in V. lia. }
    rewrite <- (firstn_skipn k idx) in V. apply valid_app in V. 2:{ rewrite !firstn_length; lia. }
    destruct V as [V1 V2]. destruct (valid_inv_cons _ _ _ V2) as (z & r & E & Lz & V3).
    assert (E' : skipn (S k) idx = r).
    { rewrite skipn_S_tl, E. reflexivity. }
    rewrite E'. apply unflat_unique.
    - rewrite <- (firstn_skipn k s). apply valid_app. { rewrite !firstn_length; lia. } auto.
    - rewrite <- (firstn_skipn k idx) at 2. rewrite E. rewrite <- (firstn_skipn k s) at 1.
      rewrite !flat_app by (rewrite !firstn_length; lia). cbn [prodn flat]. assert (z = 0)%nat by lia. subst. lia.
  Qed.

  (** ** cutting and joining matrices *)
  Lemma cat2_rows : forall a b n f g, cat2 0 (tbuild [a; n] f) (tbuild [b; n] g) =
    Ok (tbuild [(a + b)%nat; n] (fun idx => if (nth 0 idx 0 <? a)%nat then f idx else g [(nth 0 idx 0 - a)%nat; nth 1 idx 0%nat])).
  Proof.
    intros. unfold cat2. rewrite !tbuild_shape. cbn [nth_error set_nth].
    destruct (list_eq_dec Nat.eq_dec [0%nat; n] [0%nat; n]) as [_|N]; [|congruence]. f_equal. apply tbuild_ext. intros idx V. vinv V. cbn [nth set_nth].
    destruct (x <? a)%nat eqn:E; rewrite tget_tbuild; auto; vok.
  Qed.
  Lemma cat2_cols : forall m a b f g, cat2 1 (tbuild [m; a] f) (tbuild [m; b] g) =
    Ok (tbuild [m; (a + b)%nat] (fun idx => if (nth 1 idx 0 <? a)%nat then f idx else g [nth 0 idx 0%nat; (nth 1 idx 0 - a)%nat])).
  Proof.
    intros. unfold cat2. rewrite !tbuild_shape. cbn [nth_error set_nth].
    destruct (list_eq_dec Nat.eq_dec [m; 0%nat] [m; 0%nat]) as [_|N]; [|congruence]. f_equal. apply tbuild_ext. intros idx V. vinv V. cbn [nth set_nth].
    destruct (x0 <? a)%nat eqn:E; rewrite tget_tbuild; auto; vok.
  Qed.

  Lemma tslice_cols : forall m n s len f, (s + len <= n)%nat ->
    tslice (tbuild [m; n] f) 1 s len = tbuild [m; len] (fun idx => f [nth 0 idx 0%nat; (s + nth 1 idx 0)%nat]).
  Proof.
    intros. unfold tslice. rewrite tbuild_shape. cbn [set_nth]. apply tbuild_ext. intros idx V. vinv V. cbn [nth set_nth].
    rewrite tget_tbuild; auto; vok.
  Qed.
  Lemma tslice_rows : forall m n s len f, (s + len <= m)%nat ->
    tslice (tbuild [m; n] f) 0 s len = tbuild [len; n] (fun idx => f [(s + nth 0 idx 0)%nat; nth 1 idx 0%nat]).
  Proof.
    intros. unfold tslice. rewrite tbuild_shape. cbn [set_nth]. apply tbuild_ext. intros idx V. vinv V. cbn [nth set_nth].
    rewrite tget_tbuild; auto; vok.
  Qed.

  (** chunk into k equal parts *)
  Lemma chunk_cols : forall m n k f, (0 < n)%nat -> (0 < k)%nat ->
    chunk (tbuild [m; (k * n)%nat] f) k 1 =
    Ok (map (fun i => tbuild [m; n] (fun idx => f [nth 0 idx 0%nat; (i * n + nth 1 idx 0)%nat])) (seq 0 k)).
  Proof.
    intros m n k f Hn Hk. unfold chunk. rewrite tbuild_shape. cbn [nth_error].
    replace (k =? 0)%nat with false by (symmetry; apply Nat.eqb_neq; lia).
    replace (k * n =? 0)%nat with false by (symmetry; apply Nat.eqb_neq; nia).
    assert (C : ((k * n + k - 1) / k = n)%nat).
    { symmetry. apply (Nat.div_unique _ _ _ (k - 1)%nat); lia. }
    rewrite C.
    assert (C2 : ((k * n + n - 1) / n = k)%nat).
    { symmetry. apply (Nat.div_unique _ _ _ (n - 1)%nat); lia. }
    rewrite C2. f_equal. apply map_ext_in. intros i Hi. apply in_seq in Hi.
    assert (Le : (i * n + n <= k * n)%nat) by nia.
    rewrite Nat.min_l by lia. now apply tslice_cols.
  Qed.

  Lemma fold_cols_ok : forall m n f, (0 < n)%nat ->
    fold_cols (tbuild [m; (2 * n)%nat] f) =
    Ok (tbuild [(2 * m)%nat; n] (fun idx => f [(nth 0 idx 0 mod m)%nat; ((nth 0 idx 0 / m) * n + nth 1 idx 0)%nat])).
  Proof.
    intros m n f Hn. unfold fold_cols. rewrite chunk_cols by lia. cbn [bind].
    change (seq 0 2) with [0%nat; 1%nat]. cbn [map].
    change 1%Z with (Z.of_nat 1). change 0%Z with (Z.of_nat 0).
    erewrite (py_nth_nat _ _ 0) by (cbn; lia). cbn [bind]. erewrite (py_nth_nat _ _ 1) by (cbn; lia). cbn [bind nth].
    unfold cat. cbn [mfold]. rewrite cat2_rows. cbn [bind]. f_equal. replace (2 * m)%nat with (m + m)%nat by lia.
    apply tbuild_ext. intros idx V. vinv V. cbn [nth].
    destruct (x <? m)%nat eqn:E.
    - rewrite Nat.mod_small, Nat.div_small by lia. reflexivity.
    - assert (D : (x / m = 1)%nat) by (symmetry; apply (Nat.div_unique _ _ _ (x - m)%nat); lia).
      assert (M : (x mod m = x - m)%nat) by (symmetry; apply (Nat.mod_unique _ _ 1%nat); lia).
      now rewrite D, M.
    Unshelve. all: exact (mkT [] []).
  Qed.

  Lemma view_site_ok : forall m d f, (0 < d)%nat -> (0 < m)%nat ->
    view_site (tbuild [(2 * m)%nat; d] f) =
    Ok (tbuild [2%nat; m; d] (fun idx => f [(nth 0 idx 0 * m + nth 1 idx 0)%nat; nth 2 idx 0%nat])).
  Proof.
    intros m d f Hd Hm. unfold view_site, zdim. rewrite tbuild_shape. cbn [nth].
    change [2%Z; (-1)%Z; Z.of_nat d] with (map Z.of_nat [2%nat] ++ (-1)%Z :: map Z.of_nat [d]).
    rewrite (view_m1 _ [2%nat] [d] m) by (cbn [prodn shape tbuild app]; lia). cbn [app].
    rewrite reshape_tbuild by (cbn [prodn]; lia). f_equal. apply tbuild_ext. intros idx V. vinv V. cbn [nth]. f_equal.
    apply unflat_unique; [vok|]. cbn [flat prodn]. lia.
  Qed.

  (** ** the truncated SVD *)
  Section Svd.
    Variable svd : tensor -> tensor * tensor * tensor.

    Lemma filter_prefix : forall (l : list K) (p : K -> bool) D, (D <= length l)%nat ->
      (forall i, (i < length l)%nat -> p (nth i l 0) = (i <? D)%nat) -> length (filter p l) = D.
    Proof.
      induction l as [|a l IH]; intros p D HD H; cbn [length] in *. { simpl. lia. }
      cbn [filter]. pose proof (H 0%nat ltac:(lia)) as H0. cbn [nth] in H0. destruct D as [|D].
      - rewrite H0. cbn [Nat.ltb Nat.leb]. apply IH; [lia|]. intros i Hi. exact (H (S i) ltac:(lia)).
      - rewrite H0. cbn [Nat.ltb Nat.leb length]. f_equal. apply IH; [lia|]. intros i Hi. exact (H (S i) ltac:(lia)).
    Qed.

    Lemma index_select_cols : forall m n D f, (0 < D <= n)%nat ->
      index_select (tbuild [m; n] f) 1 (seq 0 D) = Ok (tbuild [m; D] f).
    Proof.
      intros m n D f H. unfold index_select. rewrite tbuild_shape. cbn [nth_error]. rewrite seq_length.
      replace (D =? 0)%nat with false by lia.
      replace (existsb (fun i => (n <=? i)%nat) (seq 0 D)) with false.
      2:{ symmetry. apply not_true_iff_false. rewrite existsb_exists. intros (i & Hi & Hn). apply in_seq in Hi. lia. }
      cbn [orb set_nth]. f_equal. apply tbuild_ext. intros idx V. vinv V. cbn [nth set_nth]. rewrite seq_nth by lia.
      cbn [Nat.add]. apply tget_tbuild. vok.
    Qed.
    Lemma index_select_rows : forall m n D f, (0 < D <= m)%nat ->
      index_select (tbuild [m; n] f) 0 (seq 0 D) = Ok (tbuild [D; n] f).
    Proof.
      intros m n D f H. unfold index_select. rewrite tbuild_shape. cbn [nth_error]. rewrite seq_length.
      replace (D =? 0)%nat with false by lia.
      replace (existsb (fun i => (m <=? i)%nat) (seq 0 D)) with false.
      2:{ symmetry. apply not_true_iff_false. rewrite existsb_exists. intros (i & Hi & Hn). apply in_seq in Hi. lia. }
      cbn [orb set_nth]. f_equal. apply tbuild_ext. intros idx V. vinv V. cbn [nth set_nth]. rewrite seq_nth by lia.
      cbn [Nat.add]. apply tget_tbuild. vok.
    Qed.

    (** with [D] kept values, a non-empty prefix of the k of them *)
    Lemma svd_cut_gen : forall A m n k D u s v,
      svd A = (tbuild [m; k] u, tbuild [k] s, tbuild [n; k] v) -> (0 < D <= k)%nat ->
      (forall l, (l < k)%nat -> kabsgt (s [l]) (1 # 100000000)%Q = (l <? D)%nat) ->
      svd_cut svd A = Ok (tbuild [m; D] u, tbuild [D; n] (fun idx => s [nth 0 idx 0%nat] * kconj (v [nth 1 idx 0%nat; nth 0 idx 0%nat]))).
    Proof.
      intros A m n k D u s v E HD HS. unfold svd_cut. rewrite E.
      change [1%Z; 0%Z] with (map Z.of_nat [1%nat; 0%nat]).
      rewrite permute_tbuild by (apply perm_swap). cbn [bind map nth].
      assert (L : length (filter (fun z : K => kabsgt z (1 # 100000000)) (data (tbuild [k] s))) = D).
      { apply filter_prefix.
        - cbn [data tbuild]. rewrite map_length, all_idx_length. cbn [prodn]. lia.
        - cbn [data tbuild]. rewrite map_length, all_idx_length. cbn [prodn]. intros i Hi.
          rewrite <- (HS i) by lia. f_equal. change (nth i (map s (all_idx [k])) 0) with (nth i (data (tbuild [k] s)) 0).
          replace i with (flat [k] [i]) at 1 by (cbn [flat prodn]; lia).
          exact (tget_tbuild [k] s [i] ltac:(vok)). }
      rewrite L. unfold diag. rewrite tbuild_shape. cbn [bind shape nth tbuild]. fold (tbuild [k; k]
        (fun idx => if (nth 0 idx 0 =? nth 1 idx 0)%nat then tget (tbuild [k] s) [nth 0 idx 0%nat] else 0)).
      assert (X : (if (D <? k)%nat
        then do U' <- index_select (tbuild [m; k] u) 1 (seq 0 D);
             do S' <- index_select (tbuild [k; k] (fun idx => if (nth 0 idx 0 =? nth 1 idx 0)%nat then tget (tbuild [k] s) [nth 0 idx 0%nat] else 0)) 0 (seq 0 D);
             Ok (U', S')
        else Ok (tbuild [m; k] u, tbuild [k; k] (fun idx => if (nth 0 idx 0 =? nth 1 idx 0)%nat then tget (tbuild [k] s) [nth 0 idx 0%nat] else 0)))
        = Ok (tbuild [m; D] u, tbuild [D; k] (fun idx => if (nth 0 idx 0 =? nth 1 idx 0)%nat then tget (tbuild [k] s) [nth 0 idx 0%nat] else 0))).
      { destruct (D <? k)%nat eqn:EL.
        - rewrite index_select_cols, index_select_rows by lia. reflexivity.
        - replace D with k by lia. reflexivity. }
      rewrite X. cbn [bind snd fst]. rewrite tconj_tbuild, matmul_2d. cbn [bind]. do 2 f_equal.
      apply tbuild_ext. intros idx V. vinv V. cbn [nth].
      rewrite (bigsum_single _ (seq 0 k) x); [|apply seq_NoDup|apply in_seq; lia|].
      - rewrite Nat.eqb_refl, tget_tbuild by vok. reflexivity.
      - intros l _ Hl. replace (x =? l)%nat with false by lia. ring.
    Qed.

    Lemma svd_cut_exact2 : forall m n a, exact_svd svd -> (0 < m)%nat -> (0 < n)%nat ->
      ~ (forall i j, (i < m)%nat -> (j < n)%nat -> a [i; j] = 0) ->
      exists D u c, (0 < D <= Nat.min m n)%nat /\ svd_cut svd (tbuild [m; n] a) = Ok (tbuild [m; D] u, tbuild [D; n] c) /\
        (forall i j, (i < m)%nat -> (j < n)%nat -> a [i; j] = bigsum (seq 0 D) (fun l => u [i; l] * c [l; j])) /\
        let '(_, Sg, V) := svd (tbuild [m; n] a) in forall l j, c [l; j] = tget Sg [l] * kconj (tget V [j; l]).
    Proof.
      intros m n a Hs Hm Hn Hnz.
      pose proof (Hs (tbuild [m; n] a) m n eq_refl (tbuild_wf _ _) Hm Hn) as H.
      destruct (svd (tbuild [m; n] a)) as [[U Sg] V] eqn:E. cbn zeta in H.
      destruct H as (SU & WU & SS & WS & SV & WV & EQ & D & HD & HS).
      set (k := Nat.min m n) in *.
      rewrite (tensor_eta U WU), SU, (tensor_eta Sg WS), SS, (tensor_eta V WV), SV in E.
      assert (EQ' : forall i j, (i < m)%nat -> (j < n)%nat -> a [i; j] =
        bigsum (seq 0 D) (fun l => tget U [i; l] * (tget Sg [l] * kconj (tget V [j; l])))).
      { intros i j Hi Hj. rewrite <- (tget_tbuild [m; n] a [i; j]) by vok. rewrite EQ by auto.
        replace k with (D + (k - D))%nat by lia. rewrite bigsum_seq_add.
        rewrite (bigsum_zero _ (seq 0 (k - D))).
        - transitivity (bigsum (seq 0 D) (fun l => tget U [i; l] * tget Sg [l] * kconj (tget V [j; l]))); [ring|].
          apply bigsum_ext. intros. ring.
        - intros l Hl. apply in_seq in Hl. specialize (HS (D + l)%nat ltac:(lia)).
          replace (D + l <? D)%nat with false in HS by lia. destruct HS as [_ ->]. ring. }
      destruct (Nat.eq_dec D 0) as [->|ND].
      { exfalso. apply Hnz. intros i j Hi Hj. rewrite EQ' by auto. reflexivity. }
      exists D, (tget U), (fun idx => tget Sg [nth 0 idx 0%nat] * kconj (tget V [nth 1 idx 0%nat; nth 0 idx 0%nat])).
      split; [lia|]. split; [|split; [exact EQ'|reflexivity]].
      apply (svd_cut_gen (tbuild [m; n] a) m n k D (tget U) (tget Sg) (tget V)); [exact E|lia|].
      intros l Hl. specialize (HS l Hl). destruct (l <? D)%nat; [exact HS|apply HS].
    Qed.
    Lemma svd_cut_exact : forall m n a, exact_svd svd -> (0 < m)%nat -> (0 < n)%nat ->
      ~ (forall i j, (i < m)%nat -> (j < n)%nat -> a [i; j] = 0) ->
      exists D u c, (0 < D)%nat /\ svd_cut svd (tbuild [m; n] a) = Ok (tbuild [m; D] u, tbuild [D; n] c) /\
        forall i j, (i < m)%nat -> (j < n)%nat -> a [i; j] = bigsum (seq 0 D) (fun l => u [i; l] * c [l; j]).
    Proof.
      intros m n a Hs Hm Hn Hnz. destruct (svd_cut_exact2 m n a Hs Hm Hn Hnz) as (D & u & c & H1 & H2 & H3 & _).
      exists D, u, c. split; [lia|]. split; assumption.
    Qed.
  End Svd.
End MPSFacts1.
