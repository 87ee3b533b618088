(** Lemmas: the state left by StateVec2MPS when singular values are dropped. *)
From Coq Require Import List ZArith QArith Lia ZifyBool Bool Arith Ring Permutation.
From Verif Require Import PyBase Scalar BigSum Index Tensor TensorFacts Spec SpecFacts QMath QTN QOperator
  ExpandFacts ExpandFacts2 ContractFacts MPSSpec MPSFacts1 MPSFacts2 TruncSpec.
Import ListNotations.
Local Close Scope Q_scope.
Local Open Scope nat_scope.

Section TruncFacts1.
  Context {SC : Scalar}.
  Add Ring KR : k_ring.
  Local Open Scope k_scope.

  (** vectors P k, orthonormal for k in Is *)
  Lemma iso : forall (B : Type) (Is : list nat) (Bs : list B) (P : nat -> B -> K) f g, NoDup Is ->
    (forall k k', In k Is -> In k' Is -> bigsum Bs (fun b => kconj (P k b) * P k' b) = if (k =? k')%nat then 1 else 0) ->
    bigsum Bs (fun b => kconj (bigsum Is (fun k => P k b * f k)) * bigsum Is (fun k => P k b * g k)) =
    bigsum Is (fun k => kconj (f k) * g k).
  Proof.
    intros B Is Bs P f g ND HP.
    transitivity (bigsum Bs (fun b => bigsum Is (fun k => bigsum Is (fun k' => kconj (f k) * g k' * (kconj (P k b) * P k' b))))).
    { apply bigsum_ext. intros b _. rewrite bigsum_conj, bigsum_mul_bigsum. apply bigsum_ext. intros k _. apply bigsum_ext. intros k' _.
      rewrite kconj_mul. ring. }
    rewrite bigsum_swap. apply bigsum_ext. intros k Hk. rewrite bigsum_swap.
    transitivity (bigsum Is (fun k' => kconj (f k) * g k' * (if (k =? k')%nat then 1 else 0))).
    { apply bigsum_ext. intros k' Hk'. rewrite bigsum_mul_l. now rewrite HP. }
    rewrite (bigsum_single _ Is k); auto.
    - rewrite Nat.eqb_refl. ring.
    - intros k' _ Hk'. replace (k =? k')%nat with false by lia. ring.
  Qed.
  (** the component along P k of a combination *)
  Lemma iso_comp : forall (B : Type) (Is : list nat) (Bs : list B) (P : nat -> B -> K) g k, NoDup Is -> In k Is ->
    (forall k k', In k Is -> In k' Is -> bigsum Bs (fun b => kconj (P k b) * P k' b) = if (k =? k')%nat then 1 else 0) ->
    bigsum Bs (fun b => kconj (P k b) * bigsum Is (fun k' => P k' b * g k')) = g k.
  Proof.
    intros B Is Bs P g k ND Hk HP.
    transitivity (bigsum Bs (fun b => bigsum Is (fun k' => g k' * (kconj (P k b) * P k' b)))).
    { apply bigsum_ext. intros b _. rewrite <- bigsum_mul_l. apply bigsum_ext. intros. ring. }
    rewrite bigsum_swap. rewrite (bigsum_single _ Is k); auto.
    - rewrite bigsum_mul_l, HP, Nat.eqb_refl by auto. ring.
    - intros k' Hk' Hne. rewrite bigsum_mul_l, HP by auto. replace (k =? k')%nat with false by lia. ring.
  Qed.

  (** the part of A = U diag(s) V^dagger that is dropped *)
  Lemma dropped_norm : forall m n k D (U V : nat -> nat -> K) (s : nat -> K), (D <= k)%nat ->
    (forall l l', (l < k)%nat -> (l' < k)%nat -> bigsum (seq 0 m) (fun i => kconj (U i l) * U i l') = if (l =? l')%nat then 1 else 0) ->
    (forall l l', (l < k)%nat -> (l' < k)%nat -> bigsum (seq 0 n) (fun i => kconj (V i l) * V i l') = if (l =? l')%nat then 1 else 0) ->
    let E i j := bigsum (seq D (k - D)) (fun l => U i l * (s l * kconj (V j l))) in
    bigsum (seq 0 m) (fun i => bigsum (seq 0 n) (fun j => kconj (E i j) * E i j)) = bigsum (seq D (k - D)) (fun l => kconj (s l) * s l).
  Proof.
    intros m n k D U V s HD HU HV E. rewrite bigsum_swap.
    transitivity (bigsum (seq 0 n) (fun j => bigsum (seq D (k - D)) (fun l => kconj (s l) * s l * (kconj (V j l) * V j l)))).
    { apply bigsum_ext. intros j _. unfold E. rewrite (iso _ (seq D (k - D)) (seq 0 m) (fun l i => U i l)).
      - apply bigsum_ext. intros l _. rewrite kconj_mul, kconj_invol. ring.
      - apply seq_NoDup.
      - intros l l' Hl Hl'. apply in_seq in Hl, Hl'. apply HU; lia. }
    rewrite bigsum_swap. apply bigsum_ext. intros l Hl. apply in_seq in Hl. rewrite bigsum_mul_l, HV, Nat.eqb_refl by lia. ring.
  Qed.

  Lemma inner_split : forall i N f g, (i < N)%nat -> inner N f g =
    bigsum (seq 0 2) (fun x => bigsum (bits (N - S i)) (fun b' => bigsum (bits i) (fun b => kconj (f (b ++ x :: b')) * g (b ++ x :: b')))).
  Proof.
    intros i N f g Hi. unfold inner. replace N with (i + S (N - S i))%nat at 1 by lia. rewrite bigsum_bits_app.
    transitivity (bigsum (bits i) (fun b => bigsum (seq 0 2) (fun x => bigsum (bits (N - S i)) (fun b' => kconj (f (b ++ x :: b')) * g (b ++ x :: b'))))).
    { apply bigsum_ext. intros b _. rewrite bigsum_bits_S. cbn [seq]. rewrite !bigsum_cons, bigsum_nil. ring. }
    rewrite bigsum_swap. apply bigsum_ext. intros x _. now rewrite bigsum_swap.
  Qed.

  Lemma bits_snoc_sum : forall i f, bigsum (bits (S i)) f = bigsum (seq 0 2) (fun x => bigsum (bits i) (fun b => f (b ++ [x]))).
  Proof.
    intros i f. rewrite <- Nat.add_1_r, bigsum_bits_app.
    transitivity (bigsum (bits i) (fun b => bigsum (seq 0 2) (fun x => f (b ++ [x])))).
    { apply bigsum_ext. intros b _. rewrite bigsum_bits_1. cbn [seq]. rewrite !bigsum_cons, bigsum_nil. ring. }
    now rewrite bigsum_swap.
  Qed.

  Lemma inner_sub_add : forall n d e, inner n d e = 0 -> inner n e d = 0 ->
    inner n (fun b => d b + e b) (fun b => d b + e b) = inner n d d + inner n e e.
  Proof.
    intros n d e H1 H2. transitivity (inner n d d + inner n d e + inner n e d + inner n e e).
    - unfold inner. rewrite <- !bigsum_add. apply bigsum_ext. intros b _. rewrite kconj_add. ring.
    - rewrite H1, H2. ring.
  Qed.
  Lemma inner_conj_sym : forall n d e, inner n e d = 0 -> inner n d e = 0.
  Proof.
    intros n d e H. rewrite <- (kconj_invol (inner n d e)). replace (kconj (inner n d e)) with (inner n e d); [rewrite H; apply kconj_0|].
    unfold inner. rewrite bigsum_conj. apply bigsum_ext. intros b _. rewrite kconj_mul, kconj_invol. ring.
  Qed.

  Section SV.
    Variable svd : tensor -> tensor * tensor * tensor.
    Variable N : nat.
    Variable psi : qstate.

    (** the state held by the sites and the remaining matrix *)
    Definition held (sites : list tensor) (i D : nat) (cf : list nat -> K) : qstate :=
      fun q => bigsum (seq 0 D) (fun k => mps_mat sites (firstn i q) 0%nat k * cf [k; bval (skipn i q)]).

    Definition small (s : K) : Prop := kabsgt s (1 # 100000000)%Q = false.
    Definition weight (dr : list K) : K := bigsum dr (fun s => kconj s * s).

    Definition diff (f g : qstate) : qstate := fun b => f b - g b.

    Definition tr_inv (i : nat) (st : tensor * list tensor) : Prop :=
      exists D cf dr, (0 < D <= 2 ^ i)%nat /\ fst st = tbuild [D; (2 ^ (N - i))%nat] cf /\ length (snd st) = i /\ chain 1 (snd st) D /\
        (forall k k', In k (seq 0 D) -> In k' (seq 0 D) ->
           bigsum (bits i) (fun b => kconj (mps_mat (snd st) b 0%nat k) * mps_mat (snd st) b 0%nat k') = if (k =? k')%nat then 1 else 0) /\
        (forall k b', (k < D)%nat -> In b' (bits (N - i)) ->
           bigsum (bits i) (fun b => kconj (mps_mat (snd st) b 0%nat k) * diff psi (held (snd st) i D cf) (b ++ b')) = 0) /\
        inner N (diff psi (held (snd st) i D cf)) (diff psi (held (snd st) i D cf)) = weight dr /\
        Forall small dr /\ (length dr <= cut_count N i)%nat.

    (** everything was dropped *)
    Definition all_small : Prop := exists dr, inner N psi psi = weight dr /\ Forall small dr /\ (length dr <= cut_count N (N - 1))%nat.

    Lemma held_app : forall sites i D cf b b', length b = i ->
      held sites i D cf (b ++ b') = bigsum (seq 0 D) (fun k => mps_mat sites b 0%nat k * cf [k; bval b']).
    Proof.
      intros sites i D cf b b' <-. unfold held. rewrite firstn_app, firstn_all, Nat.sub_diag. cbn [firstn]. rewrite app_nil_r.
      rewrite skipn_app, skipn_all, Nat.sub_diag. reflexivity.
    Qed.

    (** the combination of the sites with a folded matrix X *)
    Definition spread (sites : list tensor) (i D : nat) (X : nat -> nat -> K) : qstate :=
      fun q => bigsum (seq 0 D) (fun k => mps_mat sites (firstn i q) 0%nat k * X (nth i q 0 * D + k)%nat (bval (skipn (S i) q))).
    Lemma spread_app : forall sites i D X b x b', length b = i ->
      spread sites i D X (b ++ x :: b') = bigsum (seq 0 D) (fun k => mps_mat sites b 0%nat k * X (x * D + k)%nat (bval b')).
    Proof.
      intros sites i D X b x b' <-. unfold spread. rewrite firstn_app, firstn_all, Nat.sub_diag. cbn [firstn]. rewrite app_nil_r.
      rewrite app_nth2, Nat.sub_diag by lia. cbn [nth]. rewrite skipn_app, skipn_all2 by lia.
      replace (S (length b) - length b)%nat with 1%nat by lia. reflexivity.
    Qed.

    Section Level.
      Variables (sites : list tensor) (i D : nat).
      Hypothesis Hi : (i < N)%nat.
      Hypothesis HP : forall k k', In k (seq 0 D) -> In k' (seq 0 D) ->
           bigsum (bits i) (fun b => kconj (mps_mat sites b 0%nat k) * mps_mat sites b 0%nat k') = if (k =? k')%nat then 1 else 0.

      Lemma spread_iso : forall X Y, inner N (spread sites i D X) (spread sites i D Y) =
        bigsum (seq 0 (2 * D)) (fun r => bigsum (seq 0 (2 ^ (N - S i))) (fun j => kconj (X r j) * Y r j)).
      Proof.
        intros X Y. rewrite (inner_split i) by auto. rewrite bigsum_seq_mul. apply bigsum_ext. intros x _.
        transitivity (bigsum (bits (N - S i)) (fun b' => bigsum (seq 0 D) (fun k => kconj (X (x * D + k)%nat (bval b')) * Y (x * D + k)%nat (bval b')))).
        - apply bigsum_ext. intros b' _.
          rewrite <- (iso _ (seq 0 D) (bits i) (fun k b => mps_mat sites b 0%nat k) (fun k => X (x * D + k)%nat (bval b')) (fun k => Y (x * D + k)%nat (bval b'))).
          + apply bigsum_ext. intros b Hb. apply bits_length in Hb. now rewrite !spread_app.
          + apply seq_NoDup.
          + exact HP.
        - rewrite (bigsum_bits_seq _ (fun j => bigsum (seq 0 D) (fun k => kconj (X (x * D + k)%nat j) * Y (x * D + k)%nat j))). apply bigsum_swap.
      Qed.

      Lemma spread_perp : forall d X,
        (forall k b', (k < D)%nat -> In b' (bits (N - i)) -> bigsum (bits i) (fun b => kconj (mps_mat sites b 0%nat k) * d (b ++ b')) = 0) ->
        inner N (spread sites i D X) d = 0.
      Proof.
        intros d X H. rewrite (inner_split i) by auto. apply bigsum_zero. intros x Hx. apply in_seq in Hx. apply bigsum_zero. intros b' Hb'.
        transitivity (bigsum (bits i) (fun b => bigsum (seq 0 D) (fun k => kconj (X (x * D + k)%nat (bval b')) * (kconj (mps_mat sites b 0%nat k) * d (b ++ x :: b'))))).
        - apply bigsum_ext. intros b Hb. apply bits_length in Hb. rewrite spread_app by auto. rewrite bigsum_conj, <- bigsum_mul_r.
          apply bigsum_ext. intros k _. rewrite kconj_mul. ring.
        - rewrite bigsum_swap. apply bigsum_zero. intros k Hk. apply in_seq in Hk. rewrite bigsum_mul_l, H; [ring|lia|].
          replace (N - i)%nat with (S (N - S i)) by lia. apply bits_cons. split; [lia|exact Hb'].
      Qed.
    End Level.

    Lemma held_spread : forall sites i D cf b x b', (i < N)%nat -> In b (bits i) -> (x < 2)%nat -> In b' (bits (N - S i)) ->
      held sites i D cf (b ++ x :: b') = spread sites i D (fun r j => fold_f N D i cf [r; j]) (b ++ x :: b').
    Proof.
      intros sites i D cf b x b' Hi Hb Hx Hb'. pose proof (bits_length _ _ Hb) as L. rewrite held_app, spread_app by auto.
      apply bigsum_ext. intros k Hk. apply in_seq in Hk. rewrite fold_entry by lia. rewrite bval_cons, (bits_length _ _ Hb'). reflexivity.
    Qed.

    Lemma inner_ext2 : forall n f f', (forall b, In b (bits n) -> f b = f' b) -> inner n f f = inner n f' f'.
    Proof. intros n f f' H. unfold inner. apply bigsum_ext. intros b Hb. now rewrite H. Qed.

    Lemma bits_cut : forall i (b : list nat), (i < N)%nat -> In b (bits N) ->
      exists b1 x b2, b = b1 ++ x :: b2 /\ In b1 (bits i) /\ (x < 2)%nat /\ In b2 (bits (N - S i)).
    Proof.
      intros i b Hi Hb. destruct (bits_split i N b Hb ltac:(lia)) as [B1 B2].
      replace (N - i)%nat with (S (N - S i)) in B2 by lia.
      destruct (skipn i b) as [|x b'] eqn:ES. { apply bits_length in B2. discriminate. }
      apply bits_cons in B2. destruct B2 as [Hx B2]. exists (firstn i b), x, b'. split; [|auto]. rewrite <- ES. symmetry. apply firstn_skipn.
    Qed.

    Lemma cut_count_mono : forall i j, (i <= j)%nat -> (cut_count N i <= cut_count N j)%nat.
    Proof. intros i j H. induction H; [lia|]. cbn [cut_count]. lia. Qed.

    Section Step.
      Variables (sites : list tensor) (i D : nat) (cf : list nat -> K) (dr : list K).
      Hypothesis Hi : (S i < N)%nat.
      Hypothesis HD : (0 < D <= 2 ^ i)%nat.
      Hypothesis HL : length sites = i.
      Hypothesis HC : chain 1 sites D.
      Hypothesis HP : forall k k', In k (seq 0 D) -> In k' (seq 0 D) ->
           bigsum (bits i) (fun b => kconj (mps_mat sites b 0%nat k) * mps_mat sites b 0%nat k') = if (k =? k')%nat then 1 else 0.
      Hypothesis HO : forall k b', (k < D)%nat -> In b' (bits (N - i)) ->
           bigsum (bits i) (fun b => kconj (mps_mat sites b 0%nat k) * diff psi (held sites i D cf) (b ++ b')) = 0.
      Hypothesis HN : inner N (diff psi (held sites i D cf)) (diff psi (held sites i D cf)) = weight dr.
      Hypothesis HS : Forall small dr.
      Hypothesis HK : (length dr <= cut_count N i)%nat.
      Let m := (2 * D)%nat.
      Let n := (2 ^ (N - S i))%nat.
      Let k := Nat.min m n.
      Variables (u v s : list nat -> K) (D' : nat).
      Hypothesis HD' : (D' <= k)%nat.
      Hypothesis HE : forall r j, (r < m)%nat -> (j < n)%nat ->
        fold_f N D i cf [r; j] = bigsum (seq 0 k) (fun l => u [r; l] * s [l] * kconj (v [j; l])).
      Hypothesis HU : forall l l', (l < k)%nat -> (l' < k)%nat -> bigsum (seq 0 m) (fun r => kconj (u [r; l]) * u [r; l']) = if (l =? l')%nat then 1 else 0.
      Hypothesis HV : forall l l', (l < k)%nat -> (l' < k)%nat -> bigsum (seq 0 n) (fun r => kconj (v [r; l]) * v [r; l']) = if (l =? l')%nat then 1 else 0.
      Hypothesis Hs : forall l, (l < k)%nat -> kabsgt (s [l]) (1 # 100000000)%Q = (l <? D')%nat.

      Let Y r j := bigsum (seq 0 D') (fun l => u [r; l] * (s [l] * kconj (v [j; l]))).
      Let Ed r j := bigsum (seq D' (k - D')) (fun l => u [r; l] * (s [l] * kconj (v [j; l]))).
      Let dr' := dr ++ map (fun l => s [l]) (seq D' (k - D')).

      Lemma n_pos : (0 < n)%nat.
      Proof. apply Nat.neq_0_lt_0, Nat.pow_nonzero; lia. Qed.

      Lemma step_split : forall b x b', In b (bits i) -> (x < 2)%nat -> In b' (bits (N - S i)) ->
        held sites i D cf (b ++ x :: b') = spread sites i D Y (b ++ x :: b') + spread sites i D Ed (b ++ x :: b').
      Proof.
        intros b x b' Hb Hx Hb'. rewrite held_spread by (auto; lia). pose proof (bits_length _ _ Hb) as L.
        rewrite !spread_app by auto. rewrite <- bigsum_add. apply bigsum_ext. intros q Hq. apply in_seq in Hq.
        rewrite HE; [|unfold m; nia|apply bval_lt; exact Hb']. unfold Y, Ed.
        transitivity (mps_mat sites b 0%nat q * bigsum (seq 0 k) (fun l => u [(x * D + q)%nat; l] * (s [l] * kconj (v [bval b'; l])))).
        { f_equal. apply bigsum_ext. intros. ring. }
        replace (seq 0 k) with (seq 0 D' ++ seq D' (k - D')) by (rewrite <- seq_app; f_equal; lia). rewrite bigsum_app. ring.
      Qed.

      Lemma step_norm : inner N (diff psi (spread sites i D Y)) (diff psi (spread sites i D Y)) = weight dr'.
      Proof.
        rewrite (inner_ext2 N _ (fun b => diff psi (held sites i D cf) b + spread sites i D Ed b)).
        2:{ intros b Hb. destruct (bits_cut i b ltac:(lia) Hb) as (b1 & x & b2 & -> & B1 & Hx & B2). unfold diff.
            rewrite step_split by auto. ring. }
        assert (Z : inner N (spread sites i D Ed) (diff psi (held sites i D cf)) = 0) by (apply spread_perp; auto; lia).
        rewrite inner_sub_add by (auto using inner_conj_sym). rewrite HN. rewrite spread_iso by (auto; lia).
        unfold dr', weight. rewrite bigsum_app, bigsum_map. f_equal. fold m n. unfold Ed.
        apply (dropped_norm m n k D' (fun r l => u [r; l]) (fun r l => v [r; l]) (fun l => s [l])); auto.
      Qed.

      Lemma step_small : Forall small dr'.
      Proof.
        unfold dr'. apply Forall_app. split; auto. apply Forall_forall. intros z Hz. apply in_map_iff in Hz. destruct Hz as (l & <- & Hl).
        apply in_seq in Hl. unfold small. rewrite Hs by lia. lia.
      Qed.
      Lemma step_len : (length dr' <= cut_count N (S i))%nat.
      Proof.
        unfold dr'. rewrite app_length, map_length, seq_length. cbn [cut_count]. unfold k, m, n in *. cbn [Nat.pow]. lia.
      Qed.

      Let c' := fun idx : list nat => s [nth 0 idx 0%nat] * kconj (v [nth 1 idx 0%nat; nth 0 idx 0%nat]).
      Let site := tbuild [2%nat; D; D'] (fun idx => u [(nth 0 idx 0 * D + nth 1 idx 0)%nat; nth 2 idx 0%nat]).

      Lemma step_mat : forall b x l, In b (bits i) -> (x < 2)%nat -> (l < D')%nat ->
        mps_mat (sites ++ [site]) (b ++ [x]) 0%nat l = bigsum (seq 0 D) (fun q => mps_mat sites b 0%nat q * u [(x * D + q)%nat; l]).
      Proof.
        intros b x l Hb Hx Hl. pose proof (bits_length _ _ Hb) as L. rewrite (mps_mat_app sites [site] 1 D) by (auto; lia).
        apply bigsum_ext. intros q Hq. apply in_seq in Hq. rewrite (mps_mat_1 site D D') by (auto; lia).
        unfold site. rewrite tget_tbuild by vok. reflexivity.
      Qed.

      Lemma step_held : forall b x b', In b (bits i) -> (x < 2)%nat -> In b' (bits (N - S i)) ->
        held (sites ++ [site]) (S i) D' c' (b ++ x :: b') = spread sites i D Y (b ++ x :: b').
      Proof.
        intros b x b' Hb Hx Hb'. pose proof (bits_length _ _ Hb) as L.
        replace (b ++ x :: b') with ((b ++ [x]) ++ b') at 1 by (now rewrite <- app_assoc).
        rewrite held_app by (rewrite app_length; cbn [length]; lia). rewrite spread_app by auto.
        transitivity (bigsum (seq 0 D') (fun l => bigsum (seq 0 D) (fun q => mps_mat sites b 0%nat q * (u [(x * D + q)%nat; l] * (s [l] * kconj (v [bval b'; l])))))).
        - apply bigsum_ext. intros l Hl. apply in_seq in Hl. rewrite step_mat by (auto; lia). rewrite <- bigsum_mul_r.
          apply bigsum_ext. intros q _. unfold c'. cbn [nth]. ring.
        - rewrite bigsum_swap. apply bigsum_ext. intros q _. unfold Y. now rewrite bigsum_mul_l.
      Qed.

      Lemma step_orth : forall l l', In l (seq 0 D') -> In l' (seq 0 D') ->
        bigsum (bits (S i)) (fun b => kconj (mps_mat (sites ++ [site]) b 0%nat l) * mps_mat (sites ++ [site]) b 0%nat l') = if (l =? l')%nat then 1 else 0.
      Proof.
        intros l l' Hl Hl'. apply in_seq in Hl, Hl'. rewrite bits_snoc_sum.
        rewrite <- HU by lia. unfold m. rewrite bigsum_seq_mul. apply bigsum_ext. intros x Hx. apply in_seq in Hx.
        rewrite <- (iso _ (seq 0 D) (bits i) (fun q b => mps_mat sites b 0%nat q) (fun q => u [(x * D + q)%nat; l]) (fun q => u [(x * D + q)%nat; l'])).
        - apply bigsum_ext. intros b Hb. rewrite !step_mat by (auto; lia). reflexivity.
        - apply seq_NoDup.
        - exact HP.
      Qed.

      Lemma step_perp : forall l b', (l < D')%nat -> In b' (bits (N - S i)) ->
        bigsum (bits (S i)) (fun b => kconj (mps_mat (sites ++ [site]) b 0%nat l) * diff psi (held (sites ++ [site]) (S i) D' c') (b ++ b')) = 0.
      Proof.
        intros l b' Hl Hb'. rewrite bits_snoc_sum.
        transitivity (bigsum (seq 0 2) (fun x => bigsum (seq 0 D) (fun q => kconj (u [(x * D + q)%nat; l]) * Ed (x * D + q)%nat (bval b')))).
        - apply bigsum_ext. intros x Hx. apply in_seq in Hx.
          transitivity (bigsum (bits i) (fun b => kconj (bigsum (seq 0 D) (fun q => mps_mat sites b 0%nat q * u [(x * D + q)%nat; l])) * diff psi (held sites i D cf) (b ++ x :: b')) +
            bigsum (bits i) (fun b => kconj (bigsum (seq 0 D) (fun q => mps_mat sites b 0%nat q * u [(x * D + q)%nat; l])) *
                                      bigsum (seq 0 D) (fun q => mps_mat sites b 0%nat q * Ed (x * D + q)%nat (bval b')))).
          + rewrite <- bigsum_add. apply bigsum_ext. intros b Hb. rewrite step_mat by (auto; lia).
            rewrite <- app_assoc. cbn [app]. unfold diff. rewrite step_held, step_split by (auto; lia).
            rewrite (spread_app sites i D Ed) by (now apply bits_length). ring.
          + rewrite (iso _ (seq 0 D) (bits i) (fun q b => mps_mat sites b 0%nat q) (fun q => u [(x * D + q)%nat; l])) by (auto; apply seq_NoDup).
            transitivity (0 + bigsum (seq 0 D) (fun q => kconj (u [(x * D + q)%nat; l]) * Ed (x * D + q)%nat (bval b'))); [|ring]. f_equal.
            transitivity (bigsum (bits i) (fun b => bigsum (seq 0 D) (fun q => kconj (u [(x * D + q)%nat; l]) * (kconj (mps_mat sites b 0%nat q) * diff psi (held sites i D cf) (b ++ x :: b'))))).
            * apply bigsum_ext. intros b _. rewrite bigsum_conj, <- bigsum_mul_r. apply bigsum_ext. intros q _. rewrite kconj_mul. ring.
            * rewrite bigsum_swap. apply bigsum_zero. intros q Hq. apply in_seq in Hq. rewrite bigsum_mul_l, HO; [ring|lia|].
              replace (N - i)%nat with (S (N - S i)) by lia. apply bits_cons. split; [lia|exact Hb'].
        - rewrite <- (bigsum_seq_mul 2 D (fun r => kconj (u [r; l]) * Ed r (bval b'))). fold m. unfold Ed.
          transitivity (bigsum (seq 0 m) (fun r => bigsum (seq D' (k - D')) (fun l' => s [l'] * kconj (v [bval b'; l']) * (kconj (u [r; l]) * u [r; l'])))).
          + apply bigsum_ext. intros r _. rewrite <- bigsum_mul_l. apply bigsum_ext. intros. ring.
          + rewrite bigsum_swap. apply bigsum_zero. intros l' Hl'. apply in_seq in Hl'. rewrite bigsum_mul_l, HU by lia.
            replace (l =? l')%nat with false by lia. ring.
      Qed.

      Lemma step_inv : (0 < D')%nat -> tr_inv (S i) (tbuild [D'; n] c', sites ++ [site]).
      Proof.
        intros P'. exists D', c', dr'. cbn [fst snd].
        split; [unfold k, m in *; cbn [Nat.pow]; lia|]. split; [reflexivity|]. split; [rewrite app_length; cbn [length]; lia|].
        split; [apply chain_app; exists D; split; auto; apply chain_1; auto; apply tbuild_wf|].
        split; [exact step_orth|]. split; [exact step_perp|]. split; [|split; [exact step_small|exact step_len]].
        rewrite <- step_norm. apply inner_ext2. intros b Hb. destruct (bits_cut i b ltac:(lia) Hb) as (b1 & x & b2 & -> & B1 & Hx & B2).
        unfold diff. now rewrite step_held.
      Qed.
      Lemma step_none : D' = 0%nat -> all_small.
      Proof.
        intros Z. exists dr'. split; [|split; [exact step_small|pose proof step_len; pose proof (cut_count_mono (S i) (N - 1)); lia]].
        rewrite <- step_norm. apply inner_ext2. intros b Hb. unfold diff. destruct (bits_cut i b ltac:(lia) Hb) as (b1 & x & b2 & -> & B1 & Hx & B2).
        rewrite spread_app by (now apply bits_length). rewrite bigsum_zero; [ring|]. intros q _. unfold Y. rewrite Z. cbn [seq]. rewrite bigsum_nil. ring.
      Qed.
    End Step.

    Variable weak : Prop.
    Definition cut_or_fail (A : tensor) : Prop := true_at svd A \/ weak /\ exists e, svd_cut svd A = Err e.

    Lemma tr_step : forall i st, (forall A, cut_or_fail A) -> (S i < N)%nat -> tr_inv i st ->
      (weak /\ exists e, sv_step svd N st i = Err e) \/ all_small \/ exists st', sv_step svd N st i = Ok st' /\ tr_inv (S i) st'.
    Proof.
      intros i [c sites] HT Hi (D & cf & dr & HD & Hc & HL & HC & HP & HO & HN & HS & HK). cbn [fst snd] in *. subst c.
      unfold sv_step. cbn [fst snd].
      assert (E2 : (2 ^ (N - i) = 2 * 2 ^ (N - S i))%nat) by (replace (N - i)%nat with (S (N - S i)) by lia; reflexivity).
      assert (P2 : (0 < 2 ^ (N - S i))%nat) by (apply Nat.neq_0_lt_0, Nat.pow_nonzero; lia).
      rewrite E2, fold_cols_ok by lia. cbn [bind].
      replace (i =? N - 1)%nat with false by lia.
      fold (fold_f N D i cf).
      destruct (HT (tbuild [(2 * D)%nat; (2 ^ (N - S i))%nat] (fold_f N D i cf))) as [T|[W (e & ->)]].
      2:{ left. split; [exact W|]. exists e. reflexivity. }
      right. specialize (T _ _ eq_refl (tbuild_wf _ _) ltac:(lia) P2).
      destruct (svd (tbuild [(2 * D)%nat; (2 ^ (N - S i))%nat] (fold_f N D i cf))) as [[U Sg] V] eqn:E. cbn zeta in T.
      destruct T as (SU & WU & SS & WS & SV & WV & EQ & HU & HV & D' & HD' & Hs).
      rewrite (tensor_eta U WU), SU, (tensor_eta Sg WS), SS, (tensor_eta V WV), SV in E.
      assert (HE : forall r j, (r < 2 * D)%nat -> (j < 2 ^ (N - S i))%nat -> fold_f N D i cf [r; j] =
        bigsum (seq 0 (Nat.min (2 * D) (2 ^ (N - S i)))) (fun l => tget U [r; l] * tget Sg [l] * kconj (tget V [j; l]))).
      { intros r j Hr Hj. rewrite <- EQ by auto. rewrite tget_tbuild by vok. reflexivity. }
      destruct (Nat.eq_dec D' 0) as [Z|NZ].
      { left. apply (step_none sites i D cf dr) with (u := tget U) (v := tget V) (s := tget Sg) (D' := D'); auto. }
      right. rewrite (svd_cut_gen _ _ _ _ _ D' _ _ _ E) by (auto; lia). cbn [bind fst snd].
      rewrite view_site_ok by lia. cbn [bind]. eexists. split; [reflexivity|].
      apply (step_inv sites i D cf dr) with (u := tget U) (v := tget V) (s := tget Sg) (D' := D'); auto. lia.
    Qed.

    Lemma tr_loop : forall M st i, (forall A, cut_or_fail A) -> (i + M < N)%nat -> tr_inv i st ->
      (weak /\ exists e, mfold (sv_step svd N) (seq i M) st = Err e) \/ all_small \/
      exists st', mfold (sv_step svd N) (seq i M) st = Ok st' /\ tr_inv (i + M) st'.
    Proof.
      induction M as [|M IH]; intros st i HT Hi Hst; cbn [seq mfold].
      - right. right. exists st. split; [reflexivity|]. now rewrite Nat.add_0_r.
      - destruct (tr_step i st HT ltac:(lia) Hst) as [[W (e & ->)]|[A|(st' & -> & H')]].
        + left. split; [exact W|]. exists e. reflexivity.
        + right. left. exact A.
        + cbn [bind]. destruct (IH st' (S i) HT ltac:(lia) H') as [L|[A|(st2 & E & H2)]]; auto.
          right. right. exists st2. split; [exact E|]. now replace (i + S M)%nat with (S i + M)%nat by lia.
    Qed.

    Lemma tr_main : (forall A, cut_or_fail A) -> (0 < N)%nat ->
      (weak /\ exists e, StateVec2MPS svd (tbuild [1%nat; (2 ^ N)%nat] (fun idx => psi (bitsof N (nth 1 idx 0%nat)))) N = Err e) \/ all_small \/
      exists l phi dr, StateVec2MPS svd (tbuild [1%nat; (2 ^ N)%nat] (fun idx => psi (bitsof N (nth 1 idx 0%nat)))) N = Ok l /\ is_mps N l phi /\
        inner N (diff psi phi) (diff psi phi) = weight dr /\ inner N phi (diff psi phi) = 0 /\ Forall small dr /\ (length dr <= cut_count N (N - 1))%nat.
    Proof.
      intros HT HN. unfold StateVec2MPS. rewrite tbuild_shape. cbn [length Nat.eqb negb nth orb]. rewrite Nat.eqb_refl.
      cbn [raise_if negb]. fold (sv_step svd N).
      set (M := (N - 1)%nat). assert (SQ : seq 0 N = seq 0 M ++ [M]).
      { replace N with (S M) by (subst M; lia). apply seq_S. }
      rewrite SQ, mfold_app.
      destruct (tr_loop M (tbuild [1%nat; (2 ^ N)%nat] (fun idx => psi (bitsof N (nth 1 idx 0%nat))), []) 0%nat HT ltac:(subst M; lia)) as [[W (e & ->)]|[A|(st & -> & Hst)]].
      - exists 1%nat. eexists. exists []. cbn [fst snd length Nat.pow]. rewrite Nat.sub_0_r. split; [lia|]. split; [reflexivity|]. split; [reflexivity|].
        split; [reflexivity|].
        assert (Z : forall b, In b (bits N) -> diff psi (held [] 0 1 (fun idx => psi (bitsof N (nth 1 idx 0%nat)))) b = 0).
        { intros b Hb. unfold diff, held. cbn [seq firstn skipn]. rewrite bigsum_cons, bigsum_nil. cbn [mps_mat Nat.eqb nth].
          rewrite bitsof_bval by exact Hb. ring. }
        repeat split.
        + intros k k' Hk Hk'. cbn in Hk, Hk'. destruct Hk as [<-|[]], Hk' as [<-|[]]. cbn [bits mps_mat Nat.eqb]. 
          change (bits 0) with [@nil nat]. rewrite bigsum_cons, bigsum_nil, kconj_1. ring.
        + intros k b' Hk Hb'. change (bits 0) with [@nil nat]. rewrite bigsum_cons, bigsum_nil. cbn [app]. rewrite Z by auto. ring.
        + unfold weight, inner. rewrite bigsum_nil. apply bigsum_zero. intros b Hb. rewrite Z by auto. ring.
        + constructor.
        + cbn. lia.
      - left. split; [exact W|]. exists e. reflexivity.
      - right. left. exact A.
      - right. right. cbn [Nat.add] in Hst. destruct Hst as (D & cf & dr & HD & Hc & HL & HC & HP & HO & HE & HS & HK).
        destruct (sv_step_last svd N (held (snd st) M D cf) M st ltac:(subst M; lia)) as (st' & E' & H').
        { exists D, cf. repeat split; auto; [lia|]. intros b b' Hb Hb'. apply held_app. now apply bits_length. }
        cbn [bind mfold]. rewrite E'. cbn [bind]. exists (snd st'), (held (snd st) M D cf), dr. repeat split; auto; try apply H'.
        rewrite <- (spread_perp (snd st) M D ltac:(subst M; lia) (diff psi (held (snd st) M D cf)) (fun r j => fold_f N D M cf [r; j])) by auto.
        unfold inner. apply bigsum_ext. intros b Hb. destruct (bits_cut M b ltac:(subst M; lia) Hb) as (b1 & x & b2 & -> & B1 & Hx & B2).
        rewrite (held_spread (snd st) M D cf) by (auto; subst M; lia). reflexivity.
    Qed.
  End SV.
End TruncFacts1.
