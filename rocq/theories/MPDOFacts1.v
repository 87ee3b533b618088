(** Lemmas: Rho2MPS and MPS2Rho. *)
From Coq Require Import List ZArith QArith Lia ZifyBool Bool Arith Ring Permutation.
From Verif Require Import PyBase Scalar BigSum Index Tensor TensorFacts Spec SpecFacts QMath QTN QOperator
  ExpandFacts ExpandFacts2 ContractFacts MPSSpec MPSFacts1 MPSFacts2 MPDOSpec.
Import ListNotations.
Local Close Scope Q_scope.
Local Open Scope nat_scope.

Lemma evens_map_seq : forall A (f : nat -> A) a s, evens (map f (seq s (2 * a))) = map (fun i => f (s + 2 * i)) (seq 0 a).
Proof.
  intros A f a. induction a as [|a IH]; intros s; [reflexivity|].
  replace (2 * S a) with (S (S (2 * a))) by lia. cbn [seq map evens]. rewrite IH. f_equal; [f_equal; lia|].
  rewrite <- seq_shift, map_map. apply map_ext. intros i. f_equal. lia.
Qed.
Lemma evens_map_seq1 : forall A (f : nat -> A) a s, evens (map f (seq s (S (2 * a)))) = map (fun i => f (s + 2 * i)) (seq 0 (S a)).
Proof.
  intros A f a. induction a as [|a IH]; intros s; [cbn; do 2 f_equal; lia|].
  replace (S (2 * S a)) with (S (S (S (2 * a)))) by lia. change (seq s (S (S (S (2 * a))))) with (s :: S s :: seq (S (S s)) (S (2 * a))). cbn [map]. cbn [evens]. rewrite IH.
  change (seq 0 (S (S a))) with (0 :: seq 1 (S a)). cbn [map]. f_equal; [f_equal; lia|].
  rewrite <- (seq_shift (S a) 0), map_map. apply map_ext. intros i. f_equal. lia.
Qed.
Lemma odds_map_seq : forall A (f : nat -> A) a s, odds (map f (seq s (2 * a))) = map (fun i => f (s + 2 * i + 1)) (seq 0 a).
Proof.
  intros A f a s. destruct a as [|a]; [reflexivity|].
  replace (2 * S a) with (S (S (2 * a))) by lia. change (seq s (S (S (2 * a)))) with (s :: seq (S s) (S (2 * a))). cbn [map odds]. rewrite evens_map_seq1.
  apply map_ext. intros i. f_equal. lia.
Qed.

Lemma pow2_pos' : forall m, 0 < 2 ^ m.
Proof. intros. apply Nat.neq_0_lt_0, Nat.pow_nonzero. lia. Qed.
Lemma bind_assoc : forall A B C (x : res A) (f : A -> res B) (g : B -> res C), (do b <- (do a <- x; f a); g b) = (do a <- x; do b <- f a; g b).
Proof. intros. destruct x; reflexivity. Qed.

Ltac idx2eq := match goal with |- _ [?a; ?b] = _ [?c; ?d] => replace a with c by nia; replace b with d by (cbn [Nat.pow]; nia); reflexivity end.

Section MPDOFacts1.
  Context {SC : Scalar}.
  Add Ring KR : k_ring.
  Local Open Scope k_scope.

  (** concatenation of equally wide pieces *)
  Lemma cat_cols : forall m w (g : nat -> list nat -> K) a, (0 < a)%nat -> (0 < w)%nat ->
    cat 1 (map (fun i => tbuild [m; w] (g i)) (seq 0 a)) =
    Ok (tbuild [m; (a * w)%nat] (fun idx => g (nth 1 idx 0 / w)%nat [nth 0 idx 0%nat; (nth 1 idx 0 mod w)%nat])).
  Proof.
    intros m w g a Ha Hw. destruct a as [|a]; [lia|]. clear Ha. cbn [seq map]. unfold cat.
    induction a as [|a IH].
    - cbn [seq map mfold]. f_equal. replace (1 * w)%nat with w by lia. apply tbuild_ext. intros idx V. vinv V. cbn [nth].
      now rewrite Nat.div_small, Nat.mod_small by lia.
    - rewrite seq_S, map_app, mfold_app, IH. cbn [bind map mfold]. rewrite cat2_cols. cbn [bind]. f_equal.
      replace (S (S a) * w)%nat with (S a * w + w)%nat by lia. apply tbuild_ext. intros idx V. vinv V. cbn [nth].
      destruct (x0 <? S a * w)%nat eqn:E; [reflexivity|].
      assert (Dq : (x0 / w = S a)%nat) by (symmetry; apply (Nat.div_unique _ _ _ (x0 - S a * w)%nat); lia).
      assert (Dm : (x0 mod w = x0 - S a * w)%nat) by (symmetry; apply (Nat.mod_unique _ _ (S a)%nat); lia).
      rewrite Dq, Dm. reflexivity.
  Qed.

  (** ** the reshuffling of one step *)
  Definition rho_shuffle (N i : nat) (r0 : tensor) : res tensor :=
    do ch <- chunk r0 2 1;
    do r <- cat 0 ch;
    do lst <- mmap (fun j =>
        let h := (nth 0 (shape r) 0 / 2)%nat in
        let block := tslice r 0 (j * h) h in
        do blks <- chunk block (2 ^ (N - i)) 1;
        do e <- cat 1 (evens blks);
        do o <- cat 1 (odds blks);
        cat 0 [e; o]) [0%nat; 1%nat];
    cat 0 lst.

  (** row (x*2+y)*D+k, column a*2^m+b comes from row k, column ((x*2^m+a)*2+y)*2^m+b *)
  Definition shuf_f (D m : nat) (cf : list nat -> K) : list nat -> K := fun idx =>
    let q := (nth 0 idx 0 / D)%nat in
    cf [(nth 0 idx 0 mod D)%nat; (((q / 2 * 2 ^ m + nth 1 idx 0 / 2 ^ m) * 2 + q mod 2) * 2 ^ m + nth 1 idx 0 mod 2 ^ m)%nat].

  Lemma shuf_entry : forall D m cf x y k a b, (x < 2)%nat -> (y < 2)%nat -> (k < D)%nat -> (b < 2 ^ m)%nat ->
    shuf_f D m cf [((x * 2 + y) * D + k)%nat; (a * 2 ^ m + b)%nat] = cf [k; (((x * 2 ^ m + a) * 2 + y) * 2 ^ m + b)%nat].
  Proof.
    intros D m cf x y k a b Hx Hy Hk Hb. unfold shuf_f. cbn [nth]. cbv zeta. pose proof (pow2_pos' m) as P.
    assert (E1 : (((x * 2 + y) * D + k) / D = x * 2 + y)%nat) by (symmetry; apply (Nat.div_unique _ _ _ k); lia).
    assert (E2 : (((x * 2 + y) * D + k) mod D = k)%nat) by (symmetry; apply (Nat.mod_unique _ _ (x * 2 + y)%nat); lia).
    assert (E3 : ((a * 2 ^ m + b) / 2 ^ m = a)%nat) by (symmetry; apply (Nat.div_unique _ _ _ b); lia).
    assert (E4 : ((a * 2 ^ m + b) mod 2 ^ m = b)%nat) by (symmetry; apply (Nat.mod_unique _ _ a); lia).
    assert (E5 : ((x * 2 + y) / 2 = x)%nat) by (symmetry; apply (Nat.div_unique _ _ _ y); lia).
    assert (E6 : ((x * 2 + y) mod 2 = y)%nat) by (symmetry; apply (Nat.mod_unique _ _ x); lia).
    now rewrite E1, E2, E3, E4, E5, E6.
  Qed.

  Lemma shuffle_ok : forall N i D m cf, (N - i)%nat = S m -> (0 < D)%nat ->
    rho_shuffle N i (tbuild [D; (2 ^ S m * 2 ^ S m)%nat] cf) = Ok (tbuild [(4 * D)%nat; (2 ^ m * 2 ^ m)%nat] (shuf_f D m cf)).
  Proof.
    intros N i D m cf HN HD. unfold rho_shuffle. pose proof (pow2_pos' m) as P.
    replace (2 ^ S m * 2 ^ S m)%nat with (2 * (2 ^ S m * 2 ^ m))%nat by (cbn [Nat.pow]; lia).
    assert (P2 : (0 < 2 ^ S m * 2 ^ m)%nat) by (cbn [Nat.pow]; nia).
    rewrite chunk_cols by lia. cbn [bind]. change (seq 0 2) with [0%nat; 1%nat]. cbn [map]. unfold cat at 1. cbn [mfold]. rewrite cat2_rows. cbn [bind].
    set (r := tbuild [(D + D)%nat; _] _). rewrite HN.
    assert (HH : (nth 0 (shape r) 0 / 2 = D)%nat) by (unfold r; rewrite tbuild_shape; cbn [nth]; symmetry; apply (Nat.div_unique _ _ _ 0); lia).
    assert (B : forall x, (x < 2)%nat ->
      (let h := (nth 0 (shape r) 0 / 2)%nat in
        let block := tslice r 0 (x * h) h in
        do blks <- chunk block (2 ^ S m) 1;
        do e <- cat 1 (evens blks);
        do o <- cat 1 (odds blks);
        cat 0 [e; o]) = Ok (tbuild [(2 * D)%nat; (2 ^ m * 2 ^ m)%nat] (fun idx => shuf_f D m cf [(x * (2 * D) + nth 0 idx 0)%nat; nth 1 idx 0%nat]))).
    { intros x Hx. cbv zeta. rewrite HH. unfold r. rewrite tslice_rows by nia. rewrite chunk_cols by (try apply pow2_pos'; exact P). cbn [bind].
      replace (seq 0 (2 ^ S m)) with (seq 0 (2 * 2 ^ m)) by reflexivity. rewrite evens_map_seq, odds_map_seq.
      rewrite !cat_cols by exact P. cbn [bind]. unfold cat. cbn [mfold]. rewrite cat2_rows. cbn [bind]. f_equal.
      replace (2 * D)%nat with (D + D)%nat by lia. apply tbuild_ext. intros idx V. vinv V. rename x0 into p, x1 into q. cbn [nth].
      pose proof (Nat.div_mod q (2 ^ m) ltac:(lia)) as DQ. pose proof (Nat.mod_upper_bound q (2 ^ m) ltac:(lia)) as MQ.
      set (a := (q / 2 ^ m)%nat) in *. set (b := (q mod 2 ^ m)%nat) in *.
      assert (A : (a < 2 ^ m)%nat) by (apply Nat.div_lt_upper_bound; lia).
      assert (EX : forall y k, (y < 2)%nat -> (k < D)%nat -> p = (y * D + k)%nat ->
        shuf_f D m cf [(x * (D + D) + p)%nat; q] = cf [k; (((x * 2 ^ m + a) * 2 + y) * 2 ^ m + b)%nat]).
      { intros y k Hy Hk E. rewrite <- (shuf_entry D m cf x y k a b) by auto. idx2eq. }
      destruct (p <? D)%nat eqn:EP.
      - rewrite (EX 0%nat p) by lia. destruct x as [|[|]]; [| |lia].
        + replace (0 * D + p <? D)%nat with true by lia. idx2eq.
        + replace (1 * D + p <? D)%nat with false by lia. idx2eq.
      - rewrite (EX 1%nat (p - D)%nat) by lia. destruct x as [|[|]]; [| |lia].
        + replace (0 * D + (p - D) <? D)%nat with true by lia. idx2eq.
        + replace (1 * D + (p - D) <? D)%nat with false by lia. idx2eq. }
    cbv zeta in B. cbn [mmap]. rewrite (B 0%nat), (B 1%nat) by lia. cbn [bind]. unfold cat. cbn [mfold]. rewrite cat2_rows. cbn [bind]. f_equal.
    replace (2 * D + 2 * D)%nat with (4 * D)%nat by lia. apply tbuild_ext. intros idx V. vinv V. cbn [nth].
    destruct (x <? 2 * D)%nat eqn:E; f_equal; f_equal; lia.
  Qed.

  Lemma view_site4_ok : forall m d f, (0 < d)%nat -> (0 < m)%nat ->
    view (tbuild [(4 * m)%nat; d] f) [2%Z; 2%Z; (-1)%Z; zdim (tbuild [(4 * m)%nat; d] f) 1] =
    Ok (tbuild [2%nat; 2%nat; m; d] (fun idx => f [((nth 0 idx 0 * 2 + nth 1 idx 0) * m + nth 2 idx 0)%nat; nth 3 idx 0%nat])).
  Proof.
    intros m d f Hd Hm. unfold zdim. rewrite tbuild_shape. cbn [nth].
    change [2%Z; 2%Z; (-1)%Z; Z.of_nat d] with (map Z.of_nat [2%nat; 2%nat] ++ (-1)%Z :: map Z.of_nat [d]).
    rewrite (view_m1 _ [2%nat; 2%nat] [d] m) by (cbn [prodn shape tbuild app]; lia). cbn [app].
    rewrite reshape_tbuild by (cbn [prodn]; lia). f_equal. apply tbuild_ext. intros idx V. vinv V. cbn [nth]. f_equal.
    apply unflat_unique; [vok|]. cbn [flat prodn]. lia.
  Qed.

  (** ** chains *)
  Lemma chain4_app : forall l1 l2 Dl Dr, chain4 Dl (l1 ++ l2) Dr <-> exists D, chain4 Dl l1 D /\ chain4 D l2 Dr.
  Proof.
    induction l1 as [|t l1 IH]; intros l2 Dl Dr; cbn [app chain4].
    - split; [intros H; exists Dl; auto|intros (D & -> & H); auto].
    - split.
      + intros (D & H1 & H2 & H3 & H4). apply IH in H4. destruct H4 as (D' & H4 & H5). exists D'. split; eauto 10.
      + intros (D' & (D & H1 & H2 & H3 & H4) & H5). exists D. repeat split; auto. apply IH. eauto.
  Qed.
  Lemma chain4_1 : forall t Dl D, (0 < D)%nat -> shape t = [2%nat; 2%nat; Dl; D] -> wf t -> chain4 Dl [t] D.
  Proof. intros. exists D. cbn [chain4]. auto. Qed.

  Lemma mpo_mat_app : forall l1 l2 Dl D r1 r2 c1 c2 i j, chain4 Dl l1 D -> (i < Dl)%nat -> length r1 = length l1 -> length c1 = length l1 ->
    mpo_mat (l1 ++ l2) (r1 ++ r2) (c1 ++ c2) i j = bigsum (seq 0 D) (fun k => mpo_mat l1 r1 c1 i k * mpo_mat l2 r2 c2 k j).
  Proof.
    induction l1 as [|t l1 IH]; intros l2 Dl D r1 r2 c1 c2 i j HC Hi HL HL'.
    - destruct r1; [|discriminate]. destruct c1; [|discriminate]. cbn [app chain4] in *. subst Dl. cbn [mpo_mat].
      rewrite (bigsum_single _ (seq 0 D) i); [|apply seq_NoDup|apply in_seq; lia|].
      + rewrite Nat.eqb_refl. ring.
      + intros k _ Hk. replace (i =? k)%nat with false by lia. ring.
    - destruct r1 as [|x r1]; [discriminate|]. destruct c1 as [|y c1]; [discriminate|]. cbn [app mpo_mat].
      destruct HC as (D' & HD & HS & HW & HC). rewrite HS. cbn [nth].
      transitivity (bigsum (seq 0 D') (fun k' => bigsum (seq 0 D) (fun k => tget t [x; y; i; k'] * mpo_mat l1 r1 c1 k' k * mpo_mat l2 r2 c2 k j))).
      + apply bigsum_ext. intros k' Hk'. apply in_seq in Hk'. rewrite (IH l2 D' D) by (auto; lia).
        rewrite <- bigsum_mul_l. apply bigsum_ext. intros. ring.
      + rewrite bigsum_swap. apply bigsum_ext. intros k _. rewrite <- bigsum_mul_r. apply bigsum_ext. intros. ring.
  Qed.
  Lemma mpo_mat_1 : forall t Dl D x y i j, shape t = [2%nat; 2%nat; Dl; D] -> (j < D)%nat ->
    mpo_mat [t] [x] [y] i j = tget t [x; y; i; j].
  Proof.
    intros t Dl D x y i j HS Hj. cbn [mpo_mat]. rewrite HS. cbn [nth].
    rewrite (bigsum_single _ (seq 0 D) j); [|apply seq_NoDup|apply in_seq; lia|].
    - rewrite Nat.eqb_refl. ring.
    - intros k _ Hk. replace (k =? j)%nat with false by lia. ring.
  Qed.

  (** ** Rho2MPS *)
  Section Rho.
    Variable svd : tensor -> tensor * tensor * tensor.
    Variable N : nat.
    Variable A : qop.

    Definition rho_inv (i : nat) (st : tensor * list tensor) : Prop :=
      exists D cf, (0 < D)%nat /\ fst st = tbuild [D; (2 ^ (N - i) * 2 ^ (N - i))%nat] cf /\ length (snd st) = i /\ chain4 1 (snd st) D /\
        forall r r' c c', In r (bits i) -> In r' (bits (N - i)) -> In c (bits i) -> In c' (bits (N - i)) ->
          A (r ++ r') (c ++ c') = bigsum (seq 0 D) (fun k => mpo_mat (snd st) r c 0%nat k * cf [k; (bval r' * 2 ^ (N - i) + bval c')%nat]).

    Definition rho_step (st : tensor * list tensor) (i : nat) : res (tensor * list tensor) :=
      do r <- rho_shuffle N i (fst st);
      do uc <- svd_cut svd r;
      do s <- view (fst uc) [2%Z; 2%Z; (-1)%Z; zdim (fst uc) 1];
      Ok (snd uc, snd st ++ [s]).

    Lemma bits_last : forall i b, In b (bits (S i)) -> exists b1 x, b = b1 ++ [x] /\ In b1 (bits i) /\ (x < 2)%nat.
    Proof.
      intros i b Hb. destruct (bits_split i (S i) b Hb ltac:(lia)) as [B1 B2]. replace (S i - i)%nat with 1%nat in B2 by lia.
      pose proof (bits_length _ _ B2) as L2. destruct (skipn i b) as [|x [|]] eqn:ES; try discriminate.
      apply bits_cons in B2. destruct B2 as [Hx _]. exists (firstn i b), x. rewrite <- ES, firstn_skipn. auto.
    Qed.

    Lemma rho_step_ok : forall i st, exact_svd svd -> ~ op_eq N A (fun _ _ => 0) -> (S i <= N)%nat -> rho_inv i st ->
      exists st', rho_step st i = Ok st' /\ rho_inv (S i) st' /\
        (S i = N -> exists a, shape a = [length (data a); 1%nat] /\ (2 <= length (data a))%nat /\ let '(_, Sg, V) := svd a in fst st' = tbuild [1%nat; 1%nat] (fun _ => tget Sg [0%nat] * kconj (tget V [0%nat; 0%nat]))).
    Proof.
      intros i [c0 sites] Hs Hnz Hi (D & cf & HD & Hc & HL & HC & HP). cbn [fst snd] in *. subst c0.
      unfold rho_step. cbn [fst snd]. destruct (N - i)%nat as [|m] eqn:EN; [lia|].
      assert (EM : (N - S i)%nat = m) by lia. pose proof (pow2_pos' m) as P.
      rewrite (shuffle_ok N i D m cf EN HD). cbn [bind]. set (cf1 := shuf_f D m cf).
      assert (SPL : forall r x r' c y c', In r (bits i) -> (x < 2)%nat -> In r' (bits m) -> In c (bits i) -> (y < 2)%nat -> In c' (bits m) ->
        A ((r ++ [x]) ++ r') ((c ++ [y]) ++ c') = bigsum (seq 0 D) (fun k => mpo_mat sites r c 0%nat k * cf1 [((x * 2 + y) * D + k)%nat; (bval r' * 2 ^ m + bval c')%nat])).
      { intros r x r' c y c' Hr Hx Hr' Hc Hy Hc'. rewrite <- !app_assoc. cbn [app]. rewrite HP; auto; try (apply bits_cons; auto).
        apply bigsum_ext. intros k Hk. apply in_seq in Hk. f_equal. unfold cf1. rewrite shuf_entry by (auto; try lia; now apply bval_lt).
        f_equal. f_equal. f_equal. rewrite !bval_cons, (bits_length _ _ Hr'), (bits_length _ _ Hc'). cbn [Nat.pow]. lia. }
      destruct (svd_cut_exact2 svd (4 * D)%nat (2 ^ m * 2 ^ m)%nat cf1 Hs) as (D' & u & c' & HD' & -> & HE & HV); [lia|nia| |].
      { intros HZ. apply Hnz. intros r0 c0 Hr0 Hc0.
        destruct (bits_split (S i) N r0 Hr0 ltac:(lia)) as [R1 R2]. destruct (bits_split (S i) N c0 Hc0 ltac:(lia)) as [C1 C2]. rewrite EM in R2, C2.
        destruct (bits_last i _ R1) as (r & x & ER & Hr & Hx). destruct (bits_last i _ C1) as (c & y & EC & Hc & Hy).
        rewrite <- (firstn_skipn (S i) r0), <- (firstn_skipn (S i) c0), ER, EC, SPL by auto. apply bigsum_zero. intros k Hk. apply in_seq in Hk.
        pose proof (bval_lt _ _ R2). pose proof (bval_lt _ _ C2). rewrite HZ by nia. ring. }
      cbn [bind fst snd]. rewrite view_site4_ok by lia. cbn [bind]. eexists. split; [reflexivity|]. split.
      - exists D', c'. cbn [fst snd]. rewrite EM. split; [lia|]. split; [reflexivity|]. split; [rewrite app_length; cbn [length]; lia|].
        split; [apply chain4_app; exists D; split; auto; apply chain4_1; [lia|reflexivity|apply tbuild_wf]|].
        intros rr r' cc cl Hrr Hr' Hcc Hcl. destruct (bits_last i _ Hrr) as (r & x & -> & Hr & Hx). destruct (bits_last i _ Hcc) as (c & y & -> & Hc & Hy).
        rewrite SPL by auto.
        transitivity (bigsum (seq 0 D) (fun k => bigsum (seq 0 D') (fun l => mpo_mat sites r c 0%nat k * (u [((x * 2 + y) * D + k)%nat; l] * c' [l; (bval r' * 2 ^ m + bval cl)%nat])))).
        + apply bigsum_ext. intros k Hk. apply in_seq in Hk. rewrite bigsum_mul_l. f_equal.
          pose proof (bval_lt _ _ Hr'). pose proof (bval_lt _ _ Hcl). apply HE; nia.
        + rewrite bigsum_swap. apply bigsum_ext. intros l Hl. apply in_seq in Hl.
          rewrite (mpo_mat_app sites _ 1 D) by (auto; try lia; rewrite HL; now apply bits_length).
          rewrite <- bigsum_mul_r. apply bigsum_ext. intros k Hk. apply in_seq in Hk.
          rewrite (mpo_mat_1 _ D D') by (auto; lia). rewrite tget_tbuild by vok. cbn [nth]. ring.
      - intros EI. assert (m = 0)%nat by lia. clear EM. subst m. change (2 ^ 0 * 2 ^ 0)%nat with 1%nat in *. assert (D' = 1)%nat by lia. subst D'.
        exists (tbuild [(4 * D)%nat; 1%nat] cf1). assert (LD : length (data (tbuild [(4 * D)%nat; 1%nat] cf1)) = (4 * D)%nat) by (rewrite (tbuild_wf [(4 * D)%nat; 1%nat] cf1); cbn [shape tbuild prodn]; lia).
        rewrite LD. split; [reflexivity|]. split; [lia|]. destruct (svd (tbuild [(4 * D)%nat; 1%nat] cf1)) as [[U Sg] V]. cbn [fst].
        apply tbuild_ext. intros idx Vi. vinv Vi. assert (x = 0 /\ x0 = 0)%nat as [-> ->] by lia. apply HV.
    Qed.

    Lemma Rho2MPS_ok : exact_svd svd -> (0 < N)%nat -> ~ op_eq N A (fun _ _ => 0) ->
      exists l a, Rho2MPS svd (op_tensor N A) N = Ok l /\ length l = N /\ chain4 1 l 1 /\ shape a = [length (data a); 1%nat] /\ (2 <= length (data a))%nat /\
        let '(_, Sg, V) := svd a in op_eq N A (fun r c => mpo_op l r c * (tget Sg [0%nat] * kconj (tget V [0%nat; 0%nat]))).
    Proof.
      intros Hs HN Hnz. unfold Rho2MPS, Rho2MPS_full. unfold op_tensor at 1 2 3. rewrite !tbuild_shape. cbn [length Nat.eqb negb nth orb raise_if]. rewrite Nat.eqb_refl. cbn [negb orb raise_if].
      change [1%Z; (-1)%Z] with (map Z.of_nat [1%nat] ++ (-1)%Z :: map Z.of_nat []).
      unfold op_tensor. rewrite (view_m1 _ [1%nat] [] (2 ^ N * 2 ^ N)%nat) by (cbn [prodn shape tbuild app]; lia). cbn [app bind].
      rewrite reshape_tbuild by (cbn [prodn]; lia).
      set (r0 := tbuild [1%nat; (2 ^ N * 2 ^ N)%nat] _).
      replace (mfold _ (seq 0 N) (r0, [])) with (mfold rho_step (seq 0 N) (r0, [])).
      2:{ apply mfold_ext. intros st i _. unfold rho_step, rho_shuffle. rewrite !bind_assoc.
          destruct (chunk (fst st) 2 1); cbn [bind]; [|reflexivity]. rewrite !bind_assoc. match goal with |- (do r <- ?x; _) = _ => destruct x; cbn [bind]; [|reflexivity] end. rewrite bind_assoc. reflexivity. }
      set (M := (N - 1)%nat). assert (SQ : seq 0 N = seq 0 M ++ [M]).
      { replace N with (S M) by (subst M; lia). apply seq_S. }
      rewrite SQ, mfold_app.
      destruct (mfold_inv _ _ rho_step rho_inv (seq 0 M) (r0, [])) as (st & -> & Hst).
      - exists 1%nat. unfold r0. eexists. cbn [fst snd length]. rewrite Nat.sub_0_r. split; [lia|]. split; [reflexivity|]. split; [reflexivity|]. split; [reflexivity|].
        intros r r' c c' Hr Hr' Hc Hc'. cbn in Hr, Hc. destruct Hr as [<-|[]]. destruct Hc as [<-|[]]. cbn [seq app]. rewrite bigsum_cons, bigsum_nil. cbn [mpo_mat Nat.eqb].
        pose proof (bval_lt _ _ Hr'). pose proof (bval_lt _ _ Hc').
        cbn [flat prodn nth]. rewrite (unflat_unique [(2 ^ N)%nat; (2 ^ N)%nat] _ [bval r'; bval c']) by (try vok; cbn [flat prodn]; lia). cbn [nth]. rewrite !bitsof_bval by auto. ring.
      - intros i a b Hb Ha.
        assert (Hi : (i < M)%nat) by (rewrite <- (seq_length M 0); apply nth_error_Some; congruence).
        rewrite (nth_error_nth' _ 0%nat) in Hb by (rewrite seq_length; lia). rewrite seq_nth in Hb by lia.
        injection Hb as <-. destruct (rho_step_ok i a Hs Hnz ltac:(subst M; lia) Ha) as (st' & E1 & E2 & _). eauto.
      - rewrite seq_length in Hst. cbn [bind mfold].
        destruct (rho_step_ok M st Hs Hnz ltac:(subst M; lia) Hst) as (st' & -> & HI & HF). cbn [bind].
        destruct (HF ltac:(subst M; lia)) as (a & HA1 & HA2 & HA3). exists (snd st'), a. split; [reflexivity|]. replace (S M) with N in HI by (subst M; lia).
        destruct HI as (D & cf & HD & Hc & HL & HC & HP). rewrite Nat.sub_diag in *. split; [exact HL|].
        destruct (svd a) as [[U Sg] V]. assert (D = 1%nat). { rewrite Hc in HA3. apply (f_equal shape) in HA3. rewrite !tbuild_shape in HA3. congruence. } subst D.
        split; [exact HC|]. split; [exact HA1|]. split; [exact HA2|]. intros r c Hr Hcc. rewrite <- (app_nil_r r), <- (app_nil_r c). rewrite HP by (auto; now left).
        cbn [seq]. rewrite bigsum_cons, bigsum_nil, !app_nil_r. unfold mpo_op. change (bval [] * 2 ^ 0 + bval [])%nat with 0%nat.
        rewrite Hc in HA3. change (2 ^ 0 * 2 ^ 0)%nat with 1%nat in HA3. pose proof (f_equal (fun t => tget t [0%nat; 0%nat]) HA3) as E. cbn beta in E. rewrite !tget_tbuild in E by vok. rewrite E. ring.
    Qed.
  End Rho.
End MPDOFacts1.

Section MPDOFacts2.
  Context {SC : Scalar}.
  Add Ring KR2 : k_ring.
  Local Open Scope k_scope.

  (** ** MPS2Rho up to the normalisation *)
  Definition rho_upto (l : list tensor) (D : nat) : tensor :=
    tbuild [(2 ^ length l)%nat; (2 ^ length l)%nat; 1%nat; D]
      (fun idx => mpo_mat l (bitsof (length l) (nth 0 idx 0%nat)) (bitsof (length l) (nth 1 idx 0%nat)) 0%nat (nth 3 idx 0%nat)).

  Lemma site4_eta : forall t Dl D, shape t = [2%nat; 2%nat; Dl; D] -> wf t -> t = tbuild [2%nat; 2%nat; Dl; D] (tget t).
  Proof. intros t Dl D H W. rewrite <- H. now apply tensor_eta. Qed.

  Definition rho_merge (rho t : tensor) : res tensor :=
    do a <- unsqueeze rho 1; do a <- unsqueeze a 3;
    do b <- unsqueeze t 0; do b <- unsqueeze b 2;
    do r <- matmul a b;
    view r [Z.of_nat (nth 0 (shape r) 0 * nth 1 (shape r) 0)%nat;
            Z.of_nat (nth 2 (shape r) 0 * nth 3 (shape r) 0)%nat; zdim r 4; zdim r 5].

  Lemma rho_merge_ok : forall l t D D', chain4 1 l D -> shape t = [2%nat; 2%nat; D; D'] -> wf t -> (0 < D')%nat ->
    rho_merge (rho_upto l D) t = Ok (rho_upto (l ++ [t]) D').
  Proof.
    intros l t D D' HC HS HW HD. unfold rho_merge, rho_upto.
    change 0%Z with (Z.of_nat 0). change 1%Z with (Z.of_nat 1). change 2%Z with (Z.of_nat 2). change 3%Z with (Z.of_nat 3).
    rewrite unsqueeze_tbuild by (cbn; lia). cbn [bind firstn skipn app].
    rewrite unsqueeze_tbuild by (cbn; lia). cbn [bind firstn skipn app].
    rewrite (site4_eta t D D' HS HW) at 1.
    rewrite unsqueeze_tbuild by (cbn; lia). cbn [bind firstn skipn app].
    rewrite unsqueeze_tbuild by (cbn; lia). cbn [bind firstn skipn app].
    set (i := length l).
    change [(2 ^ i)%nat; 1%nat; (2 ^ i)%nat; 1%nat; 1%nat; D] with (map fst [((2 ^ i)%nat, 1%nat); (1%nat, 2%nat); ((2 ^ i)%nat, 1%nat); (1%nat, 2%nat)] ++ [1%nat; D]).
    change [1%nat; 2%nat; 1%nat; 2%nat; D; D'] with (map snd [((2 ^ i)%nat, 1%nat); (1%nat, 2%nat); ((2 ^ i)%nat, 1%nat); (1%nat, 2%nat)] ++ [D; D']).
    rewrite matmul_pairs by (apply Forall_cons; [now right|]; apply Forall_cons; [now left|]; apply Forall_cons; [now right|]; apply Forall_cons; [now left|]; apply Forall_nil).
    cbn [bind map fst snd app length]. unfold pmul. cbn [fst snd].
    rewrite Nat.mul_1_r, Nat.mul_1_l. unfold zdim. rewrite tbuild_shape. cbn [nth].
    change [Z.of_nat (2 ^ i * 2); Z.of_nat (2 ^ i * 2); Z.of_nat 1; Z.of_nat D'] with (map Z.of_nat [(2 ^ i * 2)%nat; (2 ^ i * 2)%nat; 1%nat; D']).
    rewrite view_tbuild_nat by (cbn [prodn]; lia). f_equal. rewrite app_length. cbn [length]. fold i.
    replace (2 ^ (i + 1))%nat with (2 ^ i * 2)%nat by (rewrite Nat.add_1_r; cbn [Nat.pow]; lia).
    apply tbuild_ext. intros idx V. vinv V. cbn [nth].
    assert (Dx : (x = 2 * (x / 2) + x mod 2)%nat) by (apply Nat.div_mod; lia).
    assert (X1 : (x / 2 < 2 ^ i)%nat) by (apply Nat.div_lt_upper_bound; lia).
    assert (X2 : (x mod 2 < 2)%nat) by (apply Nat.mod_upper_bound; lia).
    assert (Dy : (x0 = 2 * (x0 / 2) + x0 mod 2)%nat) by (apply Nat.div_mod; lia).
    assert (Y1 : (x0 / 2 < 2 ^ i)%nat) by (apply Nat.div_lt_upper_bound; lia).
    assert (Y2 : (x0 mod 2 < 2)%nat) by (apply Nat.mod_upper_bound; lia).
    assert (x1 = 0)%nat by lia. subst x1.
    rewrite (unflat_unique [(2 ^ i)%nat; 2%nat; (2 ^ i)%nat; 2%nat; 1%nat; D'] _ [(x / 2)%nat; (x mod 2)%nat; (x0 / 2)%nat; (x0 mod 2)%nat; 0%nat; x2]) by (try vok; cbn [flat prodn]; nia).
    cbn [nth firstn zip0 app Nat.eqb skipn]. rewrite !if_1_lt by auto.
    rewrite Nat.add_1_r. replace (bitsof (S i) x) with (bitsof i (x / 2) ++ [(x mod 2)%nat]) by (rewrite <- bitsof_snoc, <- Dx by auto; reflexivity).
    replace (bitsof (S i) x0) with (bitsof i (x0 / 2) ++ [(x0 mod 2)%nat]) by (rewrite <- bitsof_snoc, <- Dy by auto; reflexivity).
    rewrite (mpo_mat_app l _ 1 D) by (auto; now apply bitsof_length).
    apply bigsum_ext. intros k Hk. apply in_seq in Hk. f_equal. symmetry. now apply (mpo_mat_1 _ D D').
  Qed.

  Lemma rho_merge_all : forall ts l D Dr, chain4 1 l D -> chain4 D ts Dr ->
    mfold rho_merge ts (rho_upto l D) = Ok (rho_upto (l ++ ts) Dr).
  Proof.
    induction ts as [|t ts IH]; intros l D Dr HC HT; cbn [mfold chain4] in *.
    - subst. now rewrite app_nil_r.
    - destruct HT as (D' & HD & HS & HW & HT). rewrite (rho_merge_ok l t D D') by auto. cbn [bind].
      rewrite (IH (l ++ [t]) D' Dr). { now rewrite <- app_assoc. }
      + apply chain4_app. exists D. split; auto. now apply chain4_1.
      + exact HT.
  Qed.

  Lemma rho_upto_1 : forall t D, shape t = [2%nat; 2%nat; 1%nat; D] -> wf t -> t = rho_upto [t] D.
  Proof.
    intros t D HS HW. unfold rho_upto. rewrite (site4_eta t 1 D HS HW) at 1. cbn [length]. change (2 ^ 1)%nat with 2%nat. apply tbuild_ext. intros idx V.
    vinv V. cbn [nth]. assert (x1 = 0)%nat by lia. subst x1. change (bitsof 1 x) with [(x / 1)%nat]. change (bitsof 1 x0) with [(x0 / 1)%nat]. rewrite !Nat.div_1_r. symmetry. now apply (mpo_mat_1 t 1 D).
  Qed.

  Lemma MPS2Rho_raw_ok : forall n l A, (0 < n)%nat -> is_mpo n l A -> MPS2Rho_raw l = Ok (op_tensor n A).
  Proof.
    intros n l A Hn (HL & HC & HA). destruct l as [|t0 ts]. { cbn in HL. lia. }
    unfold MPS2Rho_raw. cbn [chain4] in HC. destruct HC as (D & HD & HS & HW & HC).
    fold rho_merge. rewrite (rho_upto_1 t0 D HS HW) at 1.
    rewrite (rho_merge_all ts [t0] D 1) by (auto; now apply chain4_1). cbn [bind app]. f_equal. unfold rho_upto. rewrite HL. unfold squeeze. rewrite tbuild_shape.
    assert (P : (2 ^ n =? 1)%nat = false).
    { apply Nat.eqb_neq. destruct n; [lia|]. cbn [Nat.pow]. pose proof (pow2_pos' n). lia. }
    cbn [filter]. rewrite P. cbn [negb Nat.eqb]. rewrite reshape_tbuild by (cbn [prodn]; lia). apply tbuild_ext. intros idx V. vinv V. cbn [nth].
    rewrite (unflat_unique [(2 ^ n)%nat; (2 ^ n)%nat; 1%nat; 1%nat] _ [x; x0; 0%nat; 0%nat]) by (try vok; cbn [flat prodn]; lia). cbn [nth].
    apply HA; now apply bitsof_in.
  Qed.
End MPDOFacts2.
