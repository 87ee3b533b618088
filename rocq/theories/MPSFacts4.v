(** Lemmas: replacing a segment of a matrix product state; the one-, two- and three-site steps. *)
From Coq Require Import List ZArith QArith Lia ZifyBool Bool Arith Ring Permutation.
From Verif Require Import PyBase Scalar BigSum Index Tensor TensorFacts Spec SpecFacts QMath QTN QOperator
  ExpandFacts ExpandFacts2 ContractFacts MPSSpec MPSFacts1 MPSFacts2 MPSFacts3.
Import ListNotations.
Local Close Scope Q_scope.
Local Open Scope nat_scope.

Lemma rd_seq_mid : forall c b1 b2, rd (b1 ++ c ++ b2) (seq (length b1) (length c)) = c.
Proof.
  induction c as [|x c IH]; intros b1 b2; auto. cbn [length seq]. unfold rd in *. cbn [map]. f_equal.
  - rewrite app_nth2 by lia. now rewrite Nat.sub_diag.
  - specialize (IH (b1 ++ [x]) b2). rewrite app_length, Nat.add_1_r, <- app_assoc in IH. exact IH.
Qed.
Lemma set_nth_mid : forall A (b1 : list A) x y b2, set_nth (length b1) y (b1 ++ x :: b2) = b1 ++ y :: b2.
Proof. induction b1; intros; simpl; auto. now rewrite IHb1. Qed.
Lemma wr_seq_mid : forall c c' b1 b2, length c' = length c ->
  wr (b1 ++ c ++ b2) (seq (length b1) (length c)) c' = b1 ++ c' ++ b2.
Proof.
  induction c as [|x c IH]; intros c' b1 b2 L; destruct c' as [|y c']; try discriminate; auto.
  cbn [length seq wr app]. rewrite set_nth_mid.
  specialize (IH c' (b1 ++ [y]) b2). rewrite app_length, Nat.add_1_r, <- !app_assoc in IH. apply IH. now inversion L.
Qed.
Lemma bits_split3 : forall i k n b, In b (bits n) -> (i + k <= n) ->
  exists b1 c b2, b = b1 ++ c ++ b2 /\ In b1 (bits i) /\ In c (bits k) /\ In b2 (bits (n - (i + k))).
Proof.
  intros i k n b H Hik. destruct (bits_split i n b H) as [H1 H2]; [lia|]. destruct (bits_split k _ _ H2) as [H3 H4]; [lia|].
  exists (firstn i b), (firstn k (skipn i b)), (skipn k (skipn i b)). rewrite !firstn_skipn. repeat split; auto.
  now replace (n - (i + k)) with (n - i - k) by lia.
Qed.
Lemma list_split3 : forall A i k (l : list A), i + k <= length l ->
  exists l1 m l2, l = l1 ++ m ++ l2 /\ length l1 = i /\ length m = k.
Proof.
  intros A i k l H. exists (firstn i l), (firstn k (skipn i l)), (skipn k (skipn i l)).
  rewrite !firstn_skipn, !firstn_length, skipn_length. repeat split; lia.
Qed.

Section MPSFacts4.
  Context {SC : Scalar}.
  Add Ring KR : k_ring.
  Local Open Scope k_scope.

  Lemma apply_on_st : forall n A ws f g b, good_wires n ws -> st_eq n f g -> In b (bits n) ->
    apply_on A ws f b = apply_on A ws g b.
  Proof.
    intros n A ws f g b Hw H Hb. unfold apply_on. apply bigsum_ext. intros c Hc. f_equal. apply H. now apply wr_in_bits.
  Qed.

  Lemma good_seq : forall n i k, (i + k <= n)%nat -> good_wires n (seq i k).
  Proof. intros. split; [apply seq_NoDup|]. intros w Hw. apply in_seq in Hw. lia. Qed.

  (** the state of l1 ++ m ++ l2 *)
  Lemma seg_amp : forall l1 m l2 Dl Dr b1 c b2, chain 1 l1 Dl -> chain Dl m Dr -> chain Dr l2 1 ->
    length b1 = length l1 -> length c = length m ->
    mps_amp (l1 ++ m ++ l2) (b1 ++ c ++ b2) =
    bigsum (seq 0 Dl) (fun i => mps_mat l1 b1 0 i * bigsum (seq 0 Dr) (fun j => mps_mat m c i j * mps_mat l2 b2 j 0)).
  Proof.
    intros l1 m l2 Dl Dr b1 c b2 H1 H2 H3 L1 L2. unfold mps_amp. rewrite (mps_mat_app l1 _ 1 Dl) by (auto; lia).
    apply bigsum_ext. intros i Hi. apply in_seq in Hi. f_equal. apply (mps_mat_app m l2 Dl Dr); auto; lia.
  Qed.

  Definition seg_op (A : qop) (m : list tensor) (c : list nat) (i j : nat) : K :=
    bigsum (bits (length m)) (fun c' => A c c' * mps_mat m c' i j).

  Lemma seg_apply : forall n A l1 m l2 Dl Dr psi b1 c b2, length (l1 ++ m ++ l2) = n ->
    chain 1 l1 Dl -> chain Dl m Dr -> chain Dr l2 1 -> st_eq n (mps_amp (l1 ++ m ++ l2)) psi ->
    In b1 (bits (length l1)) -> In c (bits (length m)) -> In b2 (bits (length l2)) ->
    apply_on A (seq (length l1) (length m)) psi (b1 ++ c ++ b2) =
    bigsum (seq 0 Dl) (fun i => mps_mat l1 b1 0 i * bigsum (seq 0 Dr) (fun j => seg_op A m c i j * mps_mat l2 b2 j 0)).
  Proof.
    intros n A l1 m l2 Dl Dr psi b1 c b2 Hn H1 H2 H3 He Hb1 Hc Hb2. rewrite !app_length in Hn.
    assert (HB : In (b1 ++ c ++ b2) (bits n)) by (subst n; auto using bits_app).
    rewrite <- (apply_on_st n A _ (mps_amp (l1 ++ m ++ l2)) psi) by (auto; apply good_seq; lia).
    unfold apply_on. rewrite seq_length. pose proof (bits_length _ _ Hb1) as L1. pose proof (bits_length _ _ Hc) as L2.
    replace (rd (b1 ++ c ++ b2) (seq (length l1) (length m))) with c by (rewrite <- L1, <- L2; now rewrite rd_seq_mid).
    transitivity (bigsum (bits (length m)) (fun c' => A c c' *
      bigsum (seq 0 Dl) (fun i => mps_mat l1 b1 0 i * bigsum (seq 0 Dr) (fun j => mps_mat m c' i j * mps_mat l2 b2 j 0)))).
    { apply bigsum_ext. intros c' Hc'. f_equal. pose proof (bits_length _ _ Hc') as L3.
      rewrite <- L1, <- L2, wr_seq_mid by lia. apply seg_amp; auto; lia. }
    transitivity (bigsum (bits (length m)) (fun c' => bigsum (seq 0 Dl) (fun i => mps_mat l1 b1 0 i *
      bigsum (seq 0 Dr) (fun j => A c c' * mps_mat m c' i j * mps_mat l2 b2 j 0)))).
    { apply bigsum_ext. intros c' Hc'. rewrite <- bigsum_mul_l. apply bigsum_ext. intros i Hi.
      transitivity (mps_mat l1 b1 0 i * (A c c' * bigsum (seq 0 Dr) (fun j => mps_mat m c' i j * mps_mat l2 b2 j 0))); [ring|].
      f_equal. rewrite <- bigsum_mul_l. apply bigsum_ext. intros; ring. }
    rewrite bigsum_swap. apply bigsum_ext. intros i _. rewrite bigsum_mul_l. f_equal. rewrite bigsum_swap. apply bigsum_ext.
    intros j _. rewrite bigsum_mul_r. reflexivity.
  Qed.

  (** replacing a segment *)
  Lemma seg_replace : forall n A l1 m m' l2 Dl Dr psi, length (l1 ++ m ++ l2) = n -> length m' = length m ->
    chain 1 l1 Dl -> chain Dl m Dr -> chain Dl m' Dr -> chain Dr l2 1 -> st_eq n (mps_amp (l1 ++ m ++ l2)) psi ->
    (forall c i j, In c (bits (length m)) -> (i < Dl)%nat -> (j < Dr)%nat -> mps_mat m' c i j = seg_op A m c i j) ->
    is_mps n (l1 ++ m' ++ l2) (apply_on A (seq (length l1) (length m)) psi).
  Proof.
    intros n A l1 m m' l2 Dl Dr psi Hn Hm H1 H2 H2' H3 He HE. rewrite !app_length in Hn. split; [split|].
    - rewrite !app_length. lia.
    - apply chain_app. exists Dl. split; auto. apply chain_app. exists Dr. auto.
    - intros b Hb. destruct (bits_split3 (length l1) (length m) n b Hb ltac:(lia)) as (b1 & c & b2 & -> & B1 & B2 & B3).
      rewrite (seg_amp l1 m' l2 Dl Dr) by (auto; rewrite ?Hm; eapply bits_length; eauto).
      rewrite (seg_apply n A l1 m l2 Dl Dr) by (auto; first [rewrite !app_length; lia|now replace (length l2) with (n - (length l1 + length m))%nat by lia]).
      apply bigsum_ext. intros i Hi. f_equal. apply bigsum_ext. intros j Hj. apply in_seq in Hi, Hj.
      now rewrite HE by (auto; lia).
  Qed.

  Lemma seg_nonzero : forall n A l1 m l2 Dl Dr psi, length (l1 ++ m ++ l2) = n ->
    chain 1 l1 Dl -> chain Dl m Dr -> chain Dr l2 1 -> st_eq n (mps_amp (l1 ++ m ++ l2)) psi ->
    nonzero n (apply_on A (seq (length l1) (length m)) psi) ->
    ~ (forall c i j, In c (bits (length m)) -> (i < Dl)%nat -> (j < Dr)%nat -> seg_op A m c i j = 0).
  Proof.
    intros n A l1 m l2 Dl Dr psi Hn H1 H2 H3 He Hnz HZ. apply Hnz. intros b Hb. pose proof Hn as Hn'. rewrite !app_length in Hn.
    destruct (bits_split3 (length l1) (length m) n b Hb ltac:(lia)) as (b1 & c & b2 & -> & B1 & B2 & B3).
    rewrite (seg_apply n A l1 m l2 Dl Dr) by (auto; now replace (length l2) with (n - (length l1 + length m))%nat by lia).
    apply bigsum_zero. intros i Hi. apply in_seq in Hi. rewrite bigsum_zero; [ring|]. intros j Hj. apply in_seq in Hj.
    rewrite HZ by (auto; lia). ring.
  Qed.

  (** ** one site *)
  Lemma single_site_ok : forall n A l psi i, is_mps n l psi -> (i < n)%nat ->
    exists s s', py_nth l (Z.of_nat i) = Ok s /\ einsum_ab_bcd (op_tensor 1 A) s = Ok s' /\
      exists l', py_set l (Z.of_nat i) s' = Ok l' /\ is_mps n l' (apply_on A [i] psi).
  Proof.
    intros n A l psi i [[Hn HC] He] Hi.
    destruct (list_split3 tensor i 1 l ltac:(lia)) as (l1 & m & l2 & -> & L1 & L2).
    destruct m as [|s [|]]; try discriminate. cbn [app] in *.
    apply chain_app in HC. destruct HC as (Dl & C1 & HC). cbn [chain] in HC. destruct HC as (Dr & HDr & Ss & Ws & C3).
    pose proof (chain_pos l1 1 Dl ltac:(lia) C1) as HDl.
    exists s. rewrite (py_nth_nat _ _ i s) by (rewrite app_length; cbn [length]; lia).
    rewrite app_nth2, L1, Nat.sub_diag by lia. cbn [nth].
    unfold einsum_ab_bcd, op_tensor. rewrite tbuild_shape, Ss. change (2 ^ 1)%nat with 2%nat. cbn [Nat.eqb].
    eexists. split; [reflexivity|]. split; [reflexivity|].
    rewrite py_set_nat by (rewrite app_length; cbn [length]; lia). rewrite <- L1, set_nth_mid. eexists. split; [reflexivity|].
    set (F := fun idx => bigsum (seq 0 2) _).
    pose proof (seg_replace n A l1 [s] [tbuild [2%nat; Dl; Dr] F] l2 Dl Dr psi) as R. cbn [app length seq] in R.
    apply R; auto.
    - apply chain_1; auto.
    - apply chain_1; auto. apply tbuild_wf.
    - intros c x j Hc Hx Hj. pose proof (bits_length _ _ Hc) as Lc. destruct c as [|b [|]]; try discriminate.
      apply bits_cons in Hc. destruct Hc as [Hb _].
      rewrite (mps_mat_1 _ Dl Dr) by auto. rewrite tget_tbuild by vok. unfold F, seg_op. cbn [nth length].
      rewrite (bits_map 1), bigsum_map. change (2 ^ 1)%nat with 2%nat. apply bigsum_ext. intros y Hy. apply in_seq in Hy.
      rewrite tget_tbuild by vok. destruct y as [|[|]]; [| |lia]; destruct b as [|[|]]; try lia; cbn;
        f_equal; symmetry; apply (mps_mat_1 s Dl Dr); auto.
  Qed.

  (** ** two sites *)
  Variable svd : tensor -> tensor * tensor * tensor.
  Hypothesis Hsvd : exact_svd svd.

  Lemma perm_2301 : Permutation [2%nat; 3%nat; 0%nat; 1%nat] (seq 0 4).
  Proof. apply is_perm_spec. reflexivity. Qed.

  Lemma merge2 : forall B (kk : tensor -> res B) A Dl D Dr fa fb,
    exists T, (forall x y i j, (x < 2)%nat -> (y < 2)%nat -> (i < Dl)%nat -> (j < Dr)%nat ->
        T [x; y; i; j] = bigsum (bits 2) (fun c => A [x; y] c * bigsum (seq 0 D) (fun l => fa [nth 0 c 0%nat; i; l] * fb [nth 1 c 0%nat; l; j]))) /\
    (do a1 <- unsqueeze (tbuild [2%nat; Dl; D] fa) 1;
     do b1 <- unsqueeze (tbuild [2%nat; D; Dr] fb) 0;
     do t <- matmul a1 b1;
     do t <- permute t [2%Z; 3%Z; 0%Z; 1%Z];
     let s := map Z.of_nat (shape t) in
     do s0 <- py_nth s 0; do s1 <- py_nth s 1; do s2 <- py_nth s 2; do s3 <- py_nth s 3;
     do t <- view t [s0; s1; (s2 * s3)%Z; 1%Z];
     do t <- matmul (op_tensor 2 A) t;
     do t <- view t [s0; s1; s2; s3];
     do t <- permute t [2%Z; 3%Z; 0%Z; 1%Z];
     kk t) = kk (tbuild [2%nat; 2%nat; Dl; Dr] T).
  Proof.
    intros B kk A Dl D Dr fa fb. change 1%Z with (Z.of_nat 1) at 1. rewrite unsqueeze_tbuild by (cbn; lia).
    cbn [bind firstn skipn app]. change 0%Z with (Z.of_nat 0) at 1. rewrite unsqueeze_tbuild by (cbn; lia). cbn [bind firstn skipn app].
    match goal with |- context [matmul (tbuild _ ?f) (tbuild _ ?g)] =>
      pose proof (matmul_pairs [(2%nat, 1%nat); (1%nat, 2%nat)] Dl D Dr f g) as E end.
    cbn [map fst snd app length pmul Nat.mul Nat.add] in E. rewrite E by (constructor; [now right|constructor; [now left|constructor]]).
    clear E. cbn [bind].
    change [2%Z; 3%Z; 0%Z; 1%Z] with (map Z.of_nat [2%nat; 3%nat; 0%nat; 1%nat]).
    rewrite permute_tbuild by exact perm_2301. cbn [bind map nth]. rewrite tbuild_shape. cbn [map].
    change 0%Z with (Z.of_nat 0) at 1. rewrite (py_nth_nat _ _ 0 0%Z) by (cbn; lia). cbn [bind nth].
    change 1%Z with (Z.of_nat 1) at 1. rewrite (py_nth_nat _ _ 1 0%Z) by (cbn; lia). cbn [bind nth].
    change 2%Z with (Z.of_nat 2) at 1. rewrite (py_nth_nat _ _ 2 0%Z) by (cbn; lia). cbn [bind nth].
    change 3%Z with (Z.of_nat 3) at 1. rewrite (py_nth_nat _ _ 3 0%Z) by (cbn; lia). cbn [bind nth].
    change [Z.of_nat Dl; Z.of_nat Dr; (Z.of_nat 2 * Z.of_nat 2)%Z; 1%Z] with (map Z.of_nat ([Dl; Dr] ++ [2 ^ 2; 1]%nat)).
    rewrite view_nat by (cbn [prodn shape tbuild app fold_right]; change (2 ^ 2)%nat with 4%nat; lia). cbn [bind].
    change [Dl; Dr; 2; 2]%nat with ([Dl; Dr] ++ repeat 2 2)%nat.
    rewrite matmul_last. cbn [bind].
    change [Z.of_nat Dl; Z.of_nat Dr; Z.of_nat 2; Z.of_nat 2] with (map Z.of_nat ([Dl; Dr] ++ repeat 2 2)%nat).
    rewrite view_nat by (cbn [prodn shape tbuild app fold_right repeat]; cbn; lia). cbn [bind].
    cbn [data]. match goal with |- context [mkT ?s (data (tbuild ?s ?f))] => change (mkT s (data (tbuild s f))) with (tbuild s f) end.
    change [Z.of_nat 2; Z.of_nat 3; Z.of_nat 0; Z.of_nat 1] with (map Z.of_nat [2%nat; 3%nat; 0%nat; 1%nat]).
    rewrite permute_tbuild by exact perm_2301. cbn [bind map nth app repeat].
    eexists. split; [|reflexivity].
    intros x y i j Hx Hy Hi Hj. cbn beta.
    change (unperm [2%nat; 3%nat; 0%nat; 1%nat] [x; y; i; j]) with [i; j; x; y].
    cbn [length skipn firstn app].
    apply bigsum_ext. intros c Hc. f_equal.
  Qed.

  Lemma two_site_ok : forall n A l psi i, is_mps n l psi -> (S i < n)%nat -> nonzero n (apply_on A [i; S i] psi) ->
    exists l', two_site svd (op_tensor 2 A) l (Z.of_nat i) (Z.of_nat (S i)) = Ok l' /\ is_mps n l' (apply_on A [i; S i] psi).
  Proof.
    intros n A l psi i [[Hn HC] He] Hi Hnz.
    destruct (list_split3 tensor i 2 l ltac:(lia)) as (l1 & m & l2 & -> & L1 & L2).
    destruct m as [|a [|b [|]]]; try discriminate. cbn [app] in *.
    apply chain_app in HC. destruct HC as (Dl & C1 & HC). cbn [chain] in HC.
    destruct HC as (D & HD & Sa & Wa & Dr & HDr & Sb & Wb & C3).
    pose proof (chain_pos l1 1 Dl ltac:(lia) C1) as HDl.
    pose proof (seg_nonzero n A l1 [a; b] l2 Dl Dr psi Hn C1) as HN. cbn [app length seq] in HN.
    assert (CM : chain Dl [a; b] Dr). { exists D. repeat split; auto. exists Dr. cbn. auto. }
    rewrite L1 in HN. specialize (HN CM C3 He Hnz).
    unfold two_site. rewrite (py_nth_nat _ _ i a), (py_nth_nat _ _ (S i) a) by (rewrite app_length; cbn [length]; lia).
    rewrite !app_nth2 by lia. rewrite L1, Nat.sub_diag. replace (S i - i)%nat with 1%nat by lia. cbn [nth bind].
    assert (MM : forall x y u v, (x < 2)%nat -> (y < 2)%nat -> (u < Dl)%nat -> (v < Dr)%nat ->
      mps_mat [a; b] [x; y] u v = bigsum (seq 0 D) (fun k => tget a [x; u; k] * tget b [y; k; v])).
    { intros. change [a; b] with ([a] ++ [b]). change [x; y] with ([x] ++ [y]).
      rewrite (mps_mat_app [a] [b] Dl D) by (auto; now apply chain_1). apply bigsum_ext. intros k Hk. apply in_seq in Hk.
      rewrite (mps_mat_1 a Dl D), (mps_mat_1 b D Dr) by (auto; lia). reflexivity. }
    set (L := l1 ++ a :: b :: l2) in *.
    replace (unsqueeze a 1) with (unsqueeze (tbuild [2%nat; Dl; D] (tget a)) 1) by (now rewrite <- (site_eta a Dl D Sa Wa)).
    replace (unsqueeze b 0) with (unsqueeze (tbuild [2%nat; D; Dr] (tget b)) 0) by (now rewrite <- (site_eta b D Dr Sb Wb)).
    edestruct (merge2 _ (fun t => do rs <- TensorDecompAfterTwoQbitGate svd t;
      do MPS1 <- py_set L (Z.of_nat i) (fst rs); py_set MPS1 (Z.of_nat (S i)) (snd rs)) A Dl D Dr (tget a) (tget b)) as (T & HT & E).
    cbn beta in E. match type of E with ?X = _ => match goal with |- exists l', ?Y = Ok l' /\ _ => change Y with X end end.
    rewrite E. clear E.
    assert (HT' : forall x y u v, (x < 2)%nat -> (y < 2)%nat -> (u < Dl)%nat -> (v < Dr)%nat -> T [x; y; u; v] = seg_op A [a; b] [x; y] u v).
    { intros. rewrite HT by auto. apply bigsum_ext. intros c Hc. f_equal. pose proof (bits_length _ _ Hc) as Lc.
      destruct c as [|c0 [|c1 [|]]]; try discriminate. apply bits_cons in Hc. destruct Hc as [Hu Hc]. apply bits_cons in Hc. destruct Hc as [Hv _].
      rewrite MM by auto. reflexivity. }
    destruct (decomp2_ok svd Hsvd Dl Dr T HDl HDr) as (a' & b' & -> & CM' & HE).
    { intros HZ. apply HN. intros c u v Hc Hu Hv. pose proof (bits_length _ _ Hc) as Lc.
      destruct c as [|c0 [|c1 [|]]]; try discriminate. apply bits_cons in Hc. destruct Hc as [H0 Hc]. apply bits_cons in Hc. destruct Hc as [H1 _].
      rewrite <- HT' by auto. now apply HZ. }
    cbn [bind fst snd]. unfold L. rewrite py_set_nat by (rewrite app_length; cbn [length]; lia). 
    replace (set_nth i a' (l1 ++ a :: b :: l2)) with (l1 ++ a' :: b :: l2) by (rewrite <- L1; now rewrite set_nth_mid). cbn [bind].
    rewrite py_set_nat by (rewrite app_length; cbn [length]; lia).
    replace (set_nth (S i) b' (l1 ++ a' :: b :: l2)) with (l1 ++ a' :: b' :: l2).
    2:{ change (l1 ++ a' :: b :: l2) with (l1 ++ [a'] ++ b :: l2). rewrite app_assoc. replace (S i) with (length (l1 ++ [a'])) by (rewrite app_length; cbn; lia).
        rewrite set_nth_mid, <- app_assoc. reflexivity. }
    eexists. split; [reflexivity|].
    pose proof (seg_replace n A l1 [a; b] [a'; b'] l2 Dl Dr psi) as R. cbn [app length seq] in R. rewrite L1 in R.
    apply R; auto.
    intros c u v Hc Hu Hv. pose proof (bits_length _ _ Hc) as Lc.
    destruct c as [|c0 [|c1 [|]]]; try discriminate. apply bits_cons in Hc. destruct Hc as [H0 Hc]. apply bits_cons in Hc. destruct Hc as [H1 _].
    rewrite <- HT' by auto. now apply HE.
  Qed.

  (** ** three sites *)
  Lemma perm_34012 : Permutation [3%nat; 4%nat; 0%nat; 1%nat; 2%nat] (seq 0 5).
  Proof. apply is_perm_spec. reflexivity. Qed.
  Lemma perm_23401 : Permutation [2%nat; 3%nat; 4%nat; 0%nat; 1%nat] (seq 0 5).
  Proof. apply is_perm_spec. reflexivity. Qed.

  Lemma merge3 : forall B (kk : tensor -> res B) A Dl D1 D2 Dr fa fb fc,
    exists T, (forall x y z i j, (x < 2)%nat -> (y < 2)%nat -> (z < 2)%nat -> (i < Dl)%nat -> (j < Dr)%nat ->
        T [x; y; z; i; j] = bigsum (bits 3) (fun c => A [x; y; z] c *
          bigsum (seq 0 D2) (fun m => bigsum (seq 0 D1) (fun l => fa [nth 0 c 0%nat; i; l] * fb [nth 1 c 0%nat; l; m]) * fc [nth 2 c 0%nat; m; j]))) /\
    (do a <- unsqueeze (tbuild [2%nat; Dl; D1] fa) 1; do a <- unsqueeze a 1;
     do b <- unsqueeze (tbuild [2%nat; D1; D2] fb) 1; do b <- unsqueeze b 0;
     do ab <- matmul a b;
     do c <- unsqueeze (tbuild [2%nat; D2; Dr] fc) 0; do c <- unsqueeze c 0;
     do t <- matmul ab c;
     do t <- permute t [3%Z; 4%Z; 0%Z; 1%Z; 2%Z];
     let s := map Z.of_nat (shape t) in
     do s0 <- py_nth s 0; do s1 <- py_nth s 1; do s2 <- py_nth s 2; do s3 <- py_nth s 3; do s4 <- py_nth s 4;
     do t <- view t [s0; s1; (s2 * s3 * s4)%Z; 1%Z];
     do g <- Ok (op_tensor 3 A);
     do t <- matmul g t;
     do t <- view t [s0; s1; s2; s3; s4];
     do t <- permute t [2%Z; 3%Z; 4%Z; 0%Z; 1%Z];
     kk t) = kk (tbuild [2%nat; 2%nat; 2%nat; Dl; Dr] T).
  Proof.
    intros B kk A Dl D1 D2 Dr fa fb fc. change 1%Z with (Z.of_nat 1). change 0%Z with (Z.of_nat 0).
    rewrite unsqueeze_tbuild by (cbn; lia). cbn [bind firstn skipn app]. rewrite unsqueeze_tbuild by (cbn; lia). cbn [bind firstn skipn app].
    rewrite unsqueeze_tbuild by (cbn; lia). cbn [bind firstn skipn app]. rewrite unsqueeze_tbuild by (cbn; lia). cbn [bind firstn skipn app].
    match goal with |- context [matmul (tbuild _ ?f) (tbuild _ ?g)] =>
      pose proof (matmul_pairs [(2%nat, 1%nat); (1%nat, 2%nat); (1%nat, 1%nat)] Dl D1 D2 f g) as E end.
    cbn [map fst snd app length pmul Nat.mul Nat.add] in E.
    rewrite E by (constructor; [now right|constructor; [now left|constructor; [now left|constructor]]]). clear E. cbn [bind].
    rewrite unsqueeze_tbuild by (cbn; lia). cbn [bind firstn skipn app]. rewrite unsqueeze_tbuild by (cbn; lia). cbn [bind firstn skipn app].
    match goal with |- context [matmul (tbuild _ ?f) (tbuild _ ?g)] =>
      pose proof (matmul_pairs [(2%nat, 1%nat); (2%nat, 1%nat); (1%nat, 2%nat)] Dl D2 Dr f g) as E end.
    cbn [map fst snd app length pmul Nat.mul Nat.add] in E.
    rewrite E by (constructor; [now right|constructor; [now right|constructor; [now left|constructor]]]). clear E. cbn [bind].
    change [3%Z; 4%Z; Z.of_nat 0; Z.of_nat 1; 2%Z] with (map Z.of_nat [3%nat; 4%nat; 0%nat; 1%nat; 2%nat]).
    rewrite permute_tbuild by exact perm_34012. cbn [bind map nth]. rewrite tbuild_shape. cbn [map].
    rewrite (py_nth_nat _ _ 0 0%Z) by (cbn; lia). cbn [bind nth].
    rewrite (py_nth_nat _ _ 1 0%Z) by (cbn; lia). cbn [bind nth].
    change 2%Z with (Z.of_nat 2) at 1. rewrite (py_nth_nat _ _ 2 0%Z) by (cbn; lia). cbn [bind nth].
    change 3%Z with (Z.of_nat 3) at 1. rewrite (py_nth_nat _ _ 3 0%Z) by (cbn; lia). cbn [bind nth].
    change 4%Z with (Z.of_nat 4) at 1. rewrite (py_nth_nat _ _ 4 0%Z) by (cbn; lia). cbn [bind nth].
    change [Z.of_nat Dl; Z.of_nat Dr; (Z.of_nat 2 * Z.of_nat 2 * Z.of_nat 2)%Z; Z.of_nat 1] with (map Z.of_nat ([Dl; Dr] ++ [2 ^ 3; 1]%nat)).
    rewrite view_nat by (cbn [prodn shape tbuild app fold_right]; change (2 ^ 3)%nat with 8%nat; lia). cbn [bind].
    change [Dl; Dr; 2; 2; 2]%nat with ([Dl; Dr] ++ repeat 2 3)%nat.
    rewrite matmul_last. cbn [bind].
    change [Z.of_nat Dl; Z.of_nat Dr; Z.of_nat 2; Z.of_nat 2; Z.of_nat 2] with (map Z.of_nat ([Dl; Dr] ++ repeat 2 3)%nat).
    rewrite view_nat by (cbn [prodn shape tbuild app fold_right repeat]; cbn; lia). cbn [bind].
    cbn [data]. match goal with |- context [mkT ?s (data (tbuild ?s ?f))] => change (mkT s (data (tbuild s f))) with (tbuild s f) end.
    change [2%Z; 3%Z; 4%Z; Z.of_nat 0; Z.of_nat 1] with (map Z.of_nat [2%nat; 3%nat; 4%nat; 0%nat; 1%nat]).
    rewrite permute_tbuild by exact perm_23401. cbn [bind map nth app repeat].
    eexists. split; [|reflexivity].
    intros x y z i j Hx Hy Hz Hi Hj. cbn beta.
    change (unperm [2%nat; 3%nat; 4%nat; 0%nat; 1%nat] [x; y; z; i; j]) with [i; j; x; y; z].
    cbn [length skipn firstn app].
    apply bigsum_ext. intros c Hc. f_equal.
  Qed.

  Lemma three_site_ok : forall n A l psi i, is_mps n l psi -> (S (S i) < n)%nat -> nonzero n (apply_on A [i; S i; S (S i)] psi) ->
    exists l', three_site svd (Ok (op_tensor 3 A)) l (Z.of_nat (S i)) = Ok l' /\ is_mps n l' (apply_on A [i; S i; S (S i)] psi).
  Proof.
    intros n A l psi i [[Hn HC] He] Hi Hnz.
    destruct (list_split3 tensor i 3 l ltac:(lia)) as (l1 & m & l2 & -> & L1 & L2).
    destruct m as [|a [|b [|c [|]]]]; try discriminate. cbn [app] in *.
    apply chain_app in HC. destruct HC as (Dl & C1 & HC). cbn [chain] in HC.
    destruct HC as (D1 & HD1 & Sa & Wa & D2 & HD2 & Sb & Wb & Dr & HDr & Sc & Wc & C3).
    pose proof (chain_pos l1 1 Dl ltac:(lia) C1) as HDl.
    pose proof (seg_nonzero n A l1 [a; b; c] l2 Dl Dr psi Hn C1) as HN. cbn [app length seq] in HN.
    assert (CM : chain Dl [a; b; c] Dr). { exists D1. repeat split; auto. exists D2. repeat split; auto. exists Dr. cbn. auto. }
    rewrite L1 in HN. specialize (HN CM C3 He Hnz).
    unfold three_site. replace (Z.of_nat (S i) - 1)%Z with (Z.of_nat i) by lia. replace (Z.of_nat (S i) + 1)%Z with (Z.of_nat (S (S i))) by lia.
    rewrite (py_nth_nat _ _ i a), (py_nth_nat _ _ (S i) a), (py_nth_nat _ _ (S (S i)) a) by (rewrite app_length; cbn [length]; lia).
    rewrite !app_nth2 by lia. rewrite L1, Nat.sub_diag. replace (S i - i)%nat with 1%nat by lia. replace (S (S i) - i)%nat with 2%nat by lia. cbn [nth bind].
    assert (MM : forall x y z u v, (x < 2)%nat -> (y < 2)%nat -> (z < 2)%nat -> (u < Dl)%nat -> (v < Dr)%nat ->
      mps_mat [a; b; c] [x; y; z] u v =
      bigsum (seq 0 D2) (fun m => bigsum (seq 0 D1) (fun k => tget a [x; u; k] * tget b [y; k; m]) * tget c [z; m; v])).
    { intros. change [a; b; c] with ([a; b] ++ [c]). change [x; y; z] with ([x; y] ++ [z]).
      assert (Cab : chain Dl [a; b] D2) by (exists D1; repeat split; auto; exists D2; cbn; auto).
      rewrite (mps_mat_app [a; b] [c] Dl D2) by auto. apply bigsum_ext. intros m Hm. apply in_seq in Hm.
      rewrite (mps_mat_1 c D2 Dr) by (auto; lia). f_equal.
      change [a; b] with ([a] ++ [b]). change [x; y] with ([x] ++ [y]).
      rewrite (mps_mat_app [a] [b] Dl D1) by (auto; now apply chain_1). apply bigsum_ext. intros k Hk. apply in_seq in Hk.
      rewrite (mps_mat_1 a Dl D1), (mps_mat_1 b D1 D2) by (auto; lia). reflexivity. }
    set (L := l1 ++ a :: b :: c :: l2) in *.
    replace (unsqueeze a 1) with (unsqueeze (tbuild [2%nat; Dl; D1] (tget a)) 1) by (now rewrite <- (site_eta a Dl D1 Sa Wa)).
    replace (unsqueeze b 1) with (unsqueeze (tbuild [2%nat; D1; D2] (tget b)) 1) by (now rewrite <- (site_eta b D1 D2 Sb Wb)).
    replace (unsqueeze c 0) with (unsqueeze (tbuild [2%nat; D2; Dr] (tget c)) 0) by (now rewrite <- (site_eta c D2 Dr Sc Wc)).
    edestruct (merge3 _ (fun t => do rs <- TensorDecompAfterThreeQbitGate svd t;
      let '(r0, r1, r2) := rs in
      do MPS <- py_set L (Z.of_nat i) r0; do MPS <- py_set MPS (Z.of_nat (S i)) r1; py_set MPS (Z.of_nat (S (S i))) r2)
      A Dl D1 D2 Dr (tget a) (tget b) (tget c)) as (T & HT & E).
    cbn beta in E. match type of E with ?X = _ => match goal with |- exists l', ?Y = Ok l' /\ _ => change Y with X end end.
    rewrite E. clear E.
    assert (HT' : forall x y z u v, (x < 2)%nat -> (y < 2)%nat -> (z < 2)%nat -> (u < Dl)%nat -> (v < Dr)%nat ->
      T [x; y; z; u; v] = seg_op A [a; b; c] [x; y; z] u v).
    { intros. rewrite HT by auto. apply bigsum_ext. intros cc Hc. f_equal. pose proof (bits_length _ _ Hc) as Lc.
      destruct cc as [|c0 [|c1 [|c2 [|]]]]; try discriminate. apply bits_cons in Hc. destruct Hc as [Hu Hc]. apply bits_cons in Hc. destruct Hc as [Hv Hc].
      apply bits_cons in Hc. destruct Hc as [Hw _]. rewrite MM by auto. reflexivity. }
    destruct (decomp3_ok svd Hsvd Dl Dr T HDl HDr) as (a' & b' & c' & -> & CM' & HE).
    { intros HZ. apply HN. intros cc u v Hc Hu Hv. pose proof (bits_length _ _ Hc) as Lc.
      destruct cc as [|c0 [|c1 [|c2 [|]]]]; try discriminate. apply bits_cons in Hc. destruct Hc as [H0 Hc]. apply bits_cons in Hc. destruct Hc as [H1 Hc].
      apply bits_cons in Hc. destruct Hc as [H2 _]. rewrite <- HT' by auto. now apply HZ. }
    cbn [bind]. unfold L. rewrite py_set_nat by (rewrite app_length; cbn [length]; lia).
    replace (set_nth i a' (l1 ++ a :: b :: c :: l2)) with (l1 ++ a' :: b :: c :: l2) by (rewrite <- L1; now rewrite set_nth_mid). cbn [bind].
    rewrite py_set_nat by (rewrite app_length; cbn [length]; lia).
    replace (set_nth (S i) b' (l1 ++ a' :: b :: c :: l2)) with (l1 ++ a' :: b' :: c :: l2).
    2:{ change (l1 ++ a' :: b :: c :: l2) with (l1 ++ [a'] ++ b :: c :: l2). rewrite app_assoc. replace (S i) with (length (l1 ++ [a'])) by (rewrite app_length; cbn; lia).
        rewrite set_nth_mid, <- app_assoc. reflexivity. }
    cbn [bind]. rewrite py_set_nat by (rewrite app_length; cbn [length]; lia).
    replace (set_nth (S (S i)) c' (l1 ++ a' :: b' :: c :: l2)) with (l1 ++ a' :: b' :: c' :: l2).
    2:{ change (l1 ++ a' :: b' :: c :: l2) with (l1 ++ [a'; b'] ++ c :: l2). rewrite app_assoc. replace (S (S i)) with (length (l1 ++ [a'; b'])) by (rewrite app_length; cbn; lia).
        rewrite set_nth_mid, <- app_assoc. reflexivity. }
    eexists. split; [reflexivity|].
    pose proof (seg_replace n A l1 [a; b; c] [a'; b'; c'] l2 Dl Dr psi) as R. cbn [app length seq] in R. rewrite L1 in R.
    apply R; auto.
    intros cc u v Hc Hu Hv. pose proof (bits_length _ _ Hc) as Lc.
    destruct cc as [|c0 [|c1 [|c2 [|]]]]; try discriminate. apply bits_cons in Hc. destruct Hc as [H0 Hc]. apply bits_cons in Hc. destruct Hc as [H1 Hc].
    apply bits_cons in Hc. destruct Hc as [H2 _].
    rewrite <- HT' by auto. now apply HE.
  Qed.
End MPSFacts4.
