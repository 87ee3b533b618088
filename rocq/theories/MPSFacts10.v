(** Lemmas: MPS_inner_product and MPS_expec. *)
From Coq Require Import List ZArith QArith Lia ZifyBool Bool Arith Ring Permutation.
From Verif Require Import PyBase Scalar BigSum Index Tensor TensorFacts Spec SpecFacts QMath QTN QOperator
  ExpandFacts ExpandFacts2 ContractFacts ContractFacts2 GateFacts MPSSpec MPSFacts1 MPSFacts2 MPSFacts3 MPSFacts4 MPSFacts5.
Import ListNotations.
Local Close Scope Q_scope.
Local Open Scope nat_scope.

(** index of the unsqueezed tensor *)
Fixpoint expand (s idx : list nat) : list nat :=
  match s with
  | [] => []
  | n :: s' => if n =? 1 then 0 :: expand s' idx else hd 0 idx :: expand s' (tl idx)
  end.

Ltac zf := repeat match goal with |- context [if (?d =? 1)%nat then 0%nat else ?i] =>
  replace (if (d =? 1)%nat then 0%nat else i) with i by (destruct (d =? 1)%nat eqn:?; lia) end.

Section MPSFacts10.
  Context {SC : Scalar}.
  Add Ring KR : k_ring.
  Local Open Scope k_scope.

  Lemma prodn_filter1 : forall s, prodn (filter (fun n => negb (n =? 1)%nat) s) = prodn s.
  Proof. induction s as [|n s IH]; auto. cbn [filter]. destruct (n =? 1)%nat eqn:E; cbn [negb prodn]; lia. Qed.
  Lemma expand_ok : forall s idx, valid (filter (fun n => negb (n =? 1)%nat) s) idx ->
    valid s (expand s idx) /\ flat s (expand s idx) = flat (filter (fun n => negb (n =? 1)%nat) s) idx.
  Proof.
    induction s as [|n s IH]; intros idx V; cbn [filter] in V. { apply valid_inv0 in V. subst. split; [constructor|reflexivity]. }
    cbn [expand filter]. destruct (n =? 1)%nat eqn:E; cbn [negb] in *.
    - destruct (IH idx V) as [H1 H2]. split. { apply valid_cons. split; auto. lia. } cbn [flat]. rewrite H2. lia.
    - destruct (valid_inv_cons _ _ _ V) as (i & r & -> & L & V'). cbn [hd tl]. destruct (IH r V') as [H1 H2].
      split. { apply valid_cons. split; auto. } cbn [flat]. rewrite H2, prodn_filter1. lia.
  Qed.
  Lemma squeeze_tbuild : forall s f, squeeze (tbuild s f) = tbuild (filter (fun n => negb (n =? 1)%nat) s) (fun idx => f (expand s idx)).
  Proof.
    intros s f. unfold squeeze. rewrite tbuild_shape. rewrite reshape_tbuild by (now rewrite prodn_filter1).
    apply tbuild_ext. intros idx V. f_equal. destruct (expand_ok s idx V). now apply unflat_unique.
  Qed.

  (** one site of ket and bra: the transfer tensor *)
  Definition ipf (k b : tensor) (i j i' j' : nat) : K :=
    bigsum (seq 0 2) (fun x => kconj (tget b [x; j; j']) * tget k [x; i; i']).
  Definition ipt (k b : tensor) : tensor :=
    squeeze (tbuild [nth 1 (shape k) 0%nat; nth 1 (shape b) 0%nat; nth 2 (shape k) 0%nat; nth 2 (shape b) 0%nat; 1%nat; 1%nat]
      (fun idx => ipf k b (nth 0 idx 0%nat) (nth 1 idx 0%nat) (nth 2 idx 0%nat) (nth 3 idx 0%nat))).

  Lemma perm_120 : Permutation [1%nat; 2%nat; 0%nat] (seq 0 3).
  Proof. apply is_perm_spec. reflexivity. Qed.

  Lemma ip_site_ok : forall k b D D' d d', shape k = [2%nat; D; D'] -> wf k -> shape b = [2%nat; d; d'] -> wf b ->
    ip_site k b = Ok (ipt k b).
  Proof.
    intros k b D D' d d' Sk Wk Sb Wb. unfold ip_site, ipt. rewrite Sk, Sb. cbn [nth].
    replace (permute k) with (permute (tbuild [2%nat; D; D'] (tget k))) by (now rewrite <- Sk, <- (tensor_eta k Wk)).
    replace (permute b) with (permute (tbuild [2%nat; d; d'] (tget b))) by (now rewrite <- Sb, <- (tensor_eta b Wb)).
    change [1%Z; 2%Z; 0%Z] with (map Z.of_nat [1%nat; 2%nat; 0%nat]).
    rewrite !permute_tbuild by exact perm_120. cbn [bind map nth].
    change 1%Z with (Z.of_nat 1). change 0%Z with (Z.of_nat 0). change 3%Z with (Z.of_nat 3). change 2%Z with (Z.of_nat 2).
    change 5%Z with (Z.of_nat 5). change 4%Z with (Z.of_nat 4).
    do 6 (rewrite unsqueeze_tbuild by (cbn; lia); cbn [bind firstn skipn app]).
    rewrite tconj_tbuild.
    match goal with |- context [matmul (tbuild _ ?f) (tbuild _ ?g)] =>
      pose proof (matmul_pairs [(1%nat, D); (d, 1%nat); (1%nat, D'); (d', 1%nat)] 1 2 1 f g) as E end.
    unfold pmul in E. cbn [map fst snd app length] in E. rewrite !Nat.mul_1_l, !Nat.mul_1_r in E.
    rewrite E by (constructor; [now left|constructor; [now right|constructor; [now left|constructor; [now right|constructor]]]]).
    clear E. cbn [bind]. f_equal. f_equal. apply tbuild_ext. intros idx V. vinv V.
    unfold ipf. cbn [nth firstn skipn app zip0 map].
    apply bigsum_ext. intros z Hz. apply in_seq in Hz. zf. cbn [Nat.eqb].
    f_equal.
  Qed.

  (** the left environment after the sites kl, bl *)
  Definition env (kl bl : list tensor) (i j : nat) : K :=
    bigsum (bits (length kl)) (fun x => kconj (mps_mat bl x 0%nat j) * mps_mat kl x 0%nat i).

  Lemma env_snoc : forall kl bl k b D d D' d', chain 1 kl D -> chain 1 bl d -> length kl = length bl ->
    shape k = [2%nat; D; D'] -> shape b = [2%nat; d; d'] -> forall i j, (i < D')%nat -> (j < d')%nat ->
    env (kl ++ [k]) (bl ++ [b]) i j =
    bigsum (seq 0 D) (fun u => bigsum (seq 0 d) (fun v => env kl bl u v * ipf k b u v i j)).
  Proof.
    intros kl bl k b D d D' d' Ck Cb HL Sk Sb i j Hi Hj. unfold env. rewrite app_length. cbn [length].
    rewrite bigsum_bits_app.
    transitivity (bigsum (bits (length kl)) (fun x => bigsum (seq 0 2) (fun z =>
      bigsum (seq 0 D) (fun u => bigsum (seq 0 d) (fun v =>
        kconj (mps_mat bl x 0 v) * mps_mat kl x 0 u * (kconj (tget b [z; v; j]) * tget k [z; u; i])))))).
    - apply bigsum_ext. intros x Hx. pose proof (bits_length _ _ Hx) as Lx. rewrite bigsum_bits_1.
      cbn [seq]. rewrite !bigsum_cons, bigsum_nil.
      rewrite !(mps_mat_app kl [k] 1 D) by (auto; lia). rewrite !(mps_mat_app bl [b] 1 d) by (auto; lia).
      assert (X : forall z, (kconj (bigsum (seq 0 d) (fun v => mps_mat bl x 0 v * mps_mat [b] [z] v j)) *
        bigsum (seq 0 D) (fun u => mps_mat kl x 0 u * mps_mat [k] [z] u i)) =
        bigsum (seq 0 D) (fun u => bigsum (seq 0 d) (fun v =>
        kconj (mps_mat bl x 0 v) * mps_mat kl x 0 u * (kconj (tget b [z; v; j]) * tget k [z; u; i])))).
      { intros z. rewrite bigsum_conj. rewrite <- bigsum_mul_l. apply bigsum_ext. intros u _. rewrite <- bigsum_mul_r. apply bigsum_ext. intros v _.
        rewrite (mps_mat_1 b d d' z v j Sb Hj), (mps_mat_1 k D D' z u i Sk Hi), kconj_mul. ring. }
      rewrite !X. ring.
    - unfold ipf.
      transitivity (bigsum (bits (length kl)) (fun x => bigsum (seq 0 D) (fun u => bigsum (seq 0 d) (fun v => bigsum (seq 0 2) (fun z =>
        kconj (mps_mat bl x 0 v) * mps_mat kl x 0 u * (kconj (tget b [z; v; j]) * tget k [z; u; i])))))).
      { apply bigsum_ext. intros x _. rewrite bigsum_swap. apply bigsum_ext. intros u _. rewrite bigsum_swap. reflexivity. }
      rewrite bigsum_swap. apply bigsum_ext. intros u _. rewrite bigsum_swap. apply bigsum_ext. intros v _.
      rewrite <- bigsum_mul_r. apply bigsum_ext. intros x _. rewrite bigsum_mul_l. reflexivity.
  Qed.

  (** ** positions in a chain *)
  Definition dt : tensor := mkT [] [].

  Lemma firstn_snoc : forall A (l : list A) i d, (i < length l)%nat -> firstn (S i) l = firstn i l ++ [nth i l d].
  Proof. induction l as [|a l IH]; intros i d H; cbn [length] in H; [lia|]. destruct i; [reflexivity|]. cbn [firstn nth app]. now rewrite <- IH by lia. Qed.

  Lemma chain_nth : forall l Dl Dr i, chain Dl l Dr -> (i < length l)%nat ->
    exists D, chain Dl (firstn i l) D /\ shape (nth i l dt) = [2%nat; D; bond l i] /\ wf (nth i l dt) /\ (0 < bond l i)%nat /\
      chain Dl (firstn (S i) l) (bond l i) /\ chain (bond l i) (skipn (S i) l) Dr.
  Proof.
    intros l Dl Dr i HC Hi. rewrite <- (firstn_skipn i l) in HC. apply chain_app in HC. destruct HC as (D & C1 & C2).
    destruct (skipn i l) as [|t r] eqn:E. { pose proof (skipn_length i l) as X. rewrite E in X. cbn [length] in X. lia. }
    assert (EN : nth i l dt = t). { rewrite <- (firstn_skipn i l), E, app_nth2; rewrite firstn_length_le by lia; [|lia]. now rewrite Nat.sub_diag. }
    destruct C2 as (D' & HD' & HS & HW & C2). exists D. unfold bond; fold dt. rewrite EN, HS. cbn [nth]. repeat split; auto.
    - rewrite (firstn_snoc _ l i dt Hi), EN. apply chain_app. exists D. split; auto. now apply chain_1.
    - rewrite skipn_S_tl, E. exact C2.
  Qed.
  Lemma chain_bond : forall l Dl Dr i, chain Dl l Dr -> (S i < length l)%nat -> shape (nth (S i) l dt) = [2%nat; bond l i; bond l (S i)].
  Proof.
    intros l Dl Dr i HC Hi. destruct (chain_nth l Dl Dr (S i) HC Hi) as (D & C1 & HS & _).
    destruct (chain_nth l Dl Dr i HC ltac:(lia)) as (D0 & _ & HS0 & _ & _ & C2 & _).
    rewrite HS. rewrite (firstn_snoc _ l i dt) in C1, C2 by lia. apply chain_app in C1. destruct C1 as (X & C1 & (Y & _ & HY & _ & ->)).
    rewrite HS0 in HY. injection HY as _ HY. now rewrite HY.
  Qed.
  Lemma chain_bond0 : forall l Dl Dr, chain Dl l Dr -> (0 < length l)%nat -> shape (nth 0 l dt) = [2%nat; Dl; bond l 0].
  Proof. intros [|t l] Dl Dr HC H; cbn [length] in H; [lia|]. destruct HC as (D & _ & HS & _). unfold bond; fold dt. cbn [nth]. rewrite HS. reflexivity. Qed.
  Lemma chain_last : forall l Dl Dr n, chain Dl l Dr -> length l = S n -> bond l n = Dr.
  Proof.
    intros l Dl Dr n HC HL. destruct (chain_nth l Dl Dr n HC ltac:(lia)) as (D & _ & _ & _ & _ & _ & C2).
    rewrite skipn_all2 in C2 by lia. exact C2.
  Qed.

  (** ** the steps of the contraction *)
  Definition ip_mid (t t_nxt : tensor) : res tensor :=
    do t_nxt <- permute t_nxt [2%Z; 3%Z; 0%Z; 1%Z];
    do t <- unsqueeze t (-2); do t <- unsqueeze t (-4);
    do t_nxt <- unsqueeze t_nxt (-1); do t_nxt <- unsqueeze t_nxt (-3);
    do temp <- matmul t t_nxt;
    einsum_abii (squeeze temp).
  Definition ip_last (t t_nxt : tensor) : res K :=
    do t <- unsqueeze t (-2); do t <- unsqueeze t (-4);
    do t_nxt <- unsqueeze t_nxt (-1); do t_nxt <- unsqueeze t_nxt (-3);
    do temp <- matmul t t_nxt;
    ttrace (squeeze temp).

  Lemma unsqueeze_neg : forall s (f : list nat -> K) k, (1 <= k <= S (length s))%nat ->
    unsqueeze (tbuild s f) (- Z.of_nat k) = unsqueeze (tbuild s f) (Z.of_nat (S (length s) - k)).
  Proof.
    intros s f k Hk. unfold unsqueeze, rank. rewrite tbuild_shape. unfold dim_index, py_index.
    replace ((0 <=? - Z.of_nat k)%Z && (- Z.of_nat k <? Z.of_nat (S (length s)))%Z) with false by lia.
    replace ((- Z.of_nat (S (length s)) <=? - Z.of_nat k)%Z && (- Z.of_nat k <? 0)%Z) with true by lia.
    replace ((0 <=? Z.of_nat (S (length s) - k))%Z && (Z.of_nat (S (length s) - k) <? Z.of_nat (S (length s)))%Z) with true by lia.
    cbn [bind]. do 2 f_equal; f_equal; f_equal; f_equal; lia.
  Qed.
  Lemma squeeze4 : forall a b c d e, (2 <= a)%nat -> (2 <= b)%nat -> (2 <= c)%nat -> (2 <= d)%nat ->
    forall (f : list nat -> K), squeeze (tbuild (a :: b :: c :: d :: repeat 1%nat e) f) =
    tbuild [a; b; c; d] (fun idx => f ([nth 0 idx 0; nth 1 idx 0; nth 2 idx 0; nth 3 idx 0]%nat ++ repeat 0%nat e)).
  Proof.
    intros a b c d e Ha Hb Hc Hd f. rewrite squeeze_tbuild. cbn [filter].
    replace (a =? 1)%nat with false by lia. replace (b =? 1)%nat with false by lia. replace (c =? 1)%nat with false by lia.
    replace (d =? 1)%nat with false by lia. cbn [negb].
    assert (E1 : filter (fun n => negb (n =? 1)%nat) (repeat 1%nat e) = []) by (induction e; auto).
    assert (E2 : forall idx, expand (repeat 1%nat e) idx = repeat 0%nat e) by (induction e; intros; cbn [repeat expand Nat.eqb]; [|rewrite IHe]; auto).
    rewrite E1. apply tbuild_ext. intros idx V. vinv V. cbn [expand hd tl nth app].
    replace (a =? 1)%nat with false by lia. replace (b =? 1)%nat with false by lia. replace (c =? 1)%nat with false by lia.
    replace (d =? 1)%nat with false by lia. cbn [hd tl]. now rewrite E2.
  Qed.

  Lemma ipt_shape4 : forall k b D d D' d', shape k = [2%nat; D; D'] -> shape b = [2%nat; d; d'] ->
    (2 <= D)%nat -> (2 <= d)%nat -> (2 <= D')%nat -> (2 <= d')%nat ->
    ipt k b = tbuild [D; d; D'; d'] (fun idx => ipf k b (nth 0 idx 0%nat) (nth 1 idx 0%nat) (nth 2 idx 0%nat) (nth 3 idx 0%nat)).
  Proof.
    intros k b D d D' d' Sk Sb H1 H2 H3 H4. unfold ipt. rewrite Sk, Sb. cbn [nth].
    exact (squeeze4 D d D' d' 2 H1 H2 H3 H4 _).
  Qed.
  Lemma squeeze2 : forall l a b e, (2 <= a)%nat -> (2 <= b)%nat ->
    forall (f : list nat -> K), squeeze (tbuild (repeat 1%nat l ++ a :: b :: repeat 1%nat e) f) =
    tbuild [a; b] (fun idx => f (repeat 0%nat l ++ [nth 0 idx 0; nth 1 idx 0]%nat ++ repeat 0%nat e)).
  Proof.
    intros l a b e Ha Hb f. rewrite squeeze_tbuild.
    assert (E1 : forall e s, filter (fun n => negb (n =? 1)%nat) (repeat 1%nat e ++ s) = filter (fun n => negb (n =? 1)%nat) s) by (intros x s; induction x; auto).
    assert (E2 : forall e s idx, expand (repeat 1%nat e ++ s) idx = repeat 0%nat e ++ expand s idx)
      by (intros x s idx; induction x; intros; cbn [repeat expand Nat.eqb app]; [|rewrite IHx]; auto).
    rewrite E1. cbn [filter]. replace (a =? 1)%nat with false by lia. replace (b =? 1)%nat with false by lia. cbn [negb].
    rewrite <- (app_nil_r (repeat 1%nat e)), E1. cbn [filter]. apply tbuild_ext. intros idx V. vinv V.
    rewrite E2. cbn [expand hd tl nth app].
    replace (a =? 1)%nat with false by lia. replace (b =? 1)%nat with false by lia. cbn [hd tl]. rewrite E2. cbn [expand]. now rewrite app_nil_r.
  Qed.
  Lemma ipt_first : forall k b D' d', shape k = [2%nat; 1%nat; D'] -> shape b = [2%nat; 1%nat; d'] ->
    (2 <= D')%nat -> (2 <= d')%nat ->
    ipt k b = tbuild [D'; d'] (fun idx => ipf k b 0 0 (nth 0 idx 0%nat) (nth 1 idx 0%nat)).
  Proof.
    intros k b D' d' Sk Sb H3 H4. unfold ipt. rewrite Sk, Sb. cbn [nth].
    exact (squeeze2 2 D' d' 2 H3 H4 _).
  Qed.
  Lemma ipt_last : forall k b D d, shape k = [2%nat; D; 1%nat] -> shape b = [2%nat; d; 1%nat] ->
    (2 <= D)%nat -> (2 <= d)%nat ->
    ipt k b = tbuild [D; d] (fun idx => ipf k b (nth 0 idx 0%nat) (nth 1 idx 0%nat) 0 0).
  Proof.
    intros k b D d Sk Sb H3 H4. unfold ipt. rewrite Sk, Sb. cbn [nth].
    exact (squeeze2 0 D d 4 H3 H4 _).
  Qed.

  Lemma matmul_env : forall D d D' d' f g, (2 <= D)%nat ->
    matmul (tbuild [1%nat; D; 1%nat; d] f) (tbuild [D'; d'; D; 1%nat; d; 1%nat] g) =
    Ok (tbuild [D'; d'; D; D; 1%nat; 1%nat] (fun idx => bigsum (seq 0 d) (fun v =>
      f [0%nat; nth 3 idx 0%nat; 0%nat; v] * g [nth 0 idx 0%nat; nth 1 idx 0%nat; nth 2 idx 0%nat; 0%nat; v; 0%nat]))).
  Proof.
    intros D d D' d' f g HD. unfold matmul. rewrite !tbuild_shape. cbn [rev app]. rewrite Nat.eqb_refl.
    unfold bcast. cbn [rev app bcast_rev]. replace (1 =? D)%nat with false by lia. replace (D =? 1)%nat with false by lia.
    cbn [Nat.eqb rev app length]. f_equal. apply tbuild_ext. intros idx V. vinv V. cbn [nth firstn].
    apply bigsum_ext. intros v Hv. apply in_seq in Hv. unfold bidx. cbn [length Nat.sub skipn zip0 app Nat.eqb].
    zf. assert (x3 = 0%nat) by lia. assert (x4 = 0%nat) by lia. subst.
    rewrite !tget_tbuild by vok. reflexivity.
  Qed.

  Lemma ip_mid_ok : forall k b D d D' d' E, shape k = [2%nat; D; D'] -> shape b = [2%nat; d; d'] ->
    (2 <= D)%nat -> (2 <= d)%nat -> (2 <= D')%nat -> (2 <= d')%nat ->
    ip_mid (tbuild [D; d] E) (ipt k b) = Ok (tbuild [D'; d'] (fun idx =>
      bigsum (seq 0 D) (fun u => bigsum (seq 0 d) (fun v => E [u; v] * ipf k b u v (nth 0 idx 0%nat) (nth 1 idx 0%nat))))).
  Proof.
    intros k b D d D' d' E Sk Sb H1 H2 H3 H4. rewrite (ipt_shape4 k b D d D' d') by auto. unfold ip_mid.
    change [2%Z; 3%Z; 0%Z; 1%Z] with (map Z.of_nat [2%nat; 3%nat; 0%nat; 1%nat]).
    rewrite permute_tbuild by exact perm_2301. cbn [bind map nth].
    change (-2)%Z with (- Z.of_nat 2)%Z. change (-4)%Z with (- Z.of_nat 4)%Z. change (-1)%Z with (- Z.of_nat 1)%Z. change (-3)%Z with (- Z.of_nat 3)%Z.
    do 4 (rewrite unsqueeze_neg by (cbn; lia); cbn [length Nat.sub]; rewrite unsqueeze_tbuild by (cbn; lia); cbn [bind firstn skipn app]).
    rewrite matmul_env by lia. cbn [bind].
    rewrite (squeeze4 D' d' D D 2) by lia. unfold einsum_abii. rewrite tbuild_shape, Nat.eqb_refl. f_equal. apply tbuild_ext. intros idx V. vinv V.
    cbn [nth]. apply bigsum_ext. intros u Hu. apply in_seq in Hu. rewrite tget_tbuild by vok. cbn [nth app repeat]. apply bigsum_ext. intros v Hv.
    cbn [unperm map index_of Nat.eqb nth]. reflexivity.
  Qed.
  Lemma ip_last_ok : forall k b D d E, shape k = [2%nat; D; 1%nat] -> shape b = [2%nat; d; 1%nat] ->
    (2 <= D)%nat -> (2 <= d)%nat ->
    ip_last (tbuild [D; d] E) (ipt k b) = Ok (
      bigsum (seq 0 D) (fun u => bigsum (seq 0 d) (fun v => E [u; v] * ipf k b u v 0 0))).
  Proof.
    intros k b D d E Sk Sb H1 H2. rewrite (ipt_last k b D d) by auto. unfold ip_last.
    change (-2)%Z with (- Z.of_nat 2)%Z. change (-4)%Z with (- Z.of_nat 4)%Z. change (-1)%Z with (- Z.of_nat 1)%Z. change (-3)%Z with (- Z.of_nat 3)%Z.
    do 4 (rewrite unsqueeze_neg by (cbn; lia); cbn [length Nat.sub]; rewrite unsqueeze_tbuild by (cbn; lia); cbn [bind firstn skipn app]).
    match goal with |- context [matmul (tbuild _ ?f) (tbuild _ ?g)] =>
      pose proof (matmul_pairs [(1%nat, D); (D, 1%nat)] 1 d 1 f g) as EM end.
    unfold pmul in EM. cbn [map fst snd app length] in EM. rewrite !Nat.mul_1_l, !Nat.mul_1_r in EM.
    rewrite EM by (constructor; [now left|constructor; [now right|constructor]]). clear EM. cbn [bind].
    pose proof (squeeze2 0 D D 2 H1 H1) as SQ. cbn [repeat app] in SQ. rewrite SQ. clear SQ.
    unfold ttrace. rewrite tbuild_shape, Nat.min_id. f_equal.
    apply bigsum_ext. intros u Hu. apply in_seq in Hu. rewrite tget_tbuild by vok. cbn [nth app repeat firstn zip0]. apply bigsum_ext. intros v Hv. apply in_seq in Hv.
    zf. cbn [nth]. reflexivity.
  Qed.

  Lemma inner_product_ok : forall n ket bra f g, (2 <= n)%nat -> is_mps n ket f -> is_mps n bra g ->
    (forall i, (S i < n)%nat -> (2 <= bond ket i)%nat /\ (2 <= bond bra i)%nat) ->
    MPS_inner_product ket bra = Ok (inner n g f).
  Proof.
    intros n ket bra f g Hn [[Lk Ck] Ak] [[Lb Cb] Ab] HB. unfold MPS_inner_product. rewrite Lk.
    assert (EL : mmap (fun i => do k <- py_nth ket (Z.of_nat i); do b <- py_nth bra (Z.of_nat i); ip_site k b) (seq 0 n) =
      Ok (map (fun i => ipt (nth i ket dt) (nth i bra dt)) (seq 0 n))).
    { apply mmap_Ok_ext. intros i Hi. apply in_seq in Hi. rewrite (py_nth_nat _ _ i dt) by lia. rewrite (py_nth_nat _ _ i dt) by lia. cbn [bind].
      destruct (chain_nth ket 1 1 i Ck ltac:(lia)) as (D & _ & Sk & Wk & _). destruct (chain_nth bra 1 1 i Cb ltac:(lia)) as (d & _ & Sb & Wb & _).
      eapply ip_site_ok; eauto. }
    rewrite EL. clear EL. cbn [bind].
    set (lst := map (fun i => ipt (nth i ket dt) (nth i bra dt)) (seq 0 n)).
    assert (EN : forall i, (i < n)%nat -> py_nth lst (Z.of_nat i) = Ok (ipt (nth i ket dt) (nth i bra dt))).
    { intros i Hi. rewrite (py_nth_nat _ _ i dt) by (unfold lst; rewrite map_length, seq_length; lia). f_equal. unfold lst.
      rewrite (nth_indep _ dt (ipt (nth 0 ket dt) (nth 0 bra dt))) by (rewrite map_length, seq_length; lia).
      rewrite (map_nth (fun i => ipt (nth i ket dt) (nth i bra dt)) (seq 0 n) 0%nat i), seq_nth by lia. reflexivity. }
    replace (match lst with t :: _ :: _ => Ok t | _ => Err UnboundLocalError end) with (Ok (ipt (nth 0 ket dt) (nth 0 bra dt))).
    2:{ unfold lst. destruct n as [|[|n']]; try lia. reflexivity. }
    cbn [bind]. destruct (HB 0%nat ltac:(lia)) as [B1 B2].
    destruct (chain_nth ket 1 1 0 Ck ltac:(lia)) as (D & C0 & Sk & Wk & Pk & Ck0 & _). destruct (chain_nth bra 1 1 0 Cb ltac:(lia)) as (d & c0 & Sb & Wb & Pb & Cb0 & _).
    cbn [firstn chain] in C0, c0. subst D d.
    destruct (mfold_inv _ _ (fun t i =>
        do t_nxt <- py_nth lst (Z.of_nat (S i));
        do t_nxt <- permute t_nxt [2%Z; 3%Z; 0%Z; 1%Z];
        do t <- unsqueeze t (-2); do t <- unsqueeze t (-4);
        do t_nxt <- unsqueeze t_nxt (-1); do t_nxt <- unsqueeze t_nxt (-3);
        do temp <- matmul t t_nxt;
        einsum_abii (squeeze temp)) (fun i t => t = tbuild [bond ket i; bond bra i] (fun idx => env (firstn (S i) ket) (firstn (S i) bra) (nth 0 idx 0%nat) (nth 1 idx 0%nat)))
        (seq 0 (n - 2)) (ipt (nth 0 ket dt) (nth 0 bra dt))) as (t & ET & HT).
    - rewrite (ipt_first _ _ _ _ Sk Sb B1 B2). apply tbuild_ext. intros idx V. vinv V. cbn [nth].
      rewrite (firstn_snoc _ ket 0 dt), (firstn_snoc _ bra 0 dt) by lia.
      rewrite (env_snoc [] [] _ _ 1 1 (bond ket 0) (bond bra 0)); auto; try reflexivity.
      cbn [seq]. rewrite !bigsum_cons, !bigsum_nil. unfold env at 1. cbn [length bits mps_mat Nat.eqb]. rewrite bigsum_cons, bigsum_nil, kconj_1. ring.
    - intros i t x Hx Ht. assert (Hi : (i < n - 2)%nat) by (rewrite <- (seq_length (n - 2) 0); apply nth_error_Some; congruence).
      assert (x = i) by (apply nth_error_nth with (d := 0%nat) in Hx; rewrite seq_nth in Hx by lia; lia). subst x t.
      rewrite EN by lia. cbn [bind]. fold (ip_mid (tbuild [bond ket i; bond bra i] (fun idx => env (firstn (S i) ket) (firstn (S i) bra) (nth 0 idx 0%nat) (nth 1 idx 0%nat)))
        (ipt (nth (S i) ket dt) (nth (S i) bra dt))).
      destruct (HB i ltac:(lia)). destruct (HB (S i) ltac:(lia)).
      pose proof (chain_bond ket 1 1 i Ck ltac:(lia)) as Sk1. pose proof (chain_bond bra 1 1 i Cb ltac:(lia)) as Sb1.
      rewrite (ip_mid_ok _ _ _ _ _ _ _ Sk1 Sb1) by auto. eexists. split; [reflexivity|].
      apply tbuild_ext. intros idx V. vinv V. cbn [nth].
      rewrite (firstn_snoc _ ket (S i) dt), (firstn_snoc _ bra (S i) dt) by lia.
      destruct (chain_nth ket 1 1 i Ck ltac:(lia)) as (D & _ & _ & _ & _ & Cki & _). destruct (chain_nth bra 1 1 i Cb ltac:(lia)) as (d & _ & _ & _ & _ & Cbi & _).
      rewrite (env_snoc (firstn (S i) ket) (firstn (S i) bra) _ _ (bond ket i) (bond bra i) (bond ket (S i)) (bond bra (S i)) Cki Cbi); auto.
      rewrite !firstn_length_le by lia. reflexivity.
    - rewrite ET. cbn [bind]. rewrite seq_length in HT. subst t. clear ET. rewrite EN by lia. cbn [bind].
      match goal with |- ?X = _ => match X with context [unsqueeze ?a (-2)] => match X with context [unsqueeze ?b (-1)] => change X with (ip_last a b) end end end.
      assert (EB : exists m, n = S (S m)) by (exists (n - 2)%nat; lia). destruct EB as (m & ->). replace (S (S m) - 2)%nat with m by lia. replace (S (S m) - 1)%nat with (S m) by lia.
      destruct (HB m ltac:(lia)) as [H1 H2].
      pose proof (chain_bond ket 1 1 m Ck ltac:(lia)) as Sk1. pose proof (chain_bond bra 1 1 m Cb ltac:(lia)) as Sb1.
      rewrite (chain_last ket 1 1 (S m) Ck Lk) in Sk1. rewrite (chain_last bra 1 1 (S m) Cb Lb) in Sb1.
      rewrite (ip_last_ok _ _ _ _ _ Sk1 Sb1) by auto. f_equal. cbn [nth].
      destruct (chain_nth ket 1 1 m Ck ltac:(lia)) as (D & _ & _ & _ & _ & Cki & _). destruct (chain_nth bra 1 1 m Cb ltac:(lia)) as (d & _ & _ & _ & _ & Cbi & _).
      rewrite <- (env_snoc (firstn (S m) ket) (firstn (S m) bra) _ _ (bond ket m) (bond bra m) 1 1 Cki Cbi); auto; [|rewrite !firstn_length_le by lia; reflexivity].
      rewrite <- (firstn_snoc _ ket (S m) dt), <- (firstn_snoc _ bra (S m) dt) by lia. rewrite !firstn_all2 by lia.
      unfold env, inner. rewrite Lk. apply bigsum_ext. intros x Hx. rewrite <- Ak, <- Ab by auto. reflexivity.
  Qed.

  (** ** a bond of size 1: the contraction always raises *)
  Definition te {A} (m : res A) : Prop := forall e, m = Err e -> e = TorchError.
  Lemma te_bind : forall A B (m : res A) (f : A -> res B), te m -> (forall a, te (f a)) -> te (bind m f).
  Proof. intros A B [a|e] f H1 H2 e' H; cbn [bind] in H; [now apply (H2 a)|]. apply H1. congruence. Qed.
  Lemma te_ok : forall A (a : A), te (Ok a).
  Proof. intros A a e H. discriminate. Qed.
  Lemma te_err : forall A, te (@Err A TorchError).
  Proof. intros A e H. congruence. Qed.
  Lemma te_mfold : forall A B (f : A -> B -> res A) l, (forall a b, In b l -> te (f a b)) -> forall a, te (mfold f l a).
  Proof.
    intros A B f l. induction l as [|b l IH]; intros H a; cbn [mfold]; [apply te_ok|]. apply te_bind; [apply H; simpl; auto|].
    intros a'. apply IH. intros; apply H; simpl; auto.
  Qed.
  Lemma te_dim_index : forall n d, te (dim_index n d).
  Proof. intros n d. unfold dim_index. destruct (py_index n d); [apply te_ok|apply te_err]. Qed.
  Lemma te_mmap : forall A B (f : A -> res B) l, (forall a, te (f a)) -> te (mmap f l).
  Proof. intros A B f l H. induction l; cbn [mmap]; [apply te_ok|]. apply te_bind; auto. intros b. apply te_bind; auto. intros; apply te_ok. Qed.
  Lemma te_unsqueeze : forall t d, te (unsqueeze t d).
  Proof. intros t d. unfold unsqueeze. apply te_bind; [apply te_dim_index|]. intros; apply te_ok. Qed.
  Lemma te_permute : forall t d, te (permute t d).
  Proof.
    intros t d. unfold permute. repeat first [apply te_bind; [apply te_mmap; intros; apply te_dim_index|intros]|apply te_ok|apply te_err|
      match goal with |- te (if ?b then _ else _) => destruct b end].
  Qed.
  Lemma te_matmul : forall a b, te (matmul a b).
  Proof.
    intros a b. unfold matmul. destruct (rev (shape a)) as [|? [|? ?]]; try apply te_err. destruct (rev (shape b)) as [|? [|? ?]]; try apply te_err.
    destruct (_ =? _)%nat; [|apply te_err]. destruct (bcast _ _); [apply te_ok|apply te_err].
  Qed.
  Lemma te_einsum : forall t, te (einsum_abii t).
  Proof.
    intros t. unfold einsum_abii. destruct (shape t) as [|? [|? [|? [|? [|]]]]]; try apply te_err. destruct (_ =? _)%nat; [apply te_ok|apply te_err].
  Qed.
  Lemma te_ttrace : forall t, te (ttrace t).
  Proof. intros t. unfold ttrace. destruct (shape t) as [|? [|? [|]]]; first [apply te_ok|apply te_err]. Qed.

  Lemma unsqueeze_rank : forall t d t', unsqueeze t d = Ok t' -> rank t' = S (rank t) /\ (- Z.of_nat (S (rank t)) <= d)%Z.
  Proof.
    intros t d t'. unfold unsqueeze, dim_index, py_index.
    destruct ((0 <=? d)%Z && (d <? Z.of_nat (S (rank t)))%Z) eqn:E1.
    - cbn [bind]. intros H. injection H as <-. unfold rank in *. cbn [shape]. split; [|lia]. rewrite app_length. cbn [length].
      rewrite firstn_length, skipn_length. lia.
    - destruct ((- Z.of_nat (S (rank t)) <=? d)%Z && (d <? 0)%Z) eqn:E2; cbn [bind]; [|discriminate].
      intros H. injection H as <-. unfold rank in *. cbn [shape]. split; [|lia]. rewrite app_length. cbn [length].
      rewrite firstn_length, skipn_length. lia.
  Qed.
  Lemma unsq2_rank : forall t t1 t2, unsqueeze t (-2) = Ok t1 -> unsqueeze t1 (-4) = Ok t2 -> (2 <= rank t)%nat.
  Proof. intros t t1 t2 H1 H2. apply unsqueeze_rank in H1, H2. lia. Qed.
  Lemma permute_rank : forall t p t', permute t p = Ok t' -> rank t = length p.
  Proof.
    intros t p t'. unfold permute. intros H. apply bind_inv in H. destruct H as (q & E & H). apply mmap_length in E.
    destruct (is_perm q (rank t)) eqn:EP; [|discriminate]. apply is_perm_spec in EP. apply Permutation_length in EP. rewrite seq_length in EP. lia.
  Qed.
  Lemma ip_mid_rank : forall t x t', ip_mid t x = Ok t' -> (2 <= rank t)%nat /\ rank x = 4%nat.
  Proof.
    intros t x t' H. unfold ip_mid in H. apply bind_inv in H. destruct H as (x1 & E1 & H). apply bind_inv in H. destruct H as (t1 & E2 & H).
    apply bind_inv in H. destruct H as (t2 & E3 & H). split; [eapply unsq2_rank; eauto|]. apply permute_rank in E1. exact E1.
  Qed.
  Lemma ip_last_rank : forall t x v, ip_last t x = Ok v -> (2 <= rank t)%nat.
  Proof.
    intros t x t' H. unfold ip_last in H. apply bind_inv in H. destruct H as (t1 & E2 & H).
    apply bind_inv in H. destruct H as (t2 & E3 & H). eapply unsq2_rank; eauto.
  Qed.
  Lemma mfold_step : forall A B (f : A -> B -> res A) l a r x, mfold f l a = Ok r -> In x l -> exists a' a'', f a' x = Ok a''.
  Proof.
    intros A B f l. induction l as [|b l IH]; intros a r x H Hx; [destruct Hx|]. cbn [mfold] in H. apply bind_inv in H. destruct H as (a1 & E & H).
    destruct Hx as [->|Hx]; eauto.
  Qed.

  Lemma inner_product_narrow : forall n ket bra i, (2 <= n)%nat -> mps_shape n ket -> mps_shape n bra -> (S i < n)%nat ->
    bond ket i = 1%nat \/ bond bra i = 1%nat -> MPS_inner_product ket bra = Err TorchError.
  Proof.
    intros n ket bra i Hn [Lk Ck] [Lb Cb] Hi HB. unfold MPS_inner_product. rewrite Lk.
    assert (EL : mmap (fun i => do k <- py_nth ket (Z.of_nat i); do b <- py_nth bra (Z.of_nat i); ip_site k b) (seq 0 n) =
      Ok (map (fun i => ipt (nth i ket dt) (nth i bra dt)) (seq 0 n))).
    { apply mmap_Ok_ext. intros j Hj. apply in_seq in Hj. rewrite (py_nth_nat _ _ j dt) by lia. rewrite (py_nth_nat _ _ j dt) by lia. cbn [bind].
      destruct (chain_nth ket 1 1 j Ck ltac:(lia)) as (D & _ & Sk & Wk & _). destruct (chain_nth bra 1 1 j Cb ltac:(lia)) as (d & _ & Sb & Wb & _).
      eapply ip_site_ok; eauto. }
    rewrite EL. clear EL. cbn [bind].
    set (lst := map (fun i => ipt (nth i ket dt) (nth i bra dt)) (seq 0 n)).
    assert (EN : forall i, (i < n)%nat -> py_nth lst (Z.of_nat i) = Ok (ipt (nth i ket dt) (nth i bra dt))).
    { intros j Hj. rewrite (py_nth_nat _ _ j dt) by (unfold lst; rewrite map_length, seq_length; lia). f_equal. unfold lst.
      rewrite (nth_indep _ dt (ipt (nth 0 ket dt) (nth 0 bra dt))) by (rewrite map_length, seq_length; lia).
      rewrite (map_nth (fun i => ipt (nth i ket dt) (nth i bra dt)) (seq 0 n) 0%nat j), seq_nth by lia. reflexivity. }
    replace (match lst with t :: _ :: _ => Ok t | _ => Err UnboundLocalError end) with (Ok (ipt (nth 0 ket dt) (nth 0 bra dt))).
    2:{ unfold lst. destruct n as [|[|n']]; try lia. reflexivity. }
    cbn [bind]. set (t0 := ipt (nth 0 ket dt) (nth 0 bra dt)).
    match goal with |- bind (mfold ?f ?l ?a) ?k = _ => set (F := f); set (G := k) end.
    assert (TE : te (bind (mfold F (seq 0 (n - 2)) t0) G)).
    { assert (forall a b, te (ip_mid a b)) as TM.
      { intros a b. unfold ip_mid. repeat (apply te_bind; [first [apply te_permute|apply te_unsqueeze|apply te_matmul]|intros]). apply te_einsum. }
      assert (forall a b, te (ip_last a b)) as TL.
      { intros a b. unfold ip_last. repeat (apply te_bind; [first [apply te_permute|apply te_unsqueeze|apply te_matmul]|intros]). apply te_ttrace. }
      apply te_bind.
      - apply te_mfold. intros t j Hj. apply in_seq in Hj. unfold F. rewrite EN by lia. cbn [bind]. apply TM.
      - intros t. unfold G. rewrite EN by lia. cbn [bind]. apply TL. }
    destruct (bind (mfold F (seq 0 (n - 2)) t0) G) as [v|e] eqn:E; [exfalso|f_equal; now apply TE].
    apply bind_inv in E. destruct E as (t & EF & EG). unfold G in EG. rewrite EN in EG by lia. cbn [bind] in EG. apply ip_last_rank in EG.
    destruct i as [|i].
    - assert (R0 : (rank t0 <= 1)%nat).
      { unfold t0, ipt, squeeze, rank. rewrite (chain_bond0 ket 1 1 Ck ltac:(lia)), (chain_bond0 bra 1 1 Cb ltac:(lia)), tbuild_shape. cbn [shape nth filter Nat.eqb negb].
        destruct HB as [->| ->]; cbn [Nat.eqb negb]; match goal with |- context [(?x =? 1)%nat] => destruct (x =? 1)%nat end; cbn; lia. }
      destruct (n - 2)%nat as [|m] eqn:En.
      + cbn [seq mfold] in EF. injection EF as <-. lia.
      + cbn [seq mfold] in EF. apply bind_inv in EF. destruct EF as (t1 & EF & _). unfold F in EF. rewrite EN in EF by lia. cbn [bind] in EF.
        apply ip_mid_rank in EF. lia.
    - destruct (mfold_step _ _ _ _ _ _ i EF) as (a & a' & Ei). { apply in_seq. lia. }
      unfold F in Ei. rewrite EN in Ei by lia. cbn [bind] in Ei. apply ip_mid_rank in Ei. destruct Ei as [_ Ei].
      unfold ipt, squeeze, rank in Ei. rewrite (chain_bond ket 1 1 i Ck ltac:(lia)), (chain_bond bra 1 1 i Cb ltac:(lia)), tbuild_shape in Ei.
      cbn [shape nth filter Nat.eqb negb] in Ei.
      destruct HB as [HB|HB]; rewrite HB in Ei; cbn [Nat.eqb negb] in Ei;
        repeat match type of Ei with context [(?x =? 1)%nat] => destruct (x =? 1)%nat end; cbn in Ei; lia.
  Qed.
  Lemma inner_product_one : forall ket bra, mps_shape 1 ket -> mps_shape 1 bra -> MPS_inner_product ket bra = Err UnboundLocalError.
  Proof.
    intros ket bra [Lk Ck] [Lb Cb]. destruct ket as [|k [|]]; try discriminate. destruct bra as [|b [|]]; try discriminate.
    destruct Ck as (D & _ & Sk & Wk & _). destruct Cb as (d & _ & Sb & Wb & _). unfold MPS_inner_product. cbn [length seq mmap].
    change (py_nth [k] (Z.of_nat 0)) with (Ok k). change (py_nth [b] (Z.of_nat 0)) with (Ok b). cbn [bind].
    rewrite (ip_site_ok k b 1 D 1 d) by auto. reflexivity.
  Qed.
End MPSFacts10.
