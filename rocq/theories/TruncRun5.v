(** Lemmas: the one-, two- and three-site steps with a truncating decomposition. *)
From Coq Require Import List ZArith QArith Reals Lra Lia ZifyBool Bool Arith Qreals Permutation.
From Verif Require Import PyBase Scalar CInst BigSum Index Tensor TensorFacts Spec SpecFacts QMath QTN QOperator
  MPSSpec MPSFacts1 MPSFacts2 MPSFacts3 MPSFacts4 MPSFacts5 MeasSpec MeasFacts QuanvFacts TruncSpec TruncFacts1 TruncFacts2 SVDExist2 SVDExist3
  TruncRun1 TruncRun2 TruncRun3 TruncRun4.
Import ListNotations.
Local Close Scope Q_scope.
Local Open Scope R_scope.

Definition eta0 : R := 4 * / 10 ^ 8.
Lemma eta0_sq : eta0 * eta0 = 16 * tol2.
Proof. unfold eta0, tol2. field. Qed.
Lemma eta0_pos : 0 < eta0 <= / 100.
Proof. unfold eta0. split; lra. Qed.

(** l stands for the normalised state psi: the state of l is near psi, its left blocks are almost isometric *)
Record rel (n : nat) (del e : R) (l : list tensorC) (psi : qstateC) : Prop := mkRel {
  r_shape : mps_shape (SC := C_scalar) n l;
  r_norm : len (bits n) psi = 1;
  r_err : len (bits n) (fun x => Csub (psi x) (mps_amp (SC := C_scalar) l x)) <= del + e;
  r_len : len (bits n) (mps_amp (SC := C_scalar) l) <= 1 + e;
  r_framed : framed (1 - e) (1 + e) l }.

Lemma len_apply : forall n k i A psi, (i + k <= n)%nat -> unitary (SC := C_scalar) k A -> len (bits n) (apply_on (SC := C_scalar) A (seq i k) psi) = len (bits n) psi.
Proof. intros n k i A psi H U. unfold len. f_equal. exact (norm2_apply n k i A psi H U). Qed.

Section Gen.
  Context {SC : Scalar}.
  Add Ring KR : k_ring.
  Local Open Scope k_scope.
  Lemma apply_on_sub : forall A ws (f g : qstate) b, apply_on A ws f b - apply_on A ws g b = apply_on A ws (fun x => f x - g x) b.
  Proof. intros. unfold apply_on. rewrite <- bigsum_sub. apply bigsum_ext. intros; ring. Qed.
  Lemma seg_diff_0 : forall A m (G : list nat -> nat -> nat -> K) Dr w c i, (forall j, (j < Dr)%nat -> G c i j = seg_op A m c i j) -> seg_diff A m G Dr w c i = 0.
  Proof. intros A m G Dr w c i H. unfold seg_diff. apply bigsum_zero. intros j Hj. apply in_seq in Hj. rewrite H by lia. ring. Qed.
End Gen.

Section Rel.
  Variables (n : nat) (del : R).
  Hypothesis Hdel : 0 <= del <= / 10.

  Lemma rel_st : forall e l f g, rel n del e l f -> st_eq (SC := C_scalar) n f g -> rel n del e l g.
  Proof.
    intros e l f g [H1 H2 H3 H4 H5] E. split; auto.
    - rewrite <- H2. apply len_ext. intros x Hx. symmetry. now apply E.
    - eapply Rle_trans; [|exact H3]. right. apply len_ext. intros x Hx. f_equal. symmetry. now apply E.
  Qed.
  Lemma rel_weak : forall e e' l f, 0 <= e -> e <= e' -> e' <= / 5 -> rel n del e l f -> rel n del e' l f.
  Proof. intros e e' l f P1 P2 P3 [H1 H2 H3 H4 H5]. split; auto; try lra. apply (framed_weak (1 - e) (1 + e)); auto; lra. Qed.
  Lemma rel_low : forall e l f, 0 <= e <= / 5 -> rel n del e l f -> 7 * / 10 <= len (bits n) (mps_amp (SC := C_scalar) l).
  Proof.
    intros e l f P [H1 H2 H3 H4 H5]. pose proof (len_le_sub _ (bits n) f (mps_amp (SC := C_scalar) l)) as X. rewrite H2 in X. lra.
  Qed.

  Lemma max_bound : forall e x, 0 <= e <= / 5 -> 0 <= x <= 1 + e -> (1 + e) * Rmax 1 (x / (1 - e)) <= 2.
  Proof.
    intros e x He Hx. assert (P : 0 < 1 - e) by lra. apply Rmax_case.
    - lra.
    - apply Rmult_le_reg_r with (1 - e); auto. replace ((1 + e) * (x / (1 - e)) * (1 - e)) with ((1 + e) * x) by (field; lra). nra.
  Qed.

  Section Step.
    Variables (e eta : R) (A : qopC) (l1 m l2 : list tensorC) (Dl Dr : nat) (psi : qstateC).
    Hypothesis He : 0 <= e.
    Hypothesis Heta : 0 <= eta <= / 100.
    Hypothesis He2 : e + 2 * eta <= / 5.
    Hypothesis HR : rel n del e (l1 ++ m ++ l2) psi.
    Hypothesis H1 : chain (SC := C_scalar) 1 l1 Dl.
    Hypothesis H2 : chain (SC := C_scalar) Dl m Dr.
    Hypothesis H3 : chain (SC := C_scalar) Dr l2 1.
    Hypothesis Hm : m <> [].
    Hypothesis HU : unitary (SC := C_scalar) (length m) A.

    Lemma rel_not_small : ~ close A m (fun _ _ _ => RtoC 0) Dl Dr eta.
    Proof.
      pose proof (rel_low e _ _ ltac:(lra) HR) as L. destruct HR as [[Hn _] _ _ R4 R5].
      pose proof (max_bound e _ ltac:(lra) (conj (len_pos _ _ _) R4)) as X.
      apply (seg_not_small n A l1 m l2 Dl Dr (1 - e) (1 + e) eta); auto; try lra. unfold psi0.
      rewrite Rmult_assoc. assert (eta * ((1 + e) * Rmax 1 (len (bits n) (mps_amp (SC := C_scalar) (l1 ++ m ++ l2)) / (1 - e))) <= eta * 2) by (apply Rmult_le_compat_l; lra).
      lra.
    Qed.

    Variable m' : list tensorC.
    Hypothesis H2' : chain (SC := C_scalar) Dl m' Dr.
    Hypothesis Hm' : length m' = length m.
    Hypothesis HI : isos Dl m'.
    Hypothesis Cl : close A m (mps_mat (SC := C_scalar) m') Dl Dr eta.

    Lemma rel_seg : rel n del (e + 2 * eta) (l1 ++ m' ++ l2) (apply_on (SC := C_scalar) A (seq (length l1) (length m)) psi).
    Proof.
      destruct HR as [[Hn _] R2 R3 R4 R5].
      assert (Hk : (length l1 + length m <= n)%nat) by (rewrite <- Hn, !app_length; lia).
      pose proof (max_bound e _ ltac:(lra) (conj (len_pos _ _ _) R4)) as X.
      assert (ES : len (bits n) (fun x => Csub (apply_on (SC := C_scalar) A (seq (length l1) (length m)) (mps_amp (SC := C_scalar) (l1 ++ m ++ l2)) x) (mps_amp (SC := C_scalar) (l1 ++ m' ++ l2) x)) <= 2 * eta).
      { eapply Rle_trans. { apply (seg_state n A l1 m l2 Dl Dr (1 - e) (1 + e) eta) with (m' := m'); auto; lra. } unfold psi0.
        rewrite Rmult_assoc. rewrite (Rmult_comm 2 eta). apply Rmult_le_compat_l; lra. }
      split.
      - split; [rewrite <- Hn, !app_length; lia|]. apply chain_app. exists Dl. split; auto. apply chain_app. exists Dr. auto.
      - rewrite len_apply; auto.
      - eapply Rle_trans; [apply len_tri with (g := apply_on (SC := C_scalar) A (seq (length l1) (length m)) (mps_amp (SC := C_scalar) (l1 ++ m ++ l2)))|].
        rewrite (len_ext _ (bits n) (fun a => Csub (apply_on (SC := C_scalar) A (seq (length l1) (length m)) psi a) _)
          (apply_on (SC := C_scalar) A (seq (length l1) (length m)) (fun x => Csub (psi x) (mps_amp (SC := C_scalar) (l1 ++ m ++ l2) x)))).
        + rewrite len_apply by auto. lra.
        + intros x _. exact (apply_on_sub (SC := C_scalar) A _ psi (mps_amp (SC := C_scalar) (l1 ++ m ++ l2)) x).
      - pose proof (len_le_sub _ (bits n) (mps_amp (SC := C_scalar) (l1 ++ m' ++ l2)) (apply_on (SC := C_scalar) A (seq (length l1) (length m)) (mps_amp (SC := C_scalar) (l1 ++ m ++ l2)))) as Y.
        rewrite len_sub_sym, len_apply in Y by auto. lra.
      - assert (P : 0 < 1 - e) by lra.
        apply (framed_weak ((1 - e) - eta * (1 + e)) ((1 + e) + eta * (1 + e) * (1 + e) / (1 - e))).
        + lra.
        + assert (eta * (1 + e) <= eta * 2) by (apply Rmult_le_compat_l; lra). lra.
        + assert (0 <= eta * (1 + e) * (1 + e) / (1 - e)). { apply Rmult_le_pos; [repeat apply Rmult_le_pos; lra|]. left. now apply Rinv_0_lt_compat. } lra.
        + assert (eta * (1 + e) * (1 + e) / (1 - e) <= eta * 2); [|lra].
          apply Rmult_le_reg_r with (1 - e); auto. replace (eta * (1 + e) * (1 + e) / (1 - e) * (1 - e)) with (eta * ((1 + e) * (1 + e))) by (field; lra).
          rewrite Rmult_assoc. apply Rmult_le_compat_l; [lra|nra].
        + apply (seg_framed n A l1 m l2 Dl Dr (1 - e) (1 + e) eta); auto; try lra. nra.
    Qed.
  End Step.

  Lemma close_0 : forall A m m' Dl Dr, (forall c i j, In c (bits (length m)) -> (i < Dl)%nat -> (j < Dr)%nat -> mps_mat (SC := C_scalar) m' c i j = seg_op (SC := C_scalar) A m c i j) ->
    close A m (mps_mat (SC := C_scalar) m') Dl Dr 0.
  Proof.
    intros A m m' Dl Dr H w. rewrite (rsum_ext _ _ _ (fun _ => 0)).
    - rewrite rsum_0. pose proof (nrm_pos Dr w). lra.
    - intros c Hc. rewrite (nrm_ext Dl _ (fun _ => RtoC 0)).
      + unfold nrm. rewrite (rsum_ext _ _ _ (fun _ => 0)) by (intros; apply Cnorm2_C0). apply rsum_0.
      + intros i Hi. apply (seg_diff_0 (SC := C_scalar)). intros j Hj. now apply H.
  Qed.
  Lemma close_2 : forall A m G Dl Dr F, length m = 2%nat -> small2 Dl Dr F ->
    (forall x y i j, (x < 2)%nat -> (y < 2)%nat -> (i < Dl)%nat -> (j < Dr)%nat -> F x y i j = Csub (seg_op (SC := C_scalar) A m [x; y] i j) (G [x; y] i j)) ->
    close A m G Dl Dr eta0.
  Proof.
    intros A m G Dl Dr F L S H w. rewrite L, rsum_bits2, eta0_sq. pose proof (S w) as X. pose proof (nrm_pos Dr w). pose proof tol2_pos.
    apply Rle_trans with (2 * tol2 * nrm Dr w); [|apply Rmult_le_compat_r; lra]. eapply Rle_trans; [|exact X]. right.
    apply rsum_ext. intros x Hx. apply rsum_ext. intros y Hy. apply nrm_ext. intros i Hi. apply in_seq in Hx, Hy.
    unfold seg_diff. apply (bigsum_ext (SC := C_scalar)). intros j Hj. apply in_seq in Hj. cbn. f_equal. symmetry. apply H; lia.
  Qed.
  Lemma close_3 : forall A m G Dl Dr F, length m = 3%nat -> small3 Dl Dr F ->
    (forall x y z i j, (x < 2)%nat -> (y < 2)%nat -> (z < 2)%nat -> (i < Dl)%nat -> (j < Dr)%nat -> F x y z i j = Csub (seg_op (SC := C_scalar) A m [x; y; z] i j) (G [x; y; z] i j)) ->
    close A m G Dl Dr eta0.
  Proof.
    intros A m G Dl Dr F L S H w. rewrite L, rsum_bits3, eta0_sq. pose proof (S w) as X. pose proof (nrm_pos Dr w). pose proof tol2_pos.
    apply Rle_trans with (12 * tol2 * nrm Dr w); [|apply Rmult_le_compat_r; lra]. eapply Rle_trans; [|exact X]. right.
    apply rsum_ext. intros x Hx. apply rsum_ext. intros y Hy. apply rsum_ext. intros z Hz. apply nrm_ext. intros i Hi. apply in_seq in Hx, Hy, Hz.
    unfold seg_diff. apply (bigsum_ext (SC := C_scalar)). intros j Hj. apply in_seq in Hj. cbn. f_equal. symmetry. apply H; lia.
  Qed.

  (** ** one site *)
  Lemma single_site_rel : forall e A l psi i, 0 <= e <= / 5 -> unitary (SC := C_scalar) 1 A -> rel n del e l psi -> (i < n)%nat ->
    exists s s', py_nth l (Z.of_nat i) = Ok s /\ einsum_ab_bcd (SC := C_scalar) (op_tensor (SC := C_scalar) 1 A) s = Ok s' /\
      exists l', py_set l (Z.of_nat i) s' = Ok l' /\ rel n del e l' (apply_on (SC := C_scalar) A [i] psi).
  Proof.
    intros e A l psi i He HU HR Hi. pose proof HR as [[Hn HC] _ _ _ _].
    destruct (list_split3 tensorC i 1 l ltac:(lia)) as (l1 & m & l2 & -> & L1 & L2).
    destruct m as [|s [|]]; try discriminate. cbn [app] in *.
    apply chain_app in HC. destruct HC as (Dl & C1 & HC). cbn [chain] in HC. destruct HC as (Dr & HDr & Ss & Ws & C3).
    pose proof (chain_pos (SC := C_scalar) l1 1 Dl ltac:(lia) C1) as HDl.
    exists s. rewrite (py_nth_nat _ _ i s) by (rewrite app_length; cbn [length]; lia).
    rewrite app_nth2, L1, Nat.sub_diag by lia. cbn [nth].
    unfold einsum_ab_bcd, op_tensor. rewrite tbuild_shape, Ss. change (2 ^ 1)%nat with 2%nat. cbn [Nat.eqb].
    eexists. split; [reflexivity|]. split; [reflexivity|].
    rewrite py_set_nat by (rewrite app_length; cbn [length]; lia). rewrite <- L1, set_nth_mid. eexists. split; [reflexivity|].
    set (F := fun idx => bigsum (seq 0 2) _).
    pose proof (rel_seg e 0 A l1 [s] l2 Dl Dr psi) as R. cbn [app length seq] in R.
    replace (e + 2 * 0) with e in R by ring.
    specialize (R ltac:(lra) ltac:(lra) ltac:(lra) HR C1 ltac:(now apply chain_1) C3 ltac:(discriminate) HU [tbuild (SC := C_scalar) [2%nat; Dl; Dr] F]).
    apply R; auto.
    - apply chain_1; auto. apply tbuild_wf.
    - exact I.
    - apply close_0. intros c x j Hc Hx Hj. pose proof (bits_length _ _ Hc) as Lc. destruct c as [|b [|]]; try discriminate.
      apply bits_cons in Hc. destruct Hc as [Hb _].
      rewrite (mps_mat_1 (SC := C_scalar) _ Dl Dr) by auto. rewrite tget_tbuild by vok. unfold F, seg_op. cbn [nth length].
      rewrite (bits_map 1), (bigsum_map (SC := C_scalar)). change (2 ^ 1)%nat with 2%nat. apply (bigsum_ext (SC := C_scalar)). intros y Hy. apply in_seq in Hy.
      rewrite tget_tbuild by vok. destruct y as [|[|]]; [| |lia]; destruct b as [|[|]]; try lia; cbn;
        f_equal; symmetry; apply (mps_mat_1 (SC := C_scalar) s Dl Dr); auto.
  Qed.

  Variable svd : tensorC -> tensorC * tensorC * tensorC.
  Hypothesis HT : true_svd (SC := C_scalar) svd.

  Lemma two_site_rel : forall e A l psi i, 0 <= e -> e + 2 * eta0 <= / 5 -> unitary (SC := C_scalar) 2 A -> rel n del e l psi -> (S i < n)%nat ->
    exists l', two_site (SC := C_scalar) svd (op_tensor (SC := C_scalar) 2 A) l (Z.of_nat i) (Z.of_nat (S i)) = Ok l' /\ rel n del (e + 2 * eta0) l' (apply_on (SC := C_scalar) A [i; S i] psi).
  Proof.
    intros e A l psi i He He2 HU HR Hi. pose proof HR as [[Hn HC] _ _ _ _].
    destruct (list_split3 tensorC i 2 l ltac:(lia)) as (l1 & m & l2 & -> & L1 & L2).
    destruct m as [|a [|b [|]]]; try discriminate. cbn [app] in *.
    apply chain_app in HC. destruct HC as (Dl & C1 & HC). cbn [chain] in HC.
    destruct HC as (D & HD & Sa & Wa & Dr & HDr & Sb & Wb & C3).
    pose proof (chain_pos (SC := C_scalar) l1 1 Dl ltac:(lia) C1) as HDl. pose proof eta0_pos as HE0.
    assert (CM : chain (SC := C_scalar) Dl [a; b] Dr). { exists D. repeat split; auto. exists Dr. cbn. auto. }
    pose proof (rel_not_small e eta0 A l1 [a; b] l2 Dl Dr psi He ltac:(lra) He2 HR C1 CM C3 ltac:(discriminate) HU) as NS.
    unfold two_site. rewrite (py_nth_nat _ _ i a), (py_nth_nat _ _ (S i) a) by (rewrite app_length; cbn [length]; lia).
    rewrite !app_nth2 by lia. rewrite L1, Nat.sub_diag. replace (S i - i)%nat with 1%nat by lia. cbn [nth bind].
    assert (MM : forall x y u v, (x < 2)%nat -> (y < 2)%nat -> (u < Dl)%nat -> (v < Dr)%nat ->
      mps_mat (SC := C_scalar) [a; b] [x; y] u v = sumC (seq 0 D) (fun k => Cmul (tget a [x; u; k]) (tget b [y; k; v]))).
    { intros. change [a; b] with ([a] ++ [b]). change [x; y] with ([x] ++ [y]).
      rewrite (mps_mat_app (SC := C_scalar) [a] [b] Dl D) by (auto; now apply chain_1). apply (bigsum_ext (SC := C_scalar)). intros k Hk. apply in_seq in Hk.
      rewrite (mps_mat_1 (SC := C_scalar) a Dl D), (mps_mat_1 (SC := C_scalar) b D Dr) by (auto; lia). reflexivity. }
    set (L := l1 ++ a :: b :: l2) in *.
    replace (unsqueeze a 1) with (unsqueeze (tbuild (SC := C_scalar) [2%nat; Dl; D] (tget a)) 1) by (now rewrite <- (site_eta (SC := C_scalar) a Dl D Sa Wa)).
    replace (unsqueeze b 0) with (unsqueeze (tbuild (SC := C_scalar) [2%nat; D; Dr] (tget b)) 0) by (now rewrite <- (site_eta (SC := C_scalar) b D Dr Sb Wb)).
    edestruct (merge2 (SC := C_scalar) _ (fun t => do rs <- TensorDecompAfterTwoQbitGate svd t;
      do MPS1 <- py_set L (Z.of_nat i) (fst rs); py_set MPS1 (Z.of_nat (S i)) (snd rs)) A Dl D Dr (tget a) (tget b)) as (T & HTT & E).
    cbn beta in E. match type of E with ?X = _ => match goal with |- exists l', ?Y = Ok l' /\ _ => change Y with X end end.
    rewrite E. clear E.
    assert (HT' : forall x y u v, (x < 2)%nat -> (y < 2)%nat -> (u < Dl)%nat -> (v < Dr)%nat -> T [x; y; u; v] = seg_op (SC := C_scalar) A [a; b] [x; y] u v).
    { intros. rewrite HTT by auto. apply (bigsum_ext (SC := C_scalar)). intros c Hc. f_equal. pose proof (bits_length _ _ Hc) as Lc.
      destruct c as [|c0 [|c1 [|]]]; try discriminate. apply bits_cons in Hc. destruct Hc as [Hu Hc]. apply bits_cons in Hc. destruct Hc as [Hv _].
      rewrite MM by auto. reflexivity. }
    destruct (decomp2_true svd HT Dl Dr T HDl HDr) as [SM|(a' & b' & -> & CM' & IS & SM)].
    { exfalso. apply NS. apply (close_2 A [a; b] _ Dl Dr _ eq_refl SM). intros x y u v Hx Hy Hu Hv. rewrite HT' by auto.
      set (q := seg_op _ _ _ _ _). destruct q. apply C_eq; cbn; ring. }
    cbn [bind fst snd]. unfold L. rewrite py_set_nat by (rewrite app_length; cbn [length]; lia). 
    replace (set_nth i a' (l1 ++ a :: b :: l2)) with (l1 ++ a' :: b :: l2) by (rewrite <- L1; now rewrite set_nth_mid). cbn [bind].
    rewrite py_set_nat by (rewrite app_length; cbn [length]; lia).
    replace (set_nth (S i) b' (l1 ++ a' :: b :: l2)) with (l1 ++ a' :: b' :: l2).
    2:{ change (l1 ++ a' :: b :: l2) with (l1 ++ [a'] ++ b :: l2). rewrite app_assoc. replace (S i) with (length (l1 ++ [a'])) by (rewrite app_length; cbn; lia).
        rewrite set_nth_mid, <- app_assoc. reflexivity. }
    eexists. split; [reflexivity|].
    pose proof (rel_seg e eta0 A l1 [a; b] l2 Dl Dr psi) as R. cbn [app length seq] in R. rewrite L1 in R.
    apply (R He ltac:(lra) He2 HR C1 CM C3 ltac:(discriminate) HU [a'; b'] CM' eq_refl IS).
    apply (close_2 A [a; b] _ Dl Dr _ eq_refl SM). intros x y u v Hx Hy Hu Hv. now rewrite HT'.
  Qed.

  Lemma three_site_rel : forall e A l psi i, 0 <= e -> e + 2 * eta0 <= / 5 -> unitary (SC := C_scalar) 3 A -> rel n del e l psi -> (S (S i) < n)%nat ->
    exists l', three_site (SC := C_scalar) svd (Ok (op_tensor (SC := C_scalar) 3 A)) l (Z.of_nat (S i)) = Ok l' /\ rel n del (e + 2 * eta0) l' (apply_on (SC := C_scalar) A [i; S i; S (S i)] psi).
  Proof.
    intros e A l psi i He He2 HU HR Hi. pose proof HR as [[Hn HC] _ _ _ _].
    destruct (list_split3 tensorC i 3 l ltac:(lia)) as (l1 & m & l2 & -> & L1 & L2).
    destruct m as [|a [|b [|c [|]]]]; try discriminate. cbn [app] in *.
    apply chain_app in HC. destruct HC as (Dl & C1 & HC). cbn [chain] in HC.
    destruct HC as (D1 & HD1 & Sa & Wa & D2 & HD2 & Sb & Wb & Dr & HDr & Sc & Wc & C3).
    pose proof (chain_pos (SC := C_scalar) l1 1 Dl ltac:(lia) C1) as HDl. pose proof eta0_pos as HE0.
    assert (CM : chain (SC := C_scalar) Dl [a; b; c] Dr). { exists D1. repeat split; auto. exists D2. repeat split; auto. exists Dr. cbn. auto. }
    pose proof (rel_not_small e eta0 A l1 [a; b; c] l2 Dl Dr psi He ltac:(lra) He2 HR C1 CM C3 ltac:(discriminate) HU) as NS.
    unfold three_site. replace (Z.of_nat (S i) - 1)%Z with (Z.of_nat i) by lia. replace (Z.of_nat (S i) + 1)%Z with (Z.of_nat (S (S i))) by lia.
    rewrite (py_nth_nat _ _ i a), (py_nth_nat _ _ (S i) a), (py_nth_nat _ _ (S (S i)) a) by (rewrite app_length; cbn [length]; lia).
    rewrite !app_nth2 by lia. rewrite L1, Nat.sub_diag. replace (S i - i)%nat with 1%nat by lia. replace (S (S i) - i)%nat with 2%nat by lia. cbn [nth bind].
    assert (MM : forall x y z u v, (x < 2)%nat -> (y < 2)%nat -> (z < 2)%nat -> (u < Dl)%nat -> (v < Dr)%nat ->
      mps_mat (SC := C_scalar) [a; b; c] [x; y; z] u v =
      sumC (seq 0 D2) (fun m => Cmul (sumC (seq 0 D1) (fun k => Cmul (tget a [x; u; k]) (tget b [y; k; m]))) (tget c [z; m; v]))).
    { intros. change [a; b; c] with ([a; b] ++ [c]). change [x; y; z] with ([x; y] ++ [z]).
      assert (Cab : chain (SC := C_scalar) Dl [a; b] D2) by (exists D1; repeat split; auto; exists D2; cbn; auto).
      rewrite (mps_mat_app (SC := C_scalar) [a; b] [c] Dl D2) by auto. apply (bigsum_ext (SC := C_scalar)). intros m Hm. apply in_seq in Hm.
      rewrite (mps_mat_1 (SC := C_scalar) c D2 Dr) by (auto; lia). apply (f_equal2 Cmul); [|reflexivity].
      change [a; b] with ([a] ++ [b]). change [x; y] with ([x] ++ [y]).
      rewrite (mps_mat_app (SC := C_scalar) [a] [b] Dl D1) by (auto; now apply chain_1). apply (bigsum_ext (SC := C_scalar)). intros k Hk. apply in_seq in Hk.
      rewrite (mps_mat_1 (SC := C_scalar) a Dl D1), (mps_mat_1 (SC := C_scalar) b D1 D2) by (auto; lia). reflexivity. }
    set (L := l1 ++ a :: b :: c :: l2) in *.
    replace (unsqueeze a 1) with (unsqueeze (tbuild (SC := C_scalar) [2%nat; Dl; D1] (tget a)) 1) by (now rewrite <- (site_eta (SC := C_scalar) a Dl D1 Sa Wa)).
    replace (unsqueeze b 1) with (unsqueeze (tbuild (SC := C_scalar) [2%nat; D1; D2] (tget b)) 1) by (now rewrite <- (site_eta (SC := C_scalar) b D1 D2 Sb Wb)).
    replace (unsqueeze c 0) with (unsqueeze (tbuild (SC := C_scalar) [2%nat; D2; Dr] (tget c)) 0) by (now rewrite <- (site_eta (SC := C_scalar) c D2 Dr Sc Wc)).
    edestruct (merge3 (SC := C_scalar) _ (fun t => do rs <- TensorDecompAfterThreeQbitGate svd t;
      let '(r0, r1, r2) := rs in
      do MPS <- py_set L (Z.of_nat i) r0; do MPS <- py_set MPS (Z.of_nat (S i)) r1; py_set MPS (Z.of_nat (S (S i))) r2)
      A Dl D1 D2 Dr (tget a) (tget b) (tget c)) as (T & HTT & E).
    cbn beta in E. match type of E with ?X = _ => match goal with |- exists l', ?Y = Ok l' /\ _ => change Y with X end end.
    rewrite E. clear E.
    assert (HT' : forall x y z u v, (x < 2)%nat -> (y < 2)%nat -> (z < 2)%nat -> (u < Dl)%nat -> (v < Dr)%nat ->
      T [x; y; z; u; v] = seg_op (SC := C_scalar) A [a; b; c] [x; y; z] u v).
    { intros. rewrite HTT by auto. apply (bigsum_ext (SC := C_scalar)). intros cc Hc. f_equal. pose proof (bits_length _ _ Hc) as Lc.
      destruct cc as [|c0 [|c1 [|c2 [|]]]]; try discriminate. apply bits_cons in Hc. destruct Hc as [Hu Hc]. apply bits_cons in Hc. destruct Hc as [Hv Hc].
      apply bits_cons in Hc. destruct Hc as [Hw _]. rewrite MM by auto. reflexivity. }
    destruct (decomp3_true svd HT Dl Dr T HDl HDr) as [SM|(a' & b' & c' & -> & CM' & IS & SM)].
    { exfalso. apply NS. apply (close_3 A [a; b; c] _ Dl Dr _ eq_refl SM). intros x y z u v Hx Hy Hz Hu Hv. rewrite HT' by auto.
      set (q := seg_op _ _ _ _ _). destruct q. apply C_eq; cbn; ring. }
    cbn [bind]. unfold L. rewrite py_set_nat by (rewrite app_length; cbn [length]; lia).
    replace (set_nth i a' (l1 ++ a :: b :: c :: l2)) with (l1 ++ a' :: b :: c :: l2) by (rewrite <- L1; now rewrite set_nth_mid). cbn [bind].
    rewrite py_set_nat by (rewrite app_length; cbn [length]; lia).
    replace (set_nth (S i) b' (l1 ++ a' :: b :: c :: l2)) with (l1 ++ a' :: b' :: c :: l2).
    2:{ change (l1 ++ a' :: b :: c :: l2) with (l1 ++ [a'] ++ b :: c :: l2). rewrite app_assoc. replace (S i) with (length (l1 ++ [a'])) by (rewrite app_length; cbn; lia).
        rewrite set_nth_mid, <- app_assoc. reflexivity. }
    cbn [bind]. rewrite py_set_nat by (rewrite app_length; cbn [length]; lia).
    replace (set_nth (S (S i)) c' (l1 ++ a' :: b' :: c :: l2)) with (l1 ++ a' :: b' :: c' :: l2).
    2:{ change (l1 ++ a' :: b' :: c :: l2) with (l1 ++ [a'; b'] ++ c :: l2). rewrite app_assoc. replace (S (S i)) with (length (l1 ++ [a'; b'])) by (rewrite app_length; cbn; lia).
        rewrite set_nth_mid, <- app_assoc. reflexivity. }
    eexists. split; [reflexivity|].
    pose proof (rel_seg e eta0 A l1 [a; b; c] l2 Dl Dr psi) as R. cbn [app length seq] in R. rewrite L1 in R.
    apply (R He ltac:(lra) He2 HR C1 CM C3 ltac:(discriminate) HU [a'; b'; c'] CM' eq_refl IS).
    apply (close_3 A [a; b; c] _ Dl Dr _ eq_refl SM). intros x y z u v Hx Hy Hz Hu Hv. now rewrite HT'.
  Qed.
End Rel.
