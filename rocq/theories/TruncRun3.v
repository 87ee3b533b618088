(** Lemmas: one truncated decomposition, and the truncated splitting of merged tensors. *)
From Coq Require Import List ZArith QArith Reals Lra Lia ZifyBool Bool Arith Qreals Permutation.
From Verif Require Import PyBase Scalar CInst BigSum Index Tensor TensorFacts Spec SpecFacts QMath QTN
  MPSSpec MPSFacts1 MPSFacts2 MPSFacts3 MPSFacts4 MeasSpec MeasFacts QuanvFacts TruncSpec TruncFacts1 TruncFacts2 SVDExist2 SVDExist3 TruncRun1 TruncRun2.
Import ListNotations.
Local Close Scope Q_scope.
Local Open Scope R_scope.

Section Gen.
  Context {SC : Scalar}.
  Add Ring KR : k_ring.
  Local Open Scope k_scope.
  Lemma on_seq : forall n (V : nat -> nat -> K) r D, (forall l l', (D <= l < D + r)%nat -> (D <= l' < D + r)%nat -> ip n (V l) (V l') = if (l =? l')%nat then 1 else 0) ->
    on n (map V (seq D r)).
  Proof.
    intros n V r. induction r as [|r IH]; intros D H; cbn [seq map on]; [exact I|]. split; [|split].
    - rewrite H by lia. now rewrite Nat.eqb_refl.
    - intros w Hw. apply in_map_iff in Hw. destruct Hw as (l & <- & Hl). apply in_seq in Hl. rewrite H by lia. now replace (D =? l)%nat with false by lia.
    - apply IH. intros. apply H; lia.
  Qed.
  Lemma dropped_mv : forall n (U V : nat -> nat -> K) (s : nat -> K) (Ls : list nat) (w : nat -> K) i,
    bigsum (seq 0 n) (fun j => bigsum Ls (fun l => U i l * (s l * kconj (V j l))) * w j) =
    bigsum Ls (fun l => U i l * (s l * ip n (fun j => V j l) w)).
  Proof.
    intros n U V s Ls w i.
    transitivity (bigsum (seq 0 n) (fun j => bigsum Ls (fun l => U i l * (s l * (kconj (V j l) * w j))))).
    { apply bigsum_ext. intros j _. rewrite <- bigsum_mul_r. apply bigsum_ext. intros; ring. }
    rewrite bigsum_swap. apply bigsum_ext. intros l _. unfold ip. now rewrite !bigsum_mul_l.
  Qed.
  Lemma embed_sum : forall q Dr (g w : nat -> K) y, (y < q)%nat -> (0 < Dr)%nat ->
    bigsum (seq 0 (q * Dr)) (fun c => g c * (if (c / Dr =? y)%nat then w (c mod Dr)%nat else 0)) = bigsum (seq 0 Dr) (fun j => g (y * Dr + j)%nat * w j).
  Proof.
    intros q Dr g w y Hy HD. rewrite bigsum_seq_mul. rewrite (bigsum_single _ _ y); [|apply seq_NoDup|apply in_seq; lia|].
    - apply bigsum_ext. intros j Hj. apply in_seq in Hj.
      rewrite Nat.add_comm, Nat.div_add, Nat.div_small, Nat.mod_add, Nat.mod_small by lia. cbn [Nat.add]. rewrite Nat.eqb_refl. now rewrite Nat.add_comm.
    - intros x _ Hx. apply bigsum_zero. intros j Hj. apply in_seq in Hj.
      rewrite Nat.add_comm, Nat.div_add, Nat.div_small by lia. cbn [Nat.add]. replace (x =? y)%nat with false by lia. ring.
  Qed.
  Lemma split_range : forall k D (g : nat -> K), (D <= k)%nat -> bigsum (seq 0 k) g = bigsum (seq 0 D) g + bigsum (seq D (k - D)) g.
  Proof. intros k D g H. replace k with (D + (k - D))%nat at 1 by lia. now rewrite seq_app, bigsum_app. Qed.
End Gen.

Notation sumC := (bigsum (SC := C_scalar)).

Lemma sqn_nrm : forall n f, sqn (seq 0 n) f = nrm n f.
Proof. reflexivity. Qed.
Lemma iso_sqn : forall (B : Type) (Bs : list B) (Is : list nat) (P : nat -> B -> C) (f : nat -> C), NoDup Is ->
  (forall k k', In k Is -> In k' Is -> sumC Bs (fun b => Cmul (Cconj (P k b)) (P k' b)) = if (k =? k')%nat then RtoC 1 else RtoC 0) ->
  sqn Bs (fun b => sumC Is (fun k => Cmul (P k b) (f k))) = sqn Is f.
Proof.
  intros B Bs Is P f ND HP. assert (X : RtoC (sqn Bs (fun b => sumC Is (fun k => Cmul (P k b) (f k)))) = RtoC (sqn Is f)); [|injection X; auto].
  rewrite !sqn_RtoC. exact (iso (SC := C_scalar) B Is Bs P f f ND HP).
Qed.
Lemma bessel_seq : forall n (V : nat -> nat -> C) r D w, (forall l l', (D <= l < D + r)%nat -> (D <= l' < D + r)%nat -> ipC n (V l) (V l') = if (l =? l')%nat then RtoC 1 else RtoC 0) ->
  rsum (seq D r) (fun l => Cnorm2 (ipC n (V l) w)) <= nrm n w.
Proof.
  intros n V r D w H. pose proof (nrm_res n (map V (seq D r)) w (on_seq (SC := C_scalar) n V r D H)) as E.
  rewrite rsum_map in E. pose proof (nrm_pos n (res (SC := C_scalar) n (map V (seq D r)) w)). lra.
Qed.

Lemma cut_true : forall svd m n (f : list nat -> C), true_svd (SC := C_scalar) svd -> (0 < m)%nat -> (0 < n)%nat ->
  exists D (u c : list nat -> C) (E : nat -> nat -> C),
    (forall i j, (i < m)%nat -> (j < n)%nat -> f [i; j] = Cadd (sumC (seq 0 D) (fun l => Cmul (u [i; l]) (c [l; j]))) (E i j)) /\
    (forall l l', (l < D)%nat -> (l' < D)%nat -> sumC (seq 0 m) (fun i => Cmul (Cconj (u [i; l])) (u [i; l'])) = if (l =? l')%nat then RtoC 1 else RtoC 0) /\
    (forall w, nrm m (fun i => sumC (seq 0 n) (fun j => Cmul (E i j) (w j))) <= tol2 * nrm n w) /\
    (D = 0%nat \/ (0 < D)%nat /\ svd_cut (SC := C_scalar) svd (tbuild (SC := C_scalar) [m; n] f) = Ok (tbuild (SC := C_scalar) [m; D] u, tbuild (SC := C_scalar) [D; n] c)).
Proof.
  intros svd m n f HT Hm Hn. pose proof (HT (tbuild (SC := C_scalar) [m; n] f) m n eq_refl (tbuild_wf _ _) Hm Hn) as T.
  destruct (svd (tbuild (SC := C_scalar) [m; n] f)) as [[U Sg] V] eqn:EQ. cbn zeta in T.
  destruct T as (SU & WU & SS & WS & SV & WV & HE & HU & HV & D & HD & Hs). set (k := Nat.min m n) in *.
  exists D, (tget U), (fun idx => Cmul (tget Sg [nth 0 idx 0%nat]) (Cconj (tget V [nth 1 idx 0%nat; nth 0 idx 0%nat]))),
    (fun i j => sumC (seq D (k - D)) (fun l => Cmul (tget U [i; l]) (Cmul (tget Sg [l]) (Cconj (tget V [j; l]))))).
  split; [|split; [|split]].
  - intros i j Hi Hj. specialize (HE i j Hi Hj). rewrite tget_tbuild in HE by vok. rewrite HE.
    etransitivity; [apply (split_range (SC := C_scalar) k D _ HD)|]. cbn [nth].
    change (kadd (Scalar := C_scalar)) with Cadd. f_equal; apply (bigsum_ext (SC := C_scalar)); intros l _; destruct (tget U [i; l]), (tget Sg [l]), (tget V [j; l]); cbn; apply C_eq; cbn; ring.
  - intros l l' Hl Hl'. apply HU; lia.
  - intros w.
    assert (HB : nrm m (fun i => sumC (seq 0 n) (fun j => Cmul (sumC (seq D (k - D)) (fun l => Cmul (tget U [i; l]) (Cmul (tget Sg [l]) (Cconj (tget V [j; l]))))) (w j))) =
      sqn (seq D (k - D)) (fun l => Cmul (tget Sg [l]) (ipC n (fun j => tget V [j; l]) w))).
    { rewrite <- (iso_sqn _ (seq 0 m) (seq D (k - D)) (fun l i => tget U [i; l])).
      - apply rsum_ext. intros i _. f_equal. apply (dropped_mv (SC := C_scalar) n (fun i l => tget U [i; l]) (fun j l => tget V [j; l]) (fun l => tget Sg [l])).
      - apply seq_NoDup.
      - intros l l' Hl Hl'. apply in_seq in Hl, Hl'. apply HU; lia. }
    rewrite HB. apply Rle_trans with (rsum (seq D (k - D)) (fun l => tol2 * Cnorm2 (ipC n (fun j => tget V [j; l]) w))).
    + apply rsum_le. intros l Hl. apply in_seq in Hl. rewrite Cnorm2_mul. apply Rmult_le_compat_r; [apply Cnorm2_nonneg|].
      apply small_norm. unfold small. rewrite Hs by lia. lia.
    + rewrite rsum_mul. apply Rmult_le_compat_l; [pose proof tol2_pos; lra|].
      apply (bessel_seq n (fun l j => tget V [j; l])). intros l l' Hl Hl'. apply HV; lia.
  - destruct (Nat.eq_dec D 0) as [Z|NZ]; [now left|right]. split; [lia|].
    rewrite (tensor_eta U WU), SU, (tensor_eta Sg WS), SS, (tensor_eta V WV), SV in EQ.
    exact (svd_cut_gen (SC := C_scalar) svd _ m n k D _ _ _ EQ ltac:(lia) Hs).
Qed.

(** rows and columns in blocks *)
Lemma rsum_seq_mul : forall q D (g : nat -> R), rsum (seq 0 (q * D)) g = rsum (seq 0 q) (fun x => rsum (seq 0 D) (fun i => g (x * D + i)%nat)).
Proof.
  intros q D g. assert (X : RtoC (rsum (seq 0 (q * D)) g) = RtoC (rsum (seq 0 q) (fun x => rsum (seq 0 D) (fun i => g (x * D + i)%nat)))); [|injection X; auto].
  rewrite !rsum_RtoC. rewrite (bigsum_seq_mul (SC := C_scalar) q D). apply (bigsum_ext (SC := C_scalar)). intros x _. symmetry. apply rsum_RtoC.
Qed.
Lemma nrm_rows : forall q D f, nrm (q * D) f = rsum (seq 0 q) (fun x => nrm D (fun i => f (x * D + i)%nat)).
Proof. intros. apply rsum_seq_mul. Qed.

Lemma Cnorm2_C0 : Cnorm2 (RtoC 0) = 0.
Proof. unfold Cnorm2, RtoC. cbn. ring. Qed.
Lemma nrm_embed : forall q Dr w y, (y < q)%nat -> (0 < Dr)%nat -> nrm (q * Dr) (fun c => if (c / Dr =? y)%nat then w (c mod Dr)%nat else RtoC 0) = nrm Dr w.
Proof.
  intros q Dr w y Hy HD. rewrite nrm_rows.
  assert (X : forall x, nrm Dr (fun i => if ((x * Dr + i) / Dr =? y)%nat then w ((x * Dr + i) mod Dr)%nat else RtoC 0) = if (x =? y)%nat then nrm Dr w else 0).
  { intros x. rewrite (nrm_ext Dr _ (fun i => if (x =? y)%nat then w i else RtoC 0)).
    - destruct (x =? y)%nat; [reflexivity|]. unfold nrm. erewrite rsum_ext; [apply rsum_0|]. intros i _. apply Cnorm2_C0.
    - intros i Hi. rewrite Nat.add_comm, Nat.div_add, Nat.div_small, Nat.mod_add, Nat.mod_small by lia. reflexivity. }
  rewrite (rsum_ext _ _ _ (fun x => if (x =? y)%nat then nrm Dr w else 0)) by (intros; apply X). clear X.
  assert (G : forall q s, rsum (seq s q) (fun x => if (x =? y)%nat then nrm Dr w else 0) = if (s <=? y)%nat && (y <? s + q)%nat then nrm Dr w else 0).
  { clear. induction q as [|q IH]; intros s; cbn [seq rsum].
    - replace ((s <=? y)%nat && (y <? s + 0)%nat) with false by lia. reflexivity.
    - rewrite IH. destruct (s =? y)%nat eqn:E.
      + replace ((S s <=? y)%nat && (y <? S s + q)%nat) with false by lia. replace ((s <=? y)%nat && (y <? s + S q)%nat) with true by lia. ring.
      + replace ((s <=? y)%nat && (y <? s + S q)%nat) with ((S s <=? y)%nat && (y <? S s + q)%nat) by lia. ring. }
  rewrite G. now replace ((0 <=? y)%nat && (y <? 0 + q)%nat) with true by lia.
Qed.

Lemma col_bound : forall m q Dr (E : nat -> nat -> C) t y, (y < q)%nat -> (0 < Dr)%nat ->
  (forall w, nrm m (fun i => sumC (seq 0 (q * Dr)) (fun j => Cmul (E i j) (w j))) <= t * nrm (q * Dr) w) ->
  forall w, nrm m (fun i => sumC (seq 0 Dr) (fun j => Cmul (E i (y * Dr + j)%nat) (w j))) <= t * nrm Dr w.
Proof.
  intros m q Dr E t y Hy HD H w. rewrite <- (nrm_embed q Dr w y Hy HD). eapply Rle_trans; [|apply H]. right. apply nrm_ext. intros i _.
  symmetry. exact (embed_sum (SC := C_scalar) q Dr (E i) w y Hy HD).
Qed.

(** ** a site cut off *)
Lemma rsum_bits1 : forall f, rsum (bits 1) f = rsum (seq 0 2) (fun x => f [x]).
Proof. reflexivity. Qed.
Lemma rsum_bits2 : forall f, rsum (bits 2) f = rsum (seq 0 2) (fun x => rsum (seq 0 2) (fun y => f [x; y])).
Proof. intros. cbn. ring. Qed.
Lemma rsum_bits3 : forall f, rsum (bits 3) f = rsum (seq 0 2) (fun x => rsum (seq 0 2) (fun y => rsum (seq 0 2) (fun z => f [x; y; z]))).
Proof. intros. cbn. ring. Qed.

Lemma split_true : forall svd D n (f : list nat -> C), true_svd (SC := C_scalar) svd -> (0 < D)%nat -> (0 < n)%nat ->
  exists D' (u c : list nat -> C) (E : nat -> nat -> C),
    (forall i j, (i < 2 * D)%nat -> (j < n)%nat -> f [i; j] = Cadd (sumC (seq 0 D') (fun l => Cmul (u [i; l]) (c [l; j]))) (E i j)) /\
    (forall g, nrm (2 * D) (fun i => sumC (seq 0 D') (fun l => Cmul (u [i; l]) (g l))) = nrm D' g) /\
    (forall w, nrm (2 * D) (fun i => sumC (seq 0 n) (fun j => Cmul (E i j) (w j))) <= tol2 * nrm n w) /\
    (D' = 0%nat \/ (0 < D')%nat /\ exists U s, svd_cut (SC := C_scalar) svd (tbuild (SC := C_scalar) [(2 * D)%nat; n] f) = Ok (U, tbuild (SC := C_scalar) [D'; n] c) /\
      view_site U = Ok s /\ shape s = [2%nat; D; D'] /\ wf s /\ siso s D D' /\
      forall x i l, (x < 2)%nat -> (i < D)%nat -> (l < D')%nat -> tget s [x; i; l] = u [(x * D + i)%nat; l]).
Proof.
  intros svd D n f HT HD Hn. destruct (cut_true svd (2 * D) n f HT ltac:(lia) Hn) as (D' & u & c & E & H1 & H2 & H3 & H4).
  assert (H5 : forall g, nrm (2 * D) (fun i => sumC (seq 0 D') (fun l => Cmul (u [i; l]) (g l))) = nrm D' g).
  { intros g. apply (iso_sqn _ (seq 0 (2 * D)) (seq 0 D') (fun l i => u [i; l])); [apply seq_NoDup|].
    intros l l' Hl Hl'. apply in_seq in Hl, Hl'. apply H2; lia. }
  exists D', u, c, E. split; [exact H1|]. split; [exact H5|]. split; [exact H3|]. destruct H4 as [Z|[P H4]]; [now left|right].
  split; [exact P|]. eexists. eexists. split; [exact H4|]. rewrite (view_site_ok (SC := C_scalar)) by lia. split; [reflexivity|]. split; [reflexivity|]. split; [apply tbuild_wf|].
  assert (G : forall x i l, (x < 2)%nat -> (i < D)%nat -> (l < D')%nat ->
    tget (tbuild (SC := C_scalar) [2%nat; D; D'] (fun idx => u [(nth 0 idx 0 * D + nth 1 idx 0)%nat; nth 2 idx 0%nat])) [x; i; l] = u [(x * D + i)%nat; l]).
  { intros. rewrite tget_tbuild by vok. reflexivity. }
  split; [|exact G]. intros v. rewrite <- (H5 v), nrm_rows. unfold right. cbn [length]. rewrite rsum_bits1. apply rsum_ext. intros x Hx. apply in_seq in Hx.
  apply nrm_ext. intros i Hi. etransitivity; [apply (rv_1 (SC := C_scalar) _ D D'); reflexivity|]. apply (bigsum_ext (SC := C_scalar)). intros l Hl. apply in_seq in Hl.
  cbn. f_equal. apply G; lia.
Qed.
