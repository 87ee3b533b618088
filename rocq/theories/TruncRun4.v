(** Lemmas: the truncated splitting of a merged tensor into two and three sites. *)
From Coq Require Import List ZArith QArith Reals Lra Lia ZifyBool Bool Arith Qreals Permutation.
From Verif Require Import PyBase Scalar CInst BigSum Index Tensor TensorFacts Spec SpecFacts QMath QTN
  MPSSpec MPSFacts1 MPSFacts2 MPSFacts3 MPSFacts4 MeasSpec MeasFacts QuanvFacts TruncSpec TruncFacts1 TruncFacts2 SVDExist2 SVDExist3 TruncRun1 TruncRun2 TruncRun3.
Import ListNotations.
Local Close Scope Q_scope.
Local Open Scope R_scope.

Definition small2 (Dl Dr : nat) (F : nat -> nat -> nat -> nat -> C) : Prop :=
  forall w, rsum (seq 0 2) (fun x => rsum (seq 0 2) (fun y => nrm Dl (fun i => sumC (seq 0 Dr) (fun j => Cmul (F x y i j) (w j))))) <= 2 * tol2 * nrm Dr w.
Definition small3 (Dl Dr : nat) (F : nat -> nat -> nat -> nat -> nat -> C) : Prop :=
  forall w, rsum (seq 0 2) (fun x => rsum (seq 0 2) (fun y => rsum (seq 0 2) (fun z => nrm Dl (fun i => sumC (seq 0 Dr) (fun j => Cmul (F x y z i j) (w j))))))
    <= 12 * tol2 * nrm Dr w.

Lemma small2_ext : forall Dl Dr F G, (forall x y i j, (x < 2)%nat -> (y < 2)%nat -> (i < Dl)%nat -> (j < Dr)%nat -> F x y i j = G x y i j) ->
  small2 Dl Dr F -> small2 Dl Dr G.
Proof.
  intros Dl Dr F G H S w. eapply Rle_trans; [|apply S]. right. apply rsum_ext. intros x Hx. apply rsum_ext. intros y Hy. apply nrm_ext. intros i Hi.
  apply (bigsum_ext (SC := C_scalar)). intros j Hj. apply in_seq in Hx, Hy, Hj. now rewrite H by lia.
Qed.
Lemma small3_ext : forall Dl Dr F G, (forall x y z i j, (x < 2)%nat -> (y < 2)%nat -> (z < 2)%nat -> (i < Dl)%nat -> (j < Dr)%nat -> F x y z i j = G x y z i j) ->
  small3 Dl Dr F -> small3 Dl Dr G.
Proof.
  intros Dl Dr F G H S w. eapply Rle_trans; [|apply S]. right. apply rsum_ext. intros x Hx. apply rsum_ext. intros y Hy. apply rsum_ext. intros z Hz. apply nrm_ext. intros i Hi.
  apply (bigsum_ext (SC := C_scalar)). intros j Hj. apply in_seq in Hx, Hy, Hz, Hj. now rewrite H by lia.
Qed.

Lemma rows2 : forall Dl Dr (E : nat -> nat -> C) t,
  (forall w, nrm (2 * Dl) (fun i => sumC (seq 0 (2 * Dr)) (fun j => Cmul (E i j) (w j))) <= t * nrm (2 * Dr) w) -> (0 < Dr)%nat ->
  forall w, rsum (seq 0 2) (fun x => rsum (seq 0 2) (fun y => nrm Dl (fun i => sumC (seq 0 Dr) (fun j => Cmul (E (x * Dl + i)%nat (y * Dr + j)%nat) (w j))))) <= 2 * t * nrm Dr w.
Proof.
  intros Dl Dr E t H HD w. rewrite rsum_swap. apply Rle_trans with (rsum (seq 0 2) (fun _ => t * nrm Dr w)); [|cbn [seq rsum]; lra].
  apply rsum_le. intros y Hy. apply in_seq in Hy.
  rewrite <- (nrm_rows 2 Dl (fun r => sumC (seq 0 Dr) (fun j => Cmul (E r (y * Dr + j)%nat) (w j)))).
  apply (col_bound (2 * Dl) 2 Dr E t y); auto; lia.
Qed.

Section Dec.
  Variable svd : tensorC -> tensorC * tensorC * tensorC.
  Hypothesis HT : true_svd (SC := C_scalar) svd.

  Lemma decomp2_true : forall Dl Dr (T : list nat -> C), (0 < Dl)%nat -> (0 < Dr)%nat ->
    small2 Dl Dr (fun x y i j => T [x; y; i; j]) \/
    exists a b, TensorDecompAfterTwoQbitGate (SC := C_scalar) svd (tbuild (SC := C_scalar) [2%nat; 2%nat; Dl; Dr] T) = Ok (a, b) /\ chain (SC := C_scalar) Dl [a; b] Dr /\
      isos Dl [a; b] /\ small2 Dl Dr (fun x y i j => Csub (T [x; y; i; j]) (mps_mat (SC := C_scalar) [a; b] [x; y] i j)).
  Proof.
    intros Dl Dr T HDl HDr. unfold TensorDecompAfterTwoQbitGate.
    rewrite !(tsel2_tbuild (SC := C_scalar)) by lia. cbn [bind cat mfold]. rewrite cat2_cols. cbn [bind]. rewrite cat2_cols. cbn [bind]. rewrite cat2_rows. cbn [bind].
    replace (Dl + Dl)%nat with (2 * Dl)%nat by lia. replace (Dr + Dr)%nat with (2 * Dr)%nat by lia.
    match goal with |- context [svd_cut svd (tbuild _ ?F)] => set (C0 := F) end.
    assert (HC : forall x y i j, (x < 2)%nat -> (y < 2)%nat -> (i < Dl)%nat -> (j < Dr)%nat ->
      C0 [(x * Dl + i)%nat; (y * Dr + j)%nat] = T [x; y; i; j]).
    { intros x y i j Hx Hy Hi Hj. unfold C0. cbn [nth].
      destruct x as [|[|]]; [| |lia]; destruct y as [|[|]]; try lia; cbn [Nat.mul Nat.add]; rewrite ?Nat.add_0_r;
        repeat match goal with |- context [if ?c then _ else _] =>
          first [replace c with true by lia|replace c with false by lia] end; repeat f_equal; lia. }
    destruct (split_true svd Dl (2 * Dr) C0 HT HDl ltac:(lia)) as (D & u & c' & E & H1 & H2 & H3 & [Z|(P & U & a & -> & Ea & Sa & Wa & Ia & Ha)]).
    { left. apply (small2_ext _ _ (fun x y i j => E (x * Dl + i)%nat (y * Dr + j)%nat)); [|exact (rows2 Dl Dr E tol2 H3 HDr)].
      intros x y i j Hx Hy Hi Hj. rewrite <- HC, H1 by (auto; nia). rewrite Z. cbn [seq]. rewrite (bigsum_nil (SC := C_scalar)). symmetry. apply Cadd_0_l. }
    right. cbn [bind fst snd]. rewrite Ea. cbn [bind].
    destruct (fold_view (SC := C_scalar) D Dr c') as (F & -> & HF); [lia|lia|]. cbn [bind].
    destruct (view_last (SC := C_scalar) D Dr F) as (b & -> & Sb & Wb & Hb); [lia|lia|]. cbn [bind].
    exists a, b. split; [reflexivity|]. split; [|split].
    - cbn [chain]. exists D. repeat split; auto. exists Dr. auto.
    - cbn [isos]. rewrite Sa. cbn [nth]. auto.
    - apply (small2_ext _ _ (fun x y i j => E (x * Dl + i)%nat (y * Dr + j)%nat)); [|exact (rows2 Dl Dr E tol2 H3 HDr)].
      intros x y i j Hx Hy Hi Hj. rewrite <- HC, H1 by (auto; nia).
      assert (EM : mps_mat (SC := C_scalar) [a; b] [x; y] i j = sumC (seq 0 D) (fun l => Cmul (u [(x * Dl + i)%nat; l]) (c' [l; (y * Dr + j)%nat]))).
      { change [a; b] with ([a] ++ [b]). change [x; y] with ([x] ++ [y]).
        rewrite (mps_mat_app (SC := C_scalar) [a] [b] Dl D) by (auto; now apply chain_1). apply (bigsum_ext (SC := C_scalar)). intros l Hl. apply in_seq in Hl.
        rewrite (mps_mat_1 (SC := C_scalar) a Dl D), (mps_mat_1 (SC := C_scalar) b D Dr) by (auto; lia). rewrite Hb, HF, Ha by (auto; lia). reflexivity. }
      rewrite EM. set (q := sumC _ _). destruct q, (E (x * Dl + i)%nat (y * Dr + j)%nat). apply C_eq; cbn; ring.
  Qed.

  Lemma nrm_add2 : forall n f g, nrm n (fun i => Cadd (f i) (g i)) <= 2 * nrm n f + 2 * nrm n g.
  Proof.
    intros n f g. unfold nrm. rewrite <- !rsum_mul, <- rsum_add. apply rsum_le. intros i _. pose proof (Cnorm2_add_le 1 (f i) (g i) Rlt_0_1). lra.
  Qed.

  (** both truncations of a three-site split together *)
  Lemma rows3 : forall Dl D Dr (u : list nat -> C) (E0 E1 : nat -> nat -> C), (0 < Dr)%nat ->
    (forall g, nrm (2 * Dl) (fun i => sumC (seq 0 D) (fun l => Cmul (u [i; l]) (g l))) = nrm D g) ->
    (forall w, nrm (2 * Dl) (fun i => sumC (seq 0 (2 * (2 * Dr))) (fun j => Cmul (E0 i j) (w j))) <= tol2 * nrm (2 * (2 * Dr)) w) ->
    (forall w, nrm (2 * D) (fun i => sumC (seq 0 (2 * Dr)) (fun j => Cmul (E1 i j) (w j))) <= tol2 * nrm (2 * Dr) w) ->
    small3 Dl Dr (fun x y z i j => Cadd (E0 (x * Dl + i)%nat (y * (2 * Dr) + (z * Dr + j))%nat) (sumC (seq 0 D) (fun l => Cmul (u [(x * Dl + i)%nat; l]) (E1 (y * D + l)%nat (z * Dr + j)%nat)))).
  Proof.
    intros Dl D Dr u E0 E1 HD HU H0 H1 w.
    set (P := fun x y z i => sumC (seq 0 Dr) (fun j => Cmul (E0 (x * Dl + i)%nat (y * (2 * Dr) + (z * Dr + j))%nat) (w j))).
    set (g := fun y z l => sumC (seq 0 Dr) (fun j => Cmul (E1 (y * D + l)%nat (z * Dr + j)%nat) (w j))).
    set (Q := fun x y z i => sumC (seq 0 D) (fun l => Cmul (u [(x * Dl + i)%nat; l]) (g y z l))).
    apply Rle_trans with (rsum (seq 0 2) (fun x => rsum (seq 0 2) (fun y => rsum (seq 0 2) (fun z => 2 * nrm Dl (P x y z) + 2 * nrm Dl (Q x y z))))).
    { apply rsum_le. intros x _. apply rsum_le. intros y _. apply rsum_le. intros z _. eapply Rle_trans; [|apply nrm_add2]. right. apply nrm_ext. intros i _.
      unfold P, Q, g.
      transitivity (sumC (seq 0 Dr) (fun j => Cadd (Cmul (E0 (x * Dl + i)%nat (y * (2 * Dr) + (z * Dr + j))%nat) (w j)) (sumC (seq 0 D) (fun l => Cmul (u [(x * Dl + i)%nat; l]) (Cmul (E1 (y * D + l)%nat (z * Dr + j)%nat) (w j)))))).
      - apply (bigsum_ext (SC := C_scalar)). intros j _.
        transitivity (Cadd (Cmul (E0 (x * Dl + i)%nat (y * (2 * Dr) + (z * Dr + j))%nat) (w j)) (Cmul (sumC (seq 0 D) (fun l => Cmul (u [(x * Dl + i)%nat; l]) (E1 (y * D + l)%nat (z * Dr + j)%nat))) (w j))).
        + set (q := sumC _ _). destruct q, (E0 (x * Dl + i)%nat (y * (2 * Dr) + (z * Dr + j))%nat), (w j). apply C_eq; cbn; ring.
        + f_equal. etransitivity; [symmetry; apply (bigsum_mul_r (SC := C_scalar))|]. apply (bigsum_ext (SC := C_scalar)). intros l _.
          destruct (u [(x * Dl + i)%nat; l]), (E1 (y * D + l)%nat (z * Dr + j)%nat), (w j). apply C_eq; cbn; ring.
      - etransitivity; [apply (bigsum_add (SC := C_scalar))|]. cbn. f_equal. etransitivity; [apply (bigsum_swap (SC := C_scalar))|].
        apply (bigsum_ext (SC := C_scalar)). intros l _. apply (bigsum_mul_l (SC := C_scalar)). }
    assert (BP : forall y z, (y < 2)%nat -> (z < 2)%nat -> rsum (seq 0 2) (fun x => nrm Dl (P x y z)) <= tol2 * nrm Dr w).
    { intros y z Hy Hz. unfold P.
      rewrite <- (nrm_rows 2 Dl (fun r => sumC (seq 0 Dr) (fun j => Cmul (E0 r (y * (2 * Dr) + (z * Dr + j))%nat) (w j)))).
      apply (col_bound (2 * Dl) 2 Dr (fun r j => E0 r (y * (2 * Dr) + j)%nat) tol2 z); auto.
      apply (col_bound (2 * Dl) 2 (2 * Dr) E0 tol2 y); auto; lia. }
    assert (BQ : forall z, (z < 2)%nat -> rsum (seq 0 2) (fun y => rsum (seq 0 2) (fun x => nrm Dl (Q x y z))) <= tol2 * nrm Dr w).
    { intros z Hz.
      rewrite (rsum_ext _ _ _ (fun y => nrm D (g y z))).
      2:{ intros y _. rewrite <- (HU (g y z)). rewrite nrm_rows. reflexivity. }
      unfold g. rewrite <- (nrm_rows 2 D (fun r => sumC (seq 0 Dr) (fun j => Cmul (E1 r (z * Dr + j)%nat) (w j)))).
      apply (col_bound (2 * D) 2 Dr E1 tol2 z); auto. }
    pose proof (BP 0 0 ltac:(lia) ltac:(lia))%nat. pose proof (BP 0 1 ltac:(lia) ltac:(lia))%nat.
    pose proof (BP 1 0 ltac:(lia) ltac:(lia))%nat. pose proof (BP 1 1 ltac:(lia) ltac:(lia))%nat.
    pose proof (BQ 0 ltac:(lia))%nat. pose proof (BQ 1 ltac:(lia))%nat. cbn [seq rsum] in *. lra.
  Qed.

  Lemma decomp3_true : forall Dl Dr (T : list nat -> C), (0 < Dl)%nat -> (0 < Dr)%nat ->
    small3 Dl Dr (fun x y z i j => T [x; y; z; i; j]) \/
    exists a b c, TensorDecompAfterThreeQbitGate (SC := C_scalar) svd (tbuild (SC := C_scalar) [2%nat; 2%nat; 2%nat; Dl; Dr] T) = Ok (a, b, c) /\ chain (SC := C_scalar) Dl [a; b; c] Dr /\
      isos Dl [a; b; c] /\ small3 Dl Dr (fun x y z i j => Csub (T [x; y; z; i; j]) (mps_mat (SC := C_scalar) [a; b; c] [x; y; z] i j)).
  Proof.
    intros Dl Dr T HDl HDr. unfold TensorDecompAfterThreeQbitGate. cbn [shape tbuild length Nat.eqb negb raise_if].
    fold (tbuild (SC := C_scalar) [2%nat; 2%nat; 2%nat; Dl; Dr] T).
    rewrite !(tsel3_tbuild (SC := C_scalar)) by lia. cbn [bind cat mfold]. rewrite cat2_cols. cbn [bind]. rewrite cat2_cols. cbn [bind]. rewrite cat2_cols. cbn [bind].
    rewrite cat2_cols. cbn [bind]. rewrite cat2_cols. cbn [bind]. rewrite cat2_cols. cbn [bind].
    rewrite cat2_rows. cbn [bind].
    replace (Dl + Dl)%nat with (2 * Dl)%nat by lia. replace (Dr + Dr + Dr + Dr)%nat with (2 * (2 * Dr))%nat by lia.
    match goal with |- context [svd_cut svd (tbuild _ ?F)] => set (C0 := F) end.
    assert (HC : forall x y z i j, (x < 2)%nat -> (y < 2)%nat -> (z < 2)%nat -> (i < Dl)%nat -> (j < Dr)%nat ->
      C0 [(x * Dl + i)%nat; (y * (2 * Dr) + (z * Dr + j))%nat] = T [x; y; z; i; j]).
    { intros x y z i j Hx Hy Hz Hi Hj. unfold C0. cbn [nth].
      destruct x as [|[|]]; [| |lia]; destruct y as [|[|]]; try lia; destruct z as [|[|]]; try lia; cbn [Nat.mul Nat.add]; rewrite ?Nat.add_0_r;
        repeat match goal with |- context [if ?c then _ else _] =>
          first [replace c with true by lia|replace c with false by lia] end; repeat f_equal; lia. }
    destruct (split_true svd Dl (2 * (2 * Dr)) C0 HT HDl ltac:(lia)) as (D & u & c0 & E0 & H1 & H2 & H3 & [Z|(P & U & a & -> & Ea & Sa & Wa & Ia & Ha)]).
    { left. pose proof (rows3 Dl D Dr u E0 (fun _ _ => RtoC 0) HDr H2 H3) as X.
      apply (small3_ext _ _ (fun x y z i j => Cadd (E0 (x * Dl + i)%nat (y * (2 * Dr) + (z * Dr + j))%nat) (sumC (seq 0 D) (fun l => Cmul (u [(x * Dl + i)%nat; l]) (RtoC 0))))).
      - intros x y z i j Hx Hy Hz Hi Hj. rewrite <- HC, H1 by (auto; nia). rewrite Z. cbn [seq]. rewrite !(bigsum_nil (SC := C_scalar)).
        etransitivity; [apply Cadd_0_r|]. symmetry. apply Cadd_0_l.
      - apply X. intros w. rewrite (nrm_ext _ _ (fun _ => RtoC 0)).
        + unfold nrm. rewrite (rsum_ext _ (seq 0 (2 * D)) _ (fun _ => 0)) by (intros; apply Cnorm2_C0). rewrite rsum_0.
          apply Rmult_le_pos; [pose proof tol2_pos; lra|apply nrm_pos].
        + intros i _. apply (bigsum_zero (SC := C_scalar)). intros j _. destruct (w j). apply C_eq; cbn; ring. }
    cbn [bind fst snd]. rewrite Ea. cbn [bind].
    destruct (fold_view (SC := C_scalar) D (2 * Dr) c0) as (F & -> & HF); [lia|lia|]. cbn [bind].
    destruct (split_true svd D (2 * Dr) F HT P ltac:(lia)) as (D2 & u2 & c2 & E1 & G1 & G2 & G3 & G4).
    assert (EX : forall x y z i j, (x < 2)%nat -> (y < 2)%nat -> (z < 2)%nat -> (i < Dl)%nat -> (j < Dr)%nat ->
      T [x; y; z; i; j] = Cadd (sumC (seq 0 D) (fun l => Cmul (u [(x * Dl + i)%nat; l]) (sumC (seq 0 D2) (fun l2 => Cmul (u2 [(y * D + l)%nat; l2]) (c2 [l2; (z * Dr + j)%nat])))))
        (Cadd (E0 (x * Dl + i)%nat (y * (2 * Dr) + (z * Dr + j))%nat) (sumC (seq 0 D) (fun l => Cmul (u [(x * Dl + i)%nat; l]) (E1 (y * D + l)%nat (z * Dr + j)%nat))))).
    { intros x y z i j Hx Hy Hz Hi Hj. rewrite <- HC, H1 by (auto; nia).
      rewrite (bigsum_ext (SC := C_scalar) _ (seq 0 D) (fun l => Cmul (u [(x * Dl + i)%nat; l]) (c0 [l; (y * (2 * Dr) + (z * Dr + j))%nat]))
        (fun l => Cadd (Cmul (u [(x * Dl + i)%nat; l]) (sumC (seq 0 D2) (fun l2 => Cmul (u2 [(y * D + l)%nat; l2]) (c2 [l2; (z * Dr + j)%nat])))) (Cmul (u [(x * Dl + i)%nat; l]) (E1 (y * D + l)%nat (z * Dr + j)%nat)))).
      - etransitivity; [apply (f_equal2 Cadd); [apply (bigsum_add (SC := C_scalar))|reflexivity]|]. cbn.
        set (p := sumC _ _). set (q := sumC _ _). destruct p, q, (E0 (x * Dl + i)%nat (y * (2 * Dr) + (z * Dr + j))%nat). apply C_eq; cbn; ring.
      - intros l Hl. apply in_seq in Hl. rewrite <- HF by (auto; lia). rewrite G1 by nia. set (p := sumC _ _).
        destruct p, (u [(x * Dl + i)%nat; l]), (E1 (y * D + l)%nat (z * Dr + j)%nat). apply C_eq; cbn; ring. }
    pose proof (rows3 Dl D Dr u E0 E1 HDr H2 H3 G3) as RR.
    destruct G4 as [Z|(P2 & U2 & b & -> & Eb & Sb & Wb & Ib & Hb)].
    { left. apply (small3_ext _ _ _ _) with (2 := RR). intros x y z i j Hx Hy Hz Hi Hj. rewrite EX by auto. rewrite Z. cbn [seq].
      rewrite (bigsum_zero (SC := C_scalar) _ (seq 0 D) (fun l => Cmul (u [(x * Dl + i)%nat; l]) (sumC [] _))).
      - symmetry. apply Cadd_0_l.
      - intros l _. rewrite (bigsum_nil (SC := C_scalar)). destruct (u [(x * Dl + i)%nat; l]). apply C_eq; cbn; ring. }
    right. cbn [bind fst snd]. rewrite Eb. cbn [bind].
    destruct (fold_view (SC := C_scalar) D2 Dr c2) as (F2 & -> & HF2); [lia|lia|]. cbn [bind].
    destruct (view_last (SC := C_scalar) D2 Dr F2) as (c & -> & Sc & Wc & Hc); [lia|lia|]. cbn [bind].
    exists a, b, c. split; [reflexivity|]. split; [|split].
    - cbn [chain]. exists D. repeat split; auto. exists D2. repeat split; auto. exists Dr. auto.
    - cbn [isos]. rewrite Sa, Sb. cbn [nth]. auto.
    - apply (small3_ext _ _ _ _) with (2 := RR). intros x y z i j Hx Hy Hz Hi Hj. rewrite EX by auto.
      assert (EM : mps_mat (SC := C_scalar) [a; b; c] [x; y; z] i j =
        sumC (seq 0 D) (fun l => Cmul (u [(x * Dl + i)%nat; l]) (sumC (seq 0 D2) (fun l2 => Cmul (u2 [(y * D + l)%nat; l2]) (c2 [l2; (z * Dr + j)%nat]))))).
      { change [a; b; c] with ([a] ++ [b] ++ [c]). change [x; y; z] with ([x] ++ [y] ++ [z]).
        rewrite (mps_mat_app (SC := C_scalar) [a] _ Dl D) by (auto; now apply chain_1). apply (bigsum_ext (SC := C_scalar)).
        intros l Hl. apply in_seq in Hl. rewrite (mps_mat_1 (SC := C_scalar) a Dl D) by (auto; lia). rewrite Ha by (auto; lia). apply (f_equal (Cmul _)).
        rewrite (mps_mat_app (SC := C_scalar) [b] _ D D2) by (auto; try lia; now apply chain_1). apply (bigsum_ext (SC := C_scalar)). intros l' Hl'. apply in_seq in Hl'.
        rewrite (mps_mat_1 (SC := C_scalar) b D D2), (mps_mat_1 (SC := C_scalar) c D2 Dr) by (auto; lia). rewrite Hc, HF2, Hb by (auto; lia). reflexivity. }
      rewrite EM. set (q := sumC _ (fun l => Cmul _ (sumC _ _))). set (p := Cadd _ _). destruct q, p. apply C_eq; cbn; ring.
  Qed.
End Dec.
