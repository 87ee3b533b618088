(** Lemmas: splitting a merged tensor, the two- and three-site steps. *)
From Coq Require Import List ZArith QArith Lia ZifyBool Bool Arith Ring Permutation.
From Verif Require Import PyBase Scalar BigSum Index Tensor TensorFacts Spec SpecFacts QMath QTN QOperator
  ExpandFacts ExpandFacts2 ContractFacts MPSSpec MPSFacts1 MPSFacts2.
Import ListNotations.
Local Close Scope Q_scope.
Local Open Scope nat_scope.

Section MPSFacts3.
  Context {SC : Scalar}.
  Add Ring KR : k_ring.
  Local Open Scope k_scope.
  Variable svd : tensor -> tensor * tensor * tensor.
  Hypothesis Hsvd : exact_svd svd.

  Lemma split_step : forall D n f, (0 < D)%nat -> (0 < n)%nat ->
    ~ (forall i j, (i < 2 * D)%nat -> (j < n)%nat -> f [i; j] = 0) ->
    exists D' U c' s, (0 < D')%nat /\ svd_cut svd (tbuild [(2 * D)%nat; n] f) = Ok (U, tbuild [D'; n] c') /\ view_site U = Ok s /\
      shape s = [2%nat; D; D'] /\ wf s /\
      forall x i j, (x < 2)%nat -> (i < D)%nat -> (j < n)%nat ->
        bigsum (seq 0 D') (fun l => tget s [x; i; l] * c' [l; j]) = f [(x * D + i)%nat; j].
  Proof.
    intros D n f HD Hn Hnz. destruct (svd_cut_exact svd (2 * D) n f Hsvd) as (D' & u & c' & HD' & E & HE); auto; [lia|].
    exists D', (tbuild [(2 * D)%nat; D'] u), c'. eexists. split; [exact HD'|]. split; [exact E|].
    rewrite view_site_ok by lia. split; [reflexivity|]. split; [reflexivity|]. split; [apply tbuild_wf|].
    intros x i j Hx Hi Hj. rewrite HE by (auto; nia). apply bigsum_ext. intros l Hl. apply in_seq in Hl.
    rewrite tget_tbuild by vok. reflexivity.
  Qed.

  Lemma fold_view : forall D n f, (0 < D)%nat -> (0 < n)%nat ->
    exists F, fold_cols (tbuild [D; (2 * n)%nat] f) = Ok (tbuild [(2 * D)%nat; n] F) /\
      forall y i j, (y < 2)%nat -> (i < D)%nat -> F [(y * D + i)%nat; j] = f [i; (y * n + j)%nat].
  Proof.
    intros D n f HD Hn. rewrite fold_cols_ok by auto. eexists. split; [reflexivity|]. intros y i j Hy Hi. cbn [nth].
    rewrite (Nat.add_comm (y * D) i), Nat.mod_add, Nat.mod_small, Nat.div_add, Nat.div_small by lia. reflexivity.
  Qed.

  Lemma view_last : forall D n f, (0 < D)%nat -> (0 < n)%nat ->
    exists s, view_site (tbuild [(2 * D)%nat; n] f) = Ok s /\ shape s = [2%nat; D; n] /\ wf s /\
      forall y i j, (y < 2)%nat -> (i < D)%nat -> (j < n)%nat -> tget s [y; i; j] = f [(y * D + i)%nat; j].
  Proof.
    intros D n f HD Hn. rewrite view_site_ok by auto. eexists. split; [reflexivity|]. split; [reflexivity|]. split; [apply tbuild_wf|].
    intros y i j Hy Hi Hj. rewrite tget_tbuild by vok. reflexivity.
  Qed.

  (** [[t00,t01],[t10,t11]] *)
  Lemma tsel2_tbuild : forall s f x y, (x < 2)%nat -> (y < 2)%nat ->
    tsel2 (tbuild (2%nat :: 2%nat :: s) f) x y = Ok (tbuild s (fun idx => f (x :: y :: idx))).
  Proof. intros. unfold tsel2. rewrite select_tbuild by auto. cbn [bind]. now rewrite select_tbuild by auto. Qed.
  Lemma tsel3_tbuild : forall s f x y z, (x < 2)%nat -> (y < 2)%nat -> (z < 2)%nat ->
    tsel3 (tbuild (2%nat :: 2%nat :: 2%nat :: s) f) x y z = Ok (tbuild s (fun idx => f (x :: y :: z :: idx))).
  Proof. intros. unfold tsel3. rewrite tsel2_tbuild by auto. cbn [bind]. now rewrite select_tbuild by auto. Qed.

  Lemma decomp2_ok : forall Dl Dr T, (0 < Dl)%nat -> (0 < Dr)%nat ->
    ~ (forall x y i j, (x < 2)%nat -> (y < 2)%nat -> (i < Dl)%nat -> (j < Dr)%nat -> T [x; y; i; j] = 0) ->
    exists a b, TensorDecompAfterTwoQbitGate svd (tbuild [2%nat; 2%nat; Dl; Dr] T) = Ok (a, b) /\ chain Dl [a; b] Dr /\
      forall x y i j, (x < 2)%nat -> (y < 2)%nat -> (i < Dl)%nat -> (j < Dr)%nat ->
        mps_mat [a; b] [x; y] i j = T [x; y; i; j].
  Proof.
    intros Dl Dr T HDl HDr Hnz. unfold TensorDecompAfterTwoQbitGate.
    rewrite !tsel2_tbuild by lia. cbn [bind cat mfold]. rewrite cat2_cols. cbn [bind]. rewrite cat2_cols. cbn [bind]. rewrite cat2_rows. cbn [bind].
    replace (Dl + Dl)%nat with (2 * Dl)%nat by lia. replace (Dr + Dr)%nat with (2 * Dr)%nat by lia.
    match goal with |- context [svd_cut svd (tbuild _ ?F)] => set (C := F) end.
    assert (HC : forall x y i j, (x < 2)%nat -> (y < 2)%nat -> (i < Dl)%nat -> (j < Dr)%nat ->
      C [(x * Dl + i)%nat; (y * Dr + j)%nat] = T [x; y; i; j]).
    { intros x y i j Hx Hy Hi Hj. unfold C. cbn [nth].
      destruct x as [|[|]]; [| |lia]; destruct y as [|[|]]; try lia; cbn [Nat.mul Nat.add]; rewrite ?Nat.add_0_r;
        repeat match goal with |- context [if ?c then _ else _] =>
          first [replace c with true by lia|replace c with false by lia] end; repeat f_equal; lia. }
    destruct (split_step Dl (2 * Dr) C) as (D & U & c' & a & HD & -> & Ea & Sa & Wa & Ha); [lia|lia| |].
    { intros HZ. apply Hnz. intros x y i j Hx Hy Hi Hj. rewrite <- HC by auto. apply HZ; nia. }
    cbn [bind fst snd]. rewrite Ea. cbn [bind].
    destruct (fold_view D Dr c') as (F & -> & HF); [lia|lia|]. cbn [bind].
    destruct (view_last D Dr F) as (b & -> & Sb & Wb & Hb); [lia|lia|]. cbn [bind].
    exists a, b. split; [reflexivity|]. split.
    - cbn [chain]. exists D. repeat split; auto. exists Dr. auto.
    - intros x y i j Hx Hy Hi Hj. change [a; b] with ([a] ++ [b]). change [x; y] with ([x] ++ [y]).
      rewrite (mps_mat_app [a] [b] Dl D) by (auto; now apply chain_1).
      rewrite <- HC, <- Ha by (auto; nia). apply bigsum_ext. intros l Hl. apply in_seq in Hl.
      rewrite (mps_mat_1 a Dl D), (mps_mat_1 b D Dr) by (auto; lia). rewrite Hb, HF by (auto; lia). reflexivity.
  Qed.

  Lemma decomp3_ok : forall Dl Dr T, (0 < Dl)%nat -> (0 < Dr)%nat ->
    ~ (forall x y z i j, (x < 2)%nat -> (y < 2)%nat -> (z < 2)%nat -> (i < Dl)%nat -> (j < Dr)%nat -> T [x; y; z; i; j] = 0) ->
    exists a b c, TensorDecompAfterThreeQbitGate svd (tbuild [2%nat; 2%nat; 2%nat; Dl; Dr] T) = Ok (a, b, c) /\ chain Dl [a; b; c] Dr /\
      forall x y z i j, (x < 2)%nat -> (y < 2)%nat -> (z < 2)%nat -> (i < Dl)%nat -> (j < Dr)%nat ->
        mps_mat [a; b; c] [x; y; z] i j = T [x; y; z; i; j].
  Proof.
    intros Dl Dr T HDl HDr Hnz. unfold TensorDecompAfterThreeQbitGate. cbn [shape tbuild length Nat.eqb negb raise_if].
    fold (tbuild [2%nat; 2%nat; 2%nat; Dl; Dr] T).
    rewrite !tsel3_tbuild by lia. cbn [bind cat mfold]. rewrite cat2_cols. cbn [bind]. rewrite cat2_cols. cbn [bind]. rewrite cat2_cols. cbn [bind].
    rewrite cat2_cols. cbn [bind]. rewrite cat2_cols. cbn [bind]. rewrite cat2_cols. cbn [bind].
    rewrite cat2_rows. cbn [bind].
    replace (Dl + Dl)%nat with (2 * Dl)%nat by lia. replace (Dr + Dr + Dr + Dr)%nat with (2 * (2 * Dr))%nat by lia.
    match goal with |- context [svd_cut svd (tbuild _ ?F)] => set (C := F) end.
    assert (HC : forall x y z i j, (x < 2)%nat -> (y < 2)%nat -> (z < 2)%nat -> (i < Dl)%nat -> (j < Dr)%nat ->
      C [(x * Dl + i)%nat; (y * (2 * Dr) + (z * Dr + j))%nat] = T [x; y; z; i; j]).
    { intros x y z i j Hx Hy Hz Hi Hj. unfold C. cbn [nth].
      destruct x as [|[|]]; [| |lia]; destruct y as [|[|]]; try lia; destruct z as [|[|]]; try lia; cbn [Nat.mul Nat.add]; rewrite ?Nat.add_0_r;
        repeat match goal with |- context [if ?c then _ else _] =>
          first [replace c with true by lia|replace c with false by lia] end; repeat f_equal; lia. }
    destruct (split_step Dl (2 * (2 * Dr)) C) as (D & U & c' & a & HD & -> & Ea & Sa & Wa & Ha); [lia|lia| |].
    { intros HZ. apply Hnz. intros x y z i j Hx Hy Hz Hi Hj. rewrite <- HC by auto. apply HZ; nia. }
    cbn [bind fst snd]. rewrite Ea. cbn [bind].
    destruct (fold_view D (2 * Dr) c') as (F & -> & HF); [lia|lia|]. cbn [bind].
    destruct (split_step D (2 * Dr) F) as (D2 & U2 & c2 & b & HD2 & -> & Eb & Sb & Wb & Hb); [lia|lia| |].
    { intros HZ. apply Hnz. intros x y z i j Hx Hy Hz Hi Hj. rewrite <- HC, <- Ha by (auto; nia). apply bigsum_zero.
      intros l Hl. apply in_seq in Hl. rewrite <- HF by (auto; lia). rewrite HZ by nia. ring. }
    cbn [bind fst snd]. rewrite Eb. cbn [bind].
    destruct (fold_view D2 Dr c2) as (F2 & -> & HF2); [lia|lia|]. cbn [bind].
    destruct (view_last D2 Dr F2) as (c & -> & Sc & Wc & Hc); [lia|lia|]. cbn [bind].
    exists a, b, c. split; [reflexivity|]. split.
    - cbn [chain]. exists D. repeat split; auto. exists D2. repeat split; auto. exists Dr. auto.
    - intros x y z i j Hx Hy Hz Hi Hj. change [a; b; c] with ([a] ++ [b] ++ [c]). change [x; y; z] with ([x] ++ [y] ++ [z]).
      rewrite (mps_mat_app [a] _ Dl D) by (auto; now apply chain_1).
      rewrite <- HC, <- Ha by (auto; nia). apply bigsum_ext. intros l Hl. apply in_seq in Hl.
      rewrite (mps_mat_1 a Dl D) by (auto; lia). f_equal.
      rewrite (mps_mat_app [b] _ D D2) by (auto; try lia; now apply chain_1).
      rewrite <- HF, <- Hb by (auto; nia). apply bigsum_ext. intros l' Hl'. apply in_seq in Hl'.
      rewrite (mps_mat_1 b D D2), (mps_mat_1 c D2 Dr) by (auto; lia). rewrite Hc, HF2 by (auto; lia). reflexivity.
  Qed.
End MPSFacts3.
