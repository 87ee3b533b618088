(** Lemmas: a factorisation that is exact everywhere; runs in which every decomposition is exact; shapes. *)
From Coq Require Import List ZArith QArith Lia ZifyBool Bool Arith Ring Permutation.
From Verif Require Import PyBase Scalar BigSum Index Tensor TensorFacts Spec SpecFacts QMath QTN QOperator
  ExpandFacts ExpandFacts2 ContractFacts ContractFacts2 MPSSpec MPSFacts1 MPSFacts2 MPSFacts3 MPSFacts4 MPSFacts5.
Import ListNotations.
Local Close Scope Q_scope.
Local Open Scope nat_scope.

(** m' succeeds with the same value whenever m does *)
Definition leR {A} (m m' : res A) : Prop := forall a, m = Ok a -> m' = Ok a.
Lemma leR_refl : forall A (m : res A), leR m m.
Proof. intros A m a H. exact H. Qed.
Lemma leR_bind : forall A B (m m' : res A) (f f' : A -> res B), leR m m' -> (forall a, leR (f a) (f' a)) -> leR (bind m f) (bind m' f').
Proof. intros A B m m' f f' H1 H2 b H. destruct m as [a|e]; [|discriminate]. rewrite (H1 a eq_refl). cbn [bind] in *. now apply H2. Qed.
Lemma leR_raise : forall A c e (m m' : res A), leR m m' -> leR (raise_if c e m) (raise_if c e m').
Proof. intros A c e m m' H. unfold raise_if. destruct c; auto using leR_refl. Qed.
Lemma leR_mfold : forall A B (f f' : A -> B -> res A) l, (forall a b, leR (f a b) (f' a b)) -> forall a, leR (mfold f l a) (mfold f' l a).
Proof. intros A B f f' l H. induction l as [|b l IH]; intros a; cbn [mfold]; [apply leR_refl|]. apply leR_bind; auto. Qed.
Lemma leR_if : forall A (c : bool) (m m' p p' : res A), leR m m' -> leR p p' -> leR (if c then m else p) (if c then m' else p').
Proof. intros A c m m' p p' H1 H2. destruct c; auto. Qed.

Ltac mono tac := repeat (cbv zeta; cbn beta iota; match goal with
  | |- leR ?x ?x => apply leR_refl
  | |- leR (bind _ _) (bind _ _) => apply leR_bind; [|intros]
  | |- leR (raise_if _ _ _) _ => apply leR_raise
  | |- leR (mfold _ _ _) _ => apply leR_mfold; intros
  | |- leR (if _ then _ else _) _ => apply leR_if
  | |- leR (let '(_, _) := ?p in _) _ => destruct p
  | _ => tac
  end).

Section MPSFacts7.
  Context {SC : Scalar}.
  Add Ring KR : k_ring.
  Local Open Scope k_scope.

  (** A = I . 1 . A or A . 1 . I, whichever has min(m,n) inner values *)
  Definition triv_svd (A : tensor) : tensor * tensor * tensor :=
    let m := nth 0 (shape A) 0%nat in
    let n := nth 1 (shape A) 0%nat in
    let k := Nat.min m n in
    (tbuild [m; k] (fun idx => if (m <=? n)%nat then (if (nth 0 idx 0 =? nth 1 idx 0)%nat then 1 else 0) else tget A idx),
     tbuild [k] (fun _ => 1),
     tbuild [n; k] (fun idx => if (m <=? n)%nat then kconj (tget A [nth 1 idx 0%nat; nth 0 idx 0%nat])
                               else if (nth 0 idx 0 =? nth 1 idx 0)%nat then 1 else 0)).

  Lemma triv_svd_exact : kabsgt 1 (1 # 100000000)%Q = true -> exact_svd triv_svd.
  Proof.
    intros H1 A m n SA WA Hm Hn. unfold triv_svd. rewrite SA. cbn [nth]. cbv zeta.
    rewrite !tbuild_shape. repeat split; try apply tbuild_wf.
    - intros i j Hi Hj. destruct (m <=? n)%nat eqn:E.
      + rewrite Nat.min_l by lia. rewrite (bigsum_single _ (seq 0 m) i).
        * rewrite !tget_tbuild by vok. cbn [nth]. rewrite Nat.eqb_refl, kconj_invol. ring.
        * apply seq_NoDup.
        * apply in_seq. lia.
        * intros l Hl Hne. apply in_seq in Hl. rewrite !tget_tbuild by vok. cbn [nth]. replace (i =? l)%nat with false by lia. ring.
      + rewrite Nat.min_r by lia. rewrite (bigsum_single _ (seq 0 n) j).
        * rewrite !tget_tbuild by vok. cbn [nth]. rewrite Nat.eqb_refl, kconj_1. ring.
        * apply seq_NoDup.
        * apply in_seq. lia.
        * intros l Hl Hne. apply in_seq in Hl. rewrite !tget_tbuild by vok. cbn [nth]. replace (j =? l)%nat with false by lia.
          rewrite kconj_0. ring.
    - exists (Nat.min m n). split; [lia|]. intros l Hl. replace (l <? Nat.min m n)%nat with true by lia.
      rewrite tget_tbuild by vok. exact H1.
  Qed.

  Definition patch (ok : tensor -> bool) (svd : tensor -> tensor * tensor * tensor) (A : tensor) : tensor * tensor * tensor :=
    if ok A then svd A else triv_svd A.

  Lemma patch_exact : forall ok svd, kabsgt 1 (1 # 100000000)%Q = true -> (forall A, ok A = true -> exact_at svd A) ->
    exact_svd (patch ok svd).
  Proof.
    intros ok svd H1 H A. pose proof (triv_svd_exact H1 A) as T. specialize (H A). unfold exact_at, patch in *.
    destruct (ok A); [now apply H|exact T].
  Qed.

  Lemma strict_svd_cut : forall ok svd svd' c, (forall A, ok A = true -> svd' A = svd A) -> leR (svd_cut (strict ok svd) c) (svd_cut svd' c).
  Proof.
    intros ok svd svd' c H. unfold svd_cut, strict. destruct (ok c) eqn:E; [rewrite (H c E); apply leR_refl|].
    intros a X. discriminate X.
  Qed.

  Section Mono.
    Variable ok : tensor -> bool.
    Variables svd svd' : tensor -> tensor * tensor * tensor.
    Hypothesis H : forall A, ok A = true -> svd' A = svd A.
    Let sv := strict ok svd.

    Lemma StateVec2MPS_mono : forall t N, leR (StateVec2MPS sv t N) (StateVec2MPS svd' t N).
    Proof. intros. unfold StateVec2MPS. mono ltac:(now apply strict_svd_cut). Qed.
    Lemma decomp2_mono : forall t, leR (TensorDecompAfterTwoQbitGate sv t) (TensorDecompAfterTwoQbitGate svd' t).
    Proof. intros. unfold TensorDecompAfterTwoQbitGate. mono ltac:(now apply strict_svd_cut). Qed.
    Lemma decomp3_mono : forall t, leR (TensorDecompAfterThreeQbitGate sv t) (TensorDecompAfterThreeQbitGate svd' t).
    Proof. intros. unfold TensorDecompAfterThreeQbitGate. mono ltac:(now apply strict_svd_cut). Qed.
    Lemma two_site_mono : forall M l i j, leR (two_site sv M l i j) (two_site svd' M l i j).
    Proof. intros. unfold two_site. mono ltac:(now apply decomp2_mono). Qed.
    Lemma three_site_mono : forall G l m, leR (three_site sv G l m) (three_site svd' G l m).
    Proof. intros. unfold three_site. mono ltac:(now apply decomp3_mono). Qed.
    Lemma swap_TN_mono : forall N w l, leR (swap_TN_operation sv N w l) (swap_TN_operation svd' N w l).
    Proof. intros. unfold swap_TN_operation. mono ltac:(now apply two_site_mono). Qed.
    Lemma swap_step_mono : forall N l i j, leR (swap_step sv N l i j) (swap_step svd' N l i j).
    Proof. intros. unfold swap_step. apply swap_TN_mono. Qed.
    Lemma ctrl_TN_mono : forall M R N w l, leR (ctrl_TN_operation sv M R N w l) (ctrl_TN_operation svd' M R N w l).
    Proof. intros. unfold ctrl_TN_operation. mono ltac:(first [apply swap_step_mono|apply two_site_mono]). Qed.
    Lemma cnot_TN_mono : forall M R N w l, leR (cnot_TN_operation sv M R N w l) (cnot_TN_operation svd' M R N w l).
    Proof. intros. unfold cnot_TN_operation. mono ltac:(first [apply swap_step_mono|apply two_site_mono]). Qed.
    Lemma toffoli_TN_mono : forall M A B N w l, leR (toffoli_TN_operation sv M A B N w l) (toffoli_TN_operation svd' M A B N w l).
    Proof. intros. unfold toffoli_TN_operation. mono ltac:(first [apply swap_step_mono|apply three_site_mono]). Qed.
  End Mono.
End MPSFacts7.
