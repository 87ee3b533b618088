(** Lemmas: the functions of layers/qlayer.py with gate functions that return the documented matrices. *)
From Coq Require Import List ZArith Reals Lra Lia ZifyBool Bool Arith Setoid Morphisms String.
From Verif Require Import PyBase Scalar CInst BigSum Index Tensor TensorFacts Spec SpecFacts QMath QTN QOperator ExpandFacts ExpandFacts2 GateSpec QGates GateCalls GateFacts GateFacts2 RunSpec MPSSpec
  LayerSpec QLayers LayerFacts1 LayerFacts2 LayerFacts3 LayerFacts4 MPSFacts4 LayerOldSpec QLayerOld LayerOldFacts2.
Import ListNotations.
Local Close Scope R_scope.
Local Open Scope nat_scope.
Notation len := List.length.

Lemma gives_eq : forall r k A, gives r k A -> r = Ok (op_tensor k A).
Proof. intros r k A (u & -> & H). apply is_op_eq in H. now subst. Qed.
Lemma gives_ext : forall r k A B, gives r k A -> op_eq k A B -> gives r k B.
Proof. intros r k A B (u & E & H) HE. exists u. split; [exact E|]. now apply (is_op_ext k u A). Qed.
Lemma gives_tensor : forall k A, gives (Ok (op_tensor k A)) k A.
Proof. intros. eexists. split; [reflexivity|]. apply is_op_tensor. Qed.
Lemma gives_mul : forall r s n A B, gives r n A -> gives s n B -> gives (do a <- r; do b <- s; matmul a b) n (mul_op n A B).
Proof. intros r s n A B H1 H2. rewrite (gives_eq _ _ _ H1), (gives_eq _ _ _ H2). cbn [bind]. rewrite matmul_op. apply gives_tensor. Qed.

Section With.
  Variable G : gatefns.
  Hypothesis D : documented G.

  (** ** one matrix per qubit *)
  Lemma kron_units : forall ts Gs n, 0 < n -> len Gs = n -> Forall2 (fun t A => is_op 1 t A) ts Gs -> gives (g_kron G ts) n (obs_op n (seq 0 n) Gs).
  Proof.
    intros ts Gs n Hn L H. set (fs := map (fun A : @qop C_scalar => (1, A)) Gs).
    assert (S1 : list_sum (map fst fs) = n).
    { unfold fs. rewrite map_map. cbn [fst]. subst n. clear. induction Gs as [|A Gs IH]; [reflexivity|]. cbn [map List.length list_sum fold_right]. unfold list_sum in IH. rewrite IH. reflexivity. }
    pose proof (doc_kron G D ts fs) as K. rewrite S1 in K. eapply gives_ext; [apply K|].
    - unfold fs. destruct Gs; [cbn in L; lia|discriminate].
    - unfold fs. clear -H. induction H; constructor; auto.
    - pose proof (kron_lprod fs) as X. rewrite S1 in X. rewrite X. unfold obs_op, lprod, fs. rewrite <- (obs_lprod n Gs 0), L. reflexivity.
  Qed.

  Definition axis_fn (a : axis) : R -> res tensor := match a with AX => g_rx G | AY => g_ry G | AZ => g_rz G end.
  Lemma axis_gives : forall a t, axis_fn a t = Ok (op_tensor 1 (axis_op a t)).
  Proof. intros [] t; apply gives_eq; [apply (doc_rx G D)|apply (doc_ry G D)|apply (doc_rz G D)]. Qed.

  Lemma Forall2_map2 : forall X Y Z (P : Y -> Z -> Prop) (f : X -> Y) (g : X -> Z) l, (forall x, In x l -> P (f x) (g x)) -> Forall2 P (map f l) (map g l).
  Proof. induction l as [|x l IH]; intros H; constructor; [apply H; now left|apply IH; intros; apply H; now right]. Qed.

  Lemma rot_layer : forall k (f : Z -> res tensor) n ps, 0 < n -> len ps = len (kind_axes k) * n ->
    (forall i, i < n -> exists A, f (Z.of_nat i) = Ok (op_tensor 1 A) /\ op_eq 1 A (axes_op (combine (kind_axes k) (skipn (len (kind_axes k) * i) ps)))) ->
    gives (do l <- mmap f (zrange2 0 (Z.of_nat n)); g_kron G l) n (gs_op n (rot_gates (kind_axes k) (seq 0 n) ps)).
  Proof.
    intros k f n ps Hn L H.
    assert (E : mmap f (zrange2 0 (Z.of_nat n)) = Ok (map (fun i => op_tensor 1 (axes_op (combine (kind_axes k) (skipn (len (kind_axes k) * i) ps)))) (seq 0 n))).
    { rewrite LayerFacts3.zrange2_0, mmap_map. apply mmap_Ok_ext. intros i Hi. apply in_seq in Hi. destruct (H i) as (A & -> & HA); [lia|].
      f_equal. now apply op_tensor_ext. }
    rewrite E. cbn [bind]. eapply gives_ext.
    - apply (kron_units _ (rot_ops k ps n) n Hn); [apply rot_ops_length|]. unfold rot_ops. apply Forall2_map2. intros i _. apply is_op_tensor.
    - pose proof (rot_obs n k (seq 0 n) ps (LayerFacts2.good_seq n n (le_n n))) as X. now rewrite seq_length in X.
  Qed.

  Lemma old3_ok : forall k a1 a2 a3 n ps, kind_axes k = [a1; a2; a3] -> 0 < n -> len ps = 3 * n ->
    gives (old3 G (axis_fn a1) (axis_fn a2) (axis_fn a3) (Z.of_nat n) ps) n (gs_op n (rot_gates [a1; a2; a3] (seq 0 n) ps)).
  Proof.
    intros k a1 a2 a3 n ps EK Hn L. unfold old3, raise_if. replace (Z.of_nat n <? 1)%Z with false by lia.
    replace (Z.of_nat (len ps) =? 3 * Z.of_nat n)%Z with true by lia. cbn [negb]. rewrite <- EK. apply rot_layer; [exact Hn|rewrite EK; exact L|].
    intros i Hi. rewrite EK. cbn [List.length]. rewrite skipn3 by lia.
    replace (3 * Z.of_nat i + 0)%Z with (Z.of_nat (3 * i)) by lia. replace (3 * Z.of_nat i + 1)%Z with (Z.of_nat (3 * i + 1)) by lia.
    replace (3 * Z.of_nat i + 2)%Z with (Z.of_nat (3 * i + 2)) by lia.
    rewrite !(py_nth_nat _ _ _ 0%R) by lia. cbn [bind]. rewrite !axis_gives. cbn [bind]. rewrite !matmul_op. cbn [bind]. rewrite matmul_op.
    eexists. split; [reflexivity|]. unfold axes_op. cbn [combine fold_left fst snd]. rewrite mul_op_id_r. reflexivity.
  Qed.
  Lemma old_XZ_ok : forall n ps, 0 < n -> len ps = 2 * n -> gives (old_XZ G (Z.of_nat n) ps) n (gs_op n (rot_gates [AX; AZ] (seq 0 n) ps)).
  Proof.
    intros n ps Hn L. unfold old_XZ, raise_if. replace (Z.of_nat n <? 1)%Z with false by lia.
    replace (Z.of_nat (len ps) =? 2 * Z.of_nat n)%Z with true by lia. cbn [negb]. apply (rot_layer KXZ); [exact Hn|exact L|].
    intros i Hi. cbn [kind_axes List.length]. rewrite skipn2 by lia.
    replace (2 * Z.of_nat i + 0)%Z with (Z.of_nat (2 * i)) by lia. replace (2 * Z.of_nat i + 1)%Z with (Z.of_nat (2 * i + 1)) by lia.
    rewrite !(py_nth_nat _ _ _ 0%R) by lia. cbn [bind]. change (g_rz G) with (axis_fn AZ). change (g_rx G) with (axis_fn AX). rewrite !axis_gives. cbn [bind]. rewrite matmul_op.
    eexists. split; [reflexivity|]. unfold axes_op. cbn [combine fold_left fst snd]. rewrite mul_op_id_r. reflexivity.
  Qed.
  Lemma old_H_ok : forall n, 0 < n -> gives (old_H G (Z.of_nat n)) n (gs_op n (map gi_H (seq 0 n))).
  Proof.
    intros n Hn. unfold old_H, raise_if. replace (Z.of_nat n <? 1)%Z with false by lia. rewrite LayerFacts3.zrange2_0, mmap_map.
    rewrite (gives_eq _ _ _ (doc_Had G D)), mmap_Ok. cbn [bind].
    eapply gives_ext; [apply (kron_units _ (map (fun _ => H_op) (seq 0 n)) n Hn)|].
    - now rewrite map_length, seq_length.
    - apply Forall2_map2. intros. apply is_op_tensor.
    - symmetry. unfold obs_op. pose proof (obs_lprod n (map (fun _ => H_op) (seq 0 n)) 0) as X. rewrite map_length, seq_length in X.
      apply (f_equal (fun f => f (id_op (SC := C_scalar)))) in X. rewrite X. apply gs_lprod.
      assert (Y : forall m off, Forall2 (fun g wa => op_eq (SC := C_scalar) n (gi_op n g) (lift (snd wa) (fst wa))) (map gi_H (seq off m)) (blocks off (map (fun A => (1, A)) (map (fun _ => H_op) (seq off m))))).
      { induction m as [|m IH]; intros off; [constructor|]. cbn [seq map blocks]. constructor; [reflexivity|]. rewrite Nat.add_1_r. apply IH. }
      apply Y.
  Qed.
End With.
