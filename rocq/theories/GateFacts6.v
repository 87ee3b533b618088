(** SWAP with arbitrary integers; batches sample by sample; commuting gates; tensor products of matrices. *)
From Coq Require Import List ZArith Reals Lra Lia Bool Arith Ring Morphisms ZifyBool Permutation.
From Verif Require Import PyBase Scalar CInst BigSum Index Tensor TensorFacts Spec SpecFacts QMath QTN QOperator
  ExpandFacts ExpandFacts2 ContractFacts ContractFacts2 GateSpec QGates GateCalls GateFacts GateFacts2 GateFacts3 GateFacts4 GateFacts5.
Import ListNotations.

Lemma py_index_wrap : forall n z, (- Z.of_nat n <= z < Z.of_nat n)%Z ->
  py_index n z = Ok (Z.to_nat (z mod Z.of_nat n)) /\ Z.to_nat (z mod Z.of_nat n) < n.
Proof.
  intros n z H. unfold py_index. assert (0 < Z.of_nat n)%Z by lia.
  pose proof (Z.mod_pos_bound z (Z.of_nat n) ltac:(lia)) as B. split; [|lia].
  destruct ((0 <=? z)%Z && (z <? Z.of_nat n)%Z) eqn:E.
  - rewrite Z.mod_small by lia. reflexivity.
  - replace ((- Z.of_nat n <=? z)%Z && (z <? 0)%Z) with true by lia.
    rewrite <- (Z.mod_add z 1) by lia. rewrite Z.mod_small by lia. do 2 f_equal. lia.
Qed.

Lemma py_index_fail : forall n z, ~ (- Z.of_nat n <= z < Z.of_nat n)%Z -> py_index n z = Err IndexError.
Proof.
  intros n z H. unfold py_index.
  replace ((0 <=? z)%Z && (z <? Z.of_nat n)%Z) with false by lia.
  now replace ((- Z.of_nat n <=? z)%Z && (z <? 0)%Z) with false by lia.
Qed.

Lemma swap_U_wrap : forall n a b, (- Z.of_nat n <= a < Z.of_nat n)%Z -> (- Z.of_nat n <= b < Z.of_nat n)%Z ->
  swap_U (Z.of_nat n) a b = swap_U (Z.of_nat n) (a mod Z.of_nat n) (b mod Z.of_nat n).
Proof.
  intros n a b Ha Hb.
  destruct (py_index_wrap n a Ha) as [Ea La]. destruct (py_index_wrap n b Hb) as [Eb Lb].
  assert (P : forall l (g : @tensor C_scalar) z, length l = n -> (- Z.of_nat n <= z < Z.of_nat n)%Z -> py_set l z g = py_set l (z mod Z.of_nat n) g).
  { intros l g z L Hz. unfold py_set. rewrite L. destruct (py_index_wrap n z Hz) as [E E'].
    rewrite E. pose proof (Z.mod_pos_bound z (Z.of_nat n) ltac:(lia)).
    rewrite <- (Z2Nat.id (z mod Z.of_nat n)) at 2 by lia. now rewrite py_index_nat. }
  assert (LE : length (eyes (Z.of_nat n)) = n).
  { unfold eyes. rewrite repeat_length. lia. }
  unfold swap_U.
  assert (Q : forall g h, (do l <- py_set (eyes (Z.of_nat n)) a g; do l <- py_set l b h; multi_kron l) =
    (do l <- py_set (eyes (Z.of_nat n)) (a mod Z.of_nat n) g; do l <- py_set l (b mod Z.of_nat n) h; multi_kron l)).
  { intros g h. rewrite <- (P _ _ a LE Ha).
    destruct (py_set (eyes (Z.of_nat n)) a g) as [l|] eqn:E; [|reflexivity]. cbn [bind].
    rewrite (P l h b); auto. unfold py_set in E. apply bind_inv in E. destruct E as (k & _ & E). injection E as <-.
    now rewrite set_nth_length. }
  now rewrite !Q.
Qed.

Lemma set_nth_twice : forall A (l : list A) k x y, set_nth k y (set_nth k x l) = set_nth k y l.
Proof. induction l as [|z l IH]; intros [|k] x y; cbn; auto. now rewrite IH. Qed.

Lemma swap_U_equal : forall n a, a < n ->
  swap_U (Z.of_nat n) (Z.of_nat a) (Z.of_nat a) = Ok (op_tensor n (lift (op2 (RtoC 1) (RtoC 1) (RtoC 1) (RtoC 1)) [a])).
Proof.
  intros n a Ha. unfold swap_U.
  unfold zero_zero, one_one, zero_one, one_zero. rewrite !mat_of_op2.
  rewrite eyes_op, !(py_set_op _ n) by (rewrite ?repeat_length; auto). cbn [bind].
  rewrite !(py_set_op _ n) by (rewrite ?set_nth_length, ?repeat_length; auto). cbn [bind].
  rewrite !set_nth_twice.
  rewrite !(multi_kron_fac _ n) by (rewrite ?set_nth_length, ?repeat_length; lia). cbn [bind].
  rewrite !tadd_op. cbn [bind]. rewrite tadd_op. cbn [bind]. rewrite tadd_op. f_equal. apply op_tensor_ext.
  intros r cc Hr Hcc.
  assert (F : forall A, op_eq n (prod_of n (fac (set_nth a A (repeat id_op n)))) (lift A [a])).
  { intros A. apply prod_of_1; auto. intros i Hi.
    rewrite !fac_set, fac_repeat by (rewrite ?set_nth_length, ?repeat_length; auto). reflexivity. }
  rewrite !F, !lift_add by auto.
  apply (lift_ext n [a]); auto. { intros x [<-|[]]; auto. } clear.
  apply op_eq_1; cbn [op2]; ceq; ring.
Qed.

Lemma ones_not_unitary : forall n a, a < n -> ~ unitary n (lift (op2 (RtoC 1) (RtoC 1) (RtoC 1) (RtoC 1)) [a]).
Proof.
  intros n a Ha [U _].
  assert (Hz : In (repeat 0 n) (bits n)).
  { apply in_bits. split; [apply repeat_length|]. intros i Hi. rewrite nth_repeat_lt; auto. }
  rewrite lift_adj, lift_mul in U by (now apply good_wires_1).
  specialize (U _ _ Hz Hz). rewrite id_op_refl in U.
  unfold lift in U. rewrite same_off_refl in U. cbn [rd map length] in U. rewrite nth_repeat_lt in U by auto.
  unfold mul_op in U. rewrite bigsum_bits_1 in U. unfold adj_op in U. cbn [op2] in U.
  apply (f_equal fst) in U. cbn in U. lra.
Qed.

Lemma swap_any : forall N a b g, SWAP N (WList [a; b]) = Ok g ->
  (exists e, U_expand g = Err e) \/
  exists n a' b' t, N = Z.of_nat n /\ a' < n /\ b' < n /\ Z.of_nat a' = (a mod N)%Z /\ Z.of_nat b' = (b mod N)%Z /\
    U_expand g = Ok t /\
    ((a' <> b' /\ t = op_tensor n (swap_op a' b')) \/
     (a' = b' /\ t = op_tensor n (lift (op2 (RtoC 1) (RtoC 1) (RtoC 1) (RtoC 1)) [a']))).
Proof.
  intros N a b g E. injection E as <-. unfold U_expand, raise_if. cbn [g_cls g_N g_wires].
  destruct (unset _ _); [left; eauto|].
  change (wire_at (WList [a; b]) 0) with (Ok a). change (wire_at (WList [a; b]) 1) with (Ok b). cbn [bind].
  destruct (Z_lt_dec N 1) as [LN|LN].
  { left. unfold swap_U, eyes. replace (Z.to_nat N) with 0 by lia. cbn [repeat]. unfold py_set, py_index. cbn [length].
    replace ((0 <=? a)%Z && (a <? Z.of_nat 0)%Z) with false by lia.
    replace ((- Z.of_nat 0 <=? a)%Z && (a <? 0)%Z) with false by lia. cbn [bind]. eauto. }
  assert (EN : N = Z.of_nat (Z.to_nat N)) by lia. set (n := Z.to_nat N) in *. clearbody n. subst N.
  assert (LE : forall A (x : A), length (repeat x (Z.to_nat (Z.of_nat n))) = n) by (intros; rewrite repeat_length; lia).
  destruct (Z_le_dec (- Z.of_nat n) a) as [H1|H1]; [destruct (Z_lt_dec a (Z.of_nat n)) as [H2|H2]|].
  2,3: left; unfold swap_U, py_set; unfold eyes; rewrite LE; rewrite py_index_fail by lia; cbn [bind]; eauto.
  destruct (Z_le_dec (- Z.of_nat n) b) as [H3|H3]; [destruct (Z_lt_dec b (Z.of_nat n)) as [H4|H4]|].
  2,3: left; unfold swap_U, py_set at 1, py_set at 1; unfold eyes; rewrite LE;
       rewrite (proj1 (py_index_wrap n a (conj H1 H2))); cbn [bind]; unfold py_set; rewrite set_nth_length, LE;
       rewrite py_index_fail by lia; cbn [bind]; eauto.
  right. rewrite swap_U_wrap by lia.
  pose proof (Z.mod_pos_bound a (Z.of_nat n) ltac:(lia)) as Ba. pose proof (Z.mod_pos_bound b (Z.of_nat n) ltac:(lia)) as Bb.
  exists n, (Z.to_nat (a mod Z.of_nat n)), (Z.to_nat (b mod Z.of_nat n)).
  destruct (Nat.eq_dec (Z.to_nat (a mod Z.of_nat n)) (Z.to_nat (b mod Z.of_nat n))) as [E|E].
  - eexists. split; [reflexivity|]. split; [lia|]. split; [lia|]. split; [lia|]. split; [lia|]. split; [|right; split; [exact E|reflexivity]].
    rewrite <- (Z2Nat.id (a mod Z.of_nat n)) at 1 by lia. rewrite <- (Z2Nat.id (b mod Z.of_nat n)) at 1 by lia.
    rewrite <- E. apply swap_U_equal. lia.
  - eexists. split; [reflexivity|]. split; [lia|]. split; [lia|]. split; [lia|]. split; [lia|]. split; [|left; split; [exact E|reflexivity]].
    rewrite <- (Z2Nat.id (a mod Z.of_nat n)) at 1 by lia. rewrite <- (Z2Nat.id (b mod Z.of_nat n)) at 1 by lia.
    apply swap_U_ok; lia.
Qed.

(** ** commuting gates *)
Lemma gi_comm : forall n g h, gi_ok n g -> gi_ok n h -> (forall w, In w (gi_wires g) -> ~ In w (gi_wires h)) ->
  op_eq n (mul_op n (gi_op n g) (gi_op n h)) (mul_op n (gi_op n h) (gi_op n g)).
Proof.
  intros n g h G H D. rewrite (gi_op_lift n g G), (gi_op_lift n h H). apply lift_comm; [apply G|apply H|exact D].
Qed.

(** ** tensor products and conjugate transposes *)
Section Kron.
  Context {SC : Scalar}.
  Add Ring KR : k_ring.
  Local Open Scope k_scope.

  Lemma mats_op : forall ts, Forall (fun t => shape t = [2%nat; 2%nat] /\ wf t) ts ->
    ts = map (op_tensor 1) (map op_of ts).
  Proof.
    induction ts as [|t ts IH]; intros H; [reflexivity|]. inversion H as [|x y [Hs Hw] Hf]; subst. cbn [map].
    rewrite <- IH by auto. f_equal. apply is_op_eq. split; [exact Hs|]. split; [exact Hw|reflexivity].
  Qed.

  Lemma bval1 : forall x, bval [x] = x.
  Proof. reflexivity. Qed.

  Lemma multi_kron_entries : forall ts, ts <> [] -> Forall (fun t => shape t = [2%nat; 2%nat] /\ wf t) ts ->
    exists t, multi_kron ts = Ok t /\
      is_op (length ts) t (fun r c => bigprod (seq 0 (length ts)) (fun i => tget (nth i ts t) [nth i r 0%nat; nth i c 0%nat])).
  Proof.
    intros ts N H. assert (E : multi_kron ts = multi_kron (map (op_tensor 1) (map op_of ts))) by (f_equal; exact (mats_op ts H)).
    rewrite E. rewrite multi_kron_op by (destruct ts; [congruence|discriminate]).
    rewrite map_length. eexists. split; [reflexivity|]. eapply is_op_ext; [apply is_op_tensor|].
    intros r c _ _. unfold prod_of. apply bigprod_ext. intros i Hi. apply in_seq in Hi.
    rewrite (nth_indep (map op_of ts) id_op (op_of (mkT [] []))) by (rewrite map_length; lia).
    rewrite map_nth. unfold op_of. rewrite !bval1. f_equal. apply nth_indep. lia.
  Qed.

  Lemma bigprod_mul : forall A (l : list A) f g, bigprod l (fun a => f a * g a) = bigprod l f * bigprod l g.
  Proof.
    induction l as [|a l IH]; intros f g; [cbn; ring|]. rewrite !bigprod_cons, IH. ring.
  Qed.

  Lemma prod_of_mul : forall n F G, op_eq n (mul_op n (prod_of n F) (prod_of n G)) (prod_of n (fun i => mul_op 1 (F i) (G i))).
  Proof.
    induction n as [|n IH]; intros F G r c Hr Hc.
    - unfold mul_op, prod_of. cbn. ring.
    - destruct r as [|x r]; [apply bits_length in Hr; discriminate|].
      destruct c as [|y c]; [apply bits_length in Hc; discriminate|].
      apply bits_cons in Hr, Hc. destruct Hr as [Hx Hr], Hc as [Hy Hc].
      specialize (IH (fun i => F (S i)) (fun i => G (S i)) r c Hr Hc).
      unfold prod_of in IH |- *. rewrite bigprod_seq_shift. cbn [nth]. rewrite <- IH.
      unfold mul_op. rewrite bigsum_bits_S, bigsum_bits_1.
      rewrite <- !bigsum_mul_l.
      rewrite <- bigsum_add.
      apply bigsum_ext. intros m _. rewrite !bigprod_seq_shift. cbn [nth]. ring.
  Qed.

  Lemma dag_2d : forall m n f, dag (tbuild [m; n] f) = Ok (tbuild [n; m] (fun idx => kconj (f [nth 1 idx 0%nat; nth 0 idx 0%nat]))).
  Proof.
    intros m n f. unfold dag, raise_if. rewrite tbuild_shape. cbn [length Nat.eqb negb].
    rewrite tconj_tbuild. change [1%Z; 0%Z] with (map Z.of_nat [1%nat; 0%nat]).
    rewrite permute_tbuild by (cbn; apply perm_swap). reflexivity.
  Qed.

  Lemma dag_op : forall n A, dag (op_tensor n A) = Ok (op_tensor n (adj_op A)).
  Proof. intros n A. unfold op_tensor. rewrite dag_2d. reflexivity. Qed.
End Kron.

Section Dag.
  Context {SC : Scalar}.
  Add Ring KR2 : k_ring.
  Local Open Scope k_scope.

  Lemma mul_op_fac : forall As Bs i, length As = length Bs -> i < length As ->
    nth i (map (fun p => mul_op 1 (fst p) (snd p)) (combine As Bs)) id_op = mul_op 1 (nth i As id_op) (nth i Bs id_op).
  Proof.
    induction As as [|A As IH]; intros [|B Bs] i L Hi; cbn in L, Hi; try lia. destruct i as [|i]; [reflexivity|].
    cbn [combine map nth]. apply IH; lia.
  Qed.

  Lemma multi_kron_mul : forall (As Bs : list qop) a b ab, length As = length Bs ->
    multi_kron (map (op_tensor 1) As) = Ok a -> multi_kron (map (op_tensor 1) Bs) = Ok b ->
    multi_kron (map (fun p => op_tensor 1 (mul_op 1 (fst p) (snd p))) (combine As Bs)) = Ok ab ->
    matmul a b = Ok ab.
  Proof.
    intros As Bs a b ab L Ha Hb Hab.
    assert (NA : As <> []) by (intros ->; discriminate Ha). assert (NB : Bs <> []) by (intros ->; discriminate Hb).
    rewrite multi_kron_op in Ha, Hb by assumption. injection Ha as <-. injection Hb as <-.
    rewrite <- (map_map (fun p => mul_op 1 (fst p) (snd p)) (op_tensor 1)) in Hab.
    rewrite multi_kron_op in Hab by (destruct As, Bs; try congruence; discriminate). injection Hab as <-.
    rewrite map_length, combine_length, <- L, Nat.min_id, matmul_op. f_equal. apply op_tensor_ext.
    rewrite prod_of_mul. apply prod_of_ext. intros i Hi. now rewrite mul_op_fac.
  Qed.

  Lemma valid2 : forall m n i j, (i < m)%nat -> (j < n)%nat -> valid [m; n] [i; j].
  Proof. intros. repeat (apply valid_cons; split; auto). constructor. Qed.

  Lemma valid2_inv : forall m n idx, valid [m; n] idx -> exists i j, idx = [i; j] /\ (i < m)%nat /\ (j < n)%nat.
  Proof.
    intros m n idx H. destruct idx as [|i [|j [|]]]; try solve [apply valid_length in H; discriminate].
    apply valid_cons in H. destruct H as [Hi H]. apply valid_cons in H. destruct H as [Hj _]. eauto.
  Qed.

  Lemma dag_laws : forall t m n, shape t = [m; n] -> wf t ->
    exists d, dag t = Ok d /\ shape d = [n; m] /\ wf d /\ dag d = Ok t /\
      forall i j, (i < n)%nat -> (j < m)%nat -> tget d [i; j] = kconj (tget t [j; i]).
  Proof.
    intros t m n S W. pose proof (tensor_eta t W) as E. rewrite S in E. rewrite E.
    eexists. split; [apply dag_2d|]. split; [reflexivity|]. split; [apply tbuild_wf|]. split.
    - rewrite dag_2d. f_equal. apply tbuild_ext. intros idx Hv. apply valid2_inv in Hv.
      destruct Hv as (i & j & -> & Hi & Hj). cbn [nth]. apply kconj_invol.
    - intros i j Hi Hj. rewrite tget_tbuild by (now apply valid2). cbn [nth]. rewrite tget_tbuild by (now apply valid2). reflexivity.
  Qed.

  Lemma dag_product : forall a b l m n, shape a = [l; m] -> shape b = [m; n] -> wf a -> wf b ->
    exists ab da db d, matmul a b = Ok ab /\ dag a = Ok da /\ dag b = Ok db /\ dag ab = Ok d /\ matmul db da = Ok d.
  Proof.
    intros a b l m n Sa Sb Wa Wb. rewrite (tensor_eta a Wa), (tensor_eta b Wb), Sa, Sb.
    generalize (tget a) (tget b). intros f g.
    do 4 eexists. split; [apply matmul_2d|]. split; [apply dag_2d|]. split; [apply dag_2d|]. split; [apply dag_2d|].
    rewrite matmul_2d. f_equal. apply tbuild_ext. intros idx Hv. cbn [nth]. rewrite bigsum_conj. apply bigsum_ext.
    intros k _. rewrite kconj_mul. ring.
  Qed.

  Lemma dag_rejects : forall t, length (shape t) <> 2%nat -> dag t = Err ValueError.
  Proof. intros t H. unfold dag, raise_if. destruct (Nat.eqb_spec (length (shape t)) 2); [contradiction|reflexivity]. Qed.
End Dag.
