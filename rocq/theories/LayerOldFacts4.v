(** Lemmas: the entangling functions of layers/qlayer.py with gate functions that return the documented matrices. *)
From Coq Require Import List ZArith Reals Lra Lia ZifyBool Bool Arith Setoid Morphisms String.
From Verif Require Import PyBase Scalar CInst BigSum Index Tensor TensorFacts Spec SpecFacts QMath QTN QOperator ExpandFacts ExpandFacts2 GateSpec QGates GateCalls GateFacts GateFacts2 RunSpec MPSSpec
  LayerSpec QLayers LayerFacts1 LayerFacts2 LayerFacts3 LayerFacts4 MPSFacts4 LayerOldSpec QLayerOld LayerOldFacts2 LayerOldFacts3.
Import ListNotations.
Local Close Scope R_scope.
Local Open Scope nat_scope.

Definition zpair (p : nat * nat) : Z * Z := (Z.of_nat (fst p), Z.of_nat (snd p)).
Definition good_pair (n : nat) (p : nat * nat) : Prop := fst p < n /\ snd p < n /\ fst p <> snd p.
Lemma turned_good : forall n b ps, Forall (good_pair n) ps -> Forall (good_pair n) (turned n b ps).
Proof.
  intros n [] ps H; [exact H|]. unfold turned. apply Forall_map. apply (Forall_impl _ (P := good_pair n)); [|exact H]. unfold good_pair. intros [c t]. cbn [fst snd]. lia.
Qed.
Lemma turned_map : forall X n (f : X -> nat * nat) l, turned n false (map f l) = map (fun x => (n - 1 - fst (f x), n - 1 - snd (f x))) l.
Proof. intros. unfold turned. now rewrite map_map. Qed.

(** ** the loops over pairs *)
Section Loop.
  Variables (n : nat) (gate : Z -> Z -> Z -> res tensor) (g : nat -> nat -> gi).
  Hypothesis HG : forall c t, good_wires n [c; t] -> gives (gate (Z.of_nat n) (Z.of_nat c) (Z.of_nat t)) n (gi_op n (g c t)).

  Lemma loop_ok : forall ps, Forall (good_pair n) ps -> gives (old_loop gate (Z.of_nat n) (map zpair ps)) n (gs_op n (pair_gates g ps)).
  Proof.
    intros ps H. unfold old_loop. rewrite Nat2Z.id, eye_op.
    assert (X : forall A, exists u, mfold (fun rst '(c, t) => do u <- gate (Z.of_nat n) c t; matmul u rst) (map zpair ps) (op_tensor n A) = Ok u /\
      is_op n u (mul_op n (gs_op n (pair_gates g ps)) A)).
    { induction H as [|[c t] ps (Hc & Ht & Hn) H IH]; intros A.
      - exists (op_tensor n A). split; [reflexivity|]. apply (is_op_ext n _ A); [apply is_op_tensor|]. symmetry. apply mul_op_id_l.
      - cbn [map mfold zpair fst snd] in *. rewrite (gives_eq _ _ _ (HG c t (good_wires_2 n c t Hc Ht Hn))). cbn [bind]. rewrite matmul_op.
        destruct (IH (mul_op n (gi_op n (g c t)) A)) as (u & E & F). exists u. split; [exact E|]. eapply is_op_ext; [exact F|].
        unfold pair_gates. cbn [map fst snd]. rewrite gs_op_cons. symmetry. apply mul_op_assoc. }
    destruct (X id_op) as (u & E & F). exists u. split; [exact E|]. eapply is_op_ext; [exact F|]. apply mul_op_id_r.
  Qed.

  Lemma pairs_ok : forall ps up down b, 2 <= n -> (n = 2 -> ps = [(0, 1)]) -> Forall (good_pair n) ps ->
    (3 <= n -> up = map zpair ps /\ down = map zpair (turned n false ps)) ->
    gives (old_pairs gate up down (Z.of_nat n) b) n (gs_op n (pair_gates g (turned n b ps))).
  Proof.
    intros ps up down b Hn H2 HF H3. unfold old_pairs, raise_if. replace (Z.of_nat n <? 2)%Z with false by lia.
    destruct (Z.eqb_spec (Z.of_nat n) 2) as [E|E].
    - assert (n = 2) by lia. specialize (H2 H). subst ps.
      destruct b; (eapply gives_ext; [|symmetry; rewrite H; apply gs_op_1]); rewrite H in HG |- *; cbn [turned map fst snd].
      + apply (HG 0 1). apply good_wires_2; lia.
      + apply (HG 1 0). apply good_wires_2; lia.
    - destruct (H3 ltac:(lia)) as [-> ->]. destruct b; apply loop_ok; [exact HF|now apply turned_good].
  Qed.
End Loop.

Lemma ring_good : forall d n, 2 <= n -> 0 < d < 3 -> Forall (good_pair n) (ring_pairs d n).
Proof.
  intros d n Hn Hd. unfold ring_pairs. destruct (n =? 2) eqn:E.
  - repeat constructor; cbn; lia.
  - apply Forall_map, Forall_forall. intros i Hi. apply in_seq in Hi. unfold good_pair. cbn [fst snd].
    pose proof (Nat.mod_upper_bound (i + d) n ltac:(lia)). split; [lia|]. split; [lia|]. intros X.
    destruct (Nat.lt_ge_cases (i + d) n) as [L|L]; [rewrite Nat.mod_small in X by lia; lia|].
    replace (i + d) with (i + d - n + 1 * n) in X by lia. rewrite Nat.mod_add in X by lia. rewrite Nat.mod_small in X by lia. lia.
Qed.
Lemma old_ring_ok : forall n gate g d b, (forall c t, good_wires n [c; t] -> gives (gate (Z.of_nat n) (Z.of_nat c) (Z.of_nat t)) n (gi_op n (g c t))) ->
  2 <= n -> 0 < d < 3 -> gives (old_ring gate (Z.of_nat d) (Z.of_nat n) b) n (gs_op n (pair_gates g (turned n b (ring_pairs d n)))).
Proof.
  intros n gate g d b HG Hn Hd. unfold old_ring. apply pairs_ok; auto.
  - intros ->. reflexivity.
  - now apply ring_good.
  - intros H3. unfold ring_pairs. replace (n =? 2) with false by lia. split.
    + rewrite LayerFacts3.zrange2_0, !map_map. apply map_ext_in. intros i _. unfold zpair. cbn [fst snd]. f_equal. rewrite Nat2Z.inj_mod. f_equal. lia.
    + rewrite turned_map, map_map. unfold zrange_down. rewrite map_map. replace (Z.to_nat (Z.of_nat n - 1 - -1)) with n by lia.
      apply map_ext_in. intros i Hi. apply in_seq in Hi. unfold zpair. cbn [fst snd]. f_equal; [lia|].
      pose proof (Nat.mod_upper_bound (i + d) n ltac:(lia)) as U. pose proof (Nat.div_mod (i + d) n ltac:(lia)) as DM.
      set (q := (i + d) mod n) in *. set (e := ((i + d) / n)) in *. symmetry. apply (Z.mod_unique_pos _ _ (- Z.of_nat e)); [lia|].
      lia.
Qed.

Lemma filter_even : forall m, filter Nat.even (seq 0 m) = map (fun k => 2 * k) (seq 0 ((m + 1) / 2)) /\ filter Nat.odd (seq 0 m) = map (fun k => 2 * k + 1) (seq 0 (m / 2)).
Proof.
  induction m as [|m [IH1 IH2]]; [split; reflexivity|]. rewrite seq_S, !filter_app, IH1, IH2, Nat.add_0_l. cbn [filter]. unfold Nat.odd.
  destruct (Nat.even m) eqn:E.
  - apply Nat.even_spec in E. destruct E as [j ->].
    replace ((2 * j + 1) / 2) with j by (rewrite Nat.add_comm, Nat.mul_comm, Nat.div_add; [reflexivity|lia]).
    replace ((S (2 * j) + 1) / 2) with (S j) by (replace (S (2 * j) + 1) with ((S j) * 2) by lia; now rewrite Nat.div_mul).
    replace (2 * j / 2) with j by (now rewrite Nat.mul_comm, Nat.div_mul). replace (S (2 * j) / 2) with j by (replace (S (2 * j)) with (1 + j * 2) by lia; now rewrite Nat.div_add by lia).
    rewrite (seq_S j 0), map_app. cbn [negb map Nat.add]. split; [reflexivity|apply app_nil_r].
  - assert (O : Nat.odd m = true) by (unfold Nat.odd; now rewrite E). apply Nat.odd_spec in O. destruct O as [j ->].
    replace ((2 * j + 1 + 1) / 2) with (S j) by (replace (2 * j + 1 + 1) with ((S j) * 2) by lia; now rewrite Nat.div_mul).
    replace ((S (2 * j + 1) + 1) / 2) with (S j) by (replace (S (2 * j + 1) + 1) with (1 + S j * 2) by lia; now rewrite Nat.div_add by lia).
    replace ((2 * j + 1) / 2) with j by (rewrite Nat.add_comm, Nat.mul_comm, Nat.div_add; [reflexivity|lia]).
    replace (S (2 * j + 1) / 2) with (S j) by (replace (S (2 * j + 1)) with ((S j) * 2) by lia; now rewrite Nat.div_mul).
    cbn [negb]. split; [apply app_nil_r|]. rewrite (seq_S j 0), map_app. reflexivity.
Qed.
Lemma nearest_good : forall n, Forall (good_pair n) (nearest_pairs n).
Proof.
  intros n. unfold nearest_pairs. apply Forall_map, Forall_forall. intros i Hi. unfold good_pair. cbn [fst snd].
  apply in_app_iff in Hi. destruct Hi as [Hi|Hi]; apply filter_In in Hi; destruct Hi as [Hi _]; apply in_seq in Hi; lia.
Qed.
Lemma old_nearest_ok : forall n gate g b, (forall c t, good_wires n [c; t] -> gives (gate (Z.of_nat n) (Z.of_nat c) (Z.of_nat t)) n (gi_op n (g c t))) ->
  2 <= n -> gives (old_nearest gate (Z.of_nat n) b) n (gs_op n (pair_gates g (turned n b (nearest_pairs n)))).
Proof.
  intros n gate g b HG Hn. unfold old_nearest. apply pairs_ok; auto.
  - intros ->. reflexivity.
  - apply nearest_good.
  - intros H3. unfold nearest_pairs. destruct (filter_even (n - 1)) as [-> ->]. unfold zrange_by.
    assert (E1 : Z.to_nat ((Z.of_nat n - 1 - 0 + 2 - 1) / 2) = (n - 1 + 1) / 2).
    { rewrite <- (Nat2Z.id ((n - 1 + 1) / 2)). f_equal. rewrite Nat2Z.inj_div. f_equal. lia. }
    assert (E2 : Z.to_nat ((Z.of_nat n - 1 - 1 + 2 - 1) / 2) = (n - 1) / 2).
    { rewrite <- (Nat2Z.id ((n - 1) / 2)). f_equal. rewrite Nat2Z.inj_div. f_equal. lia. }
    assert (E3 : Z.to_nat ((Z.of_nat n - 1 - 0 - -2 - 1) / - (-2)) = (n - 1 + 1) / 2).
    { rewrite <- E1. repeat (f_equal; try lia). }
    assert (E4 : Z.to_nat ((Z.of_nat n - 2 - 0 - -2 - 1) / - (-2)) = (n - 1) / 2).
    { rewrite <- E2. repeat (f_equal; try lia). }
    change (0 <? 2)%Z with true. change (0 <? -2)%Z with false. cbn iota. rewrite E1, E2, E3, E4.
    assert (B1 : forall k, In k (seq 0 ((n - 1 + 1) / 2)) -> 2 * k + 1 <= n - 1).
    { intros k Hk. apply in_seq in Hk. pose proof (Nat.mul_div_le (n - 1 + 1) 2 ltac:(lia)). lia. }
    assert (B2 : forall k, In k (seq 0 ((n - 1) / 2)) -> 2 * k + 2 <= n - 1).
    { intros k Hk. apply in_seq in Hk. pose proof (Nat.mul_div_le (n - 1) 2 ltac:(lia)). lia. }
    split.
    + rewrite !map_app, !map_map. f_equal; apply map_ext_in; intros k Hk; unfold zpair; cbn [fst snd]; f_equal; lia.
    + rewrite turned_map, !map_app, !map_map. f_equal; apply map_ext_in; intros k Hk; unfold zpair; cbn [fst snd];
        [specialize (B1 k Hk)|specialize (B2 k Hk)]; f_equal; lia.
Qed.

Lemma all_good : forall n, 2 <= n -> Forall (good_pair n) (all_pairs n).
Proof.
  intros n Hn. unfold all_pairs. destruct (n =? 2) eqn:E; [repeat constructor; cbn; lia|].
  apply Forall_forall. intros p Hp. apply in_flat_map in Hp. destruct Hp as (i & Hi & Hp). apply in_map_iff in Hp. destruct Hp as (j & <- & Hj).
  apply filter_In in Hj. rewrite !in_seq in *. unfold good_pair. cbn [fst snd]. lia.
Qed.
Lemma filter_map : forall X Y (f : X -> Y) p l, filter p (map f l) = map f (filter (fun x => p (f x)) l).
Proof. induction l as [|x l IH]; [reflexivity|]. cbn [map filter]. destruct (p (f x)); cbn [map]; now rewrite IH. Qed.
Lemma map_flat_map : forall X Y Z (f : Y -> Z) (h : X -> list Y) l, map f (flat_map h l) = flat_map (fun x => map f (h x)) l.
Proof. induction l as [|x l IH]; [reflexivity|]. cbn [flat_map]. now rewrite map_app, IH. Qed.
Lemma flat_map_map : forall X Y Z (f : X -> Y) (h : Y -> list Z) l, flat_map h (map f l) = flat_map (fun x => h (f x)) l.
Proof. induction l as [|x l IH]; [reflexivity|]. cbn [map flat_map]. now rewrite IH. Qed.
Lemma flat_map_ext_in : forall X Y (h k : X -> list Y) l, (forall x, In x l -> h x = k x) -> flat_map h l = flat_map k l.
Proof. induction l as [|x l IH]; intros H; [reflexivity|]. cbn [flat_map]. rewrite H by (now left). f_equal. apply IH. intros; apply H; now right. Qed.
Lemma old_all_ok : forall G n b, documented G -> 2 <= n -> gives (old_all2all G (Z.of_nat n) b) n (gs_op n (pair_gates gi_cnot (turned n b (all_pairs n)))).
Proof.
  intros G n b D Hn. unfold old_all2all. apply pairs_ok; auto using (doc_cnot G D).
  - intros ->. reflexivity.
  - now apply all_good.
  - intros H3. unfold all_pairs. replace (n =? 2) with false by lia. split.
    + rewrite LayerFacts3.zrange2_0, flat_map_map, map_flat_map. apply flat_map_ext_in. intros i _. rewrite filter_map, !map_map. f_equal.
      apply filter_ext. intros j. f_equal. lia.
    + unfold turned. rewrite !map_flat_map. unfold zrange_down. rewrite flat_map_map. replace (Z.to_nat (Z.of_nat n - 1 - -1)) with n by lia.
      apply flat_map_ext_in. intros i Hi. rewrite filter_map, !map_map.
      rewrite (filter_ext_in (fun x => negb (Z.of_nat n - 1 - Z.of_nat x =? Z.of_nat n - 1 - Z.of_nat i)%Z) (fun j => negb (j =? i))) by (intros j Hj; lia).
      apply map_ext_in. intros j Hj. apply filter_In in Hj. destruct Hj as [Hj _]. apply in_seq in Hj. apply in_seq in Hi. unfold zpair. cbn [fst snd]. f_equal; lia.
Qed.
