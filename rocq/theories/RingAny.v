(** Lemmas: rings of cnots and entangling layers on any list of wires. *)
From Coq Require Import List ZArith QArith Reals Lra Lia ZifyBool Bool Arith Ring Setoid Morphisms Permutation.
From Verif Require Import PyBase Scalar CInst BigSum Index Tensor TensorFacts Spec SpecFacts QMath QTN QOperator
  ExpandFacts ExpandFacts2 ContractFacts ContractFacts2 GateSpec QGates GateCalls GateFacts GateFacts2 GateFacts3 GateFacts4 GateFacts6 RunSpec
  MPSSpec LayerSpec QLayers LayerCalls LayerFacts1 LayerFacts2 LayerFacts3 LayerFacts4 LayerAnySpec LayerAnyCalls LayerAny LayerAny2 RingAnySpec RingAnyCalls.
Import ListNotations.
Local Close Scope Q_scope.
Local Close Scope R_scope.
Local Open Scope nat_scope.

Lemma good_pair_dec : forall n p, good_pair n p \/ ~ good_pair n p.
Proof. intros n [a b]. unfold good_pair. cbn [fst snd]. lia. Qed.
Lemma cnot_U_pair : forall n p, good_pair n p -> cnot_U (Z.of_nat n) (fst p) (snd p) = Ok (op_tensor n (gi_op n (gi_cnot (Z.to_nat (fst p)) (Z.to_nat (snd p))))).
Proof.
  intros n [a b] (H1 & H2 & H3). cbn [fst snd] in *. rewrite <- (cnot_U_ok n (Z.to_nat a) (Z.to_nat b)) by lia. now rewrite !Z2Nat.id by lia.
Qed.
Lemma cnot_U_bad : forall n p, ~ good_pair n p -> cnot_U (Z.of_nat n) (fst p) (snd p) = Err ValueError.
Proof.
  intros n [a b] H. unfold good_pair in H. cbn [fst snd] in *. unfold cnot_U, cnot. cbn [bind]. unfold U_expand. cbn [g_cls]. unfold ctrl_U_expand. cbn [g_N g_wires g_umatrix].
  unfold unset. cbn [wires_unset]. replace (Z.of_nat n =? -1)%Z with false by lia. cbn [orb raise_if].
  change (wire_at (WList [a; b]) 0) with (Ok a). change (wire_at (WList [a; b]) 1) with (Ok b). cbn [bind]. unfold two_qubit_control_gate.
  destruct (Z.of_nat n <? 1)%Z; [reflexivity|]. destruct (Z.of_nat n - 1 <? Z.max a b)%Z eqn:E1; [reflexivity|]. destruct (Z.min a b <? 0)%Z eqn:E2; [reflexivity|].
  destruct (a =? b)%Z eqn:E3; [reflexivity|]. exfalso. apply H. lia.
Qed.

(** the pairs by index *)
Definition pair_at (d : nat) (zs : list Z) (i : nat) : Z * Z := (nth i zs 0%Z, nth ((i + d) mod length zs) zs 0%Z).
Lemma pairs_at : forall d zs, length zs <> 2 -> pairs d zs = map (pair_at d zs) (seq 0 (length zs)).
Proof. intros d [|a [|b [|c zs]]] H; try reflexivity. now elim H. Qed.
Lemma pair_nth : forall d zs i A (k : Z -> Z -> res A), i < length zs ->
  (do a <- py_nth zs (Z.of_nat i); do b <- py_nth zs (Z.of_nat ((i + d) mod length zs)); k a b) = k (fst (pair_at d zs i)) (snd (pair_at d zs i)).
Proof.
  intros d zs i A k Hi. rewrite (py_nth_nat _ zs i 0%Z) by exact Hi. cbn [bind]. rewrite (py_nth_nat _ zs _ 0%Z) by (apply Nat.mod_upper_bound; lia). reflexivity.
Qed.
Lemma cnots_gates : forall l, cnots (map (fun p : Z * Z => p) l) = cnots l.
Proof. intros. now rewrite map_id. Qed.

Section Product.
  Variables (n d : nat) (zs : list Z).
  Let L := length zs.
  Let stepL := fun (rst : tensor (SC := C_scalar)) i => do a <- py_nth zs (Z.of_nat i); do b <- py_nth zs (Z.of_nat ((i + d) mod L)); do u <- cnot_U (Z.of_nat n) a b; matmul u rst.
  Let stepR := fun (rst : tensor (SC := C_scalar)) i => do a <- py_nth zs (Z.of_nat i); do b <- py_nth zs (Z.of_nat ((i + d) mod L)); do u <- cnot_U (Z.of_nat n) a b; matmul rst u.
  Lemma product_good : forall is gs, (forall i, In i is -> i < L /\ good_pair n (pair_at d zs i)) ->
    mfold stepL is (op_tensor n (gs_op n gs)) = Ok (op_tensor n (gs_op n (gs ++ cnots (map (pair_at d zs) is)))) /\
    mfold stepR is (op_tensor n (gs_op n gs)) = Ok (op_tensor n (gs_op n (rev (cnots (map (pair_at d zs) is)) ++ gs))).
  Proof.
    induction is as [|i is IH]; intros gs H; [cbn [mfold map cnots rev]; now rewrite app_nil_r|]. destruct (H i (or_introl eq_refl)) as [Hi G].
    pose proof (fun gs => IH gs (fun j Hj => H j (or_intror Hj))) as IH'. clear IH. cbn [mfold map cnots rev]. split.
    - unfold stepL at 1. unfold L. rewrite (pair_nth d zs i _ (fun a b => do u <- cnot_U (Z.of_nat n) a b; matmul u _)) by exact Hi.
      rewrite cnot_U_pair by exact G. cbn [bind]. rewrite matmul_snoc. cbn [bind]. rewrite (proj1 (IH' _)). now rewrite <- app_assoc.
    - unfold stepR at 1. unfold L. rewrite (pair_nth d zs i _ (fun a b => do u <- cnot_U (Z.of_nat n) a b; matmul _ u)) by exact Hi.
      rewrite cnot_U_pair by exact G. cbn [bind]. rewrite matmul_cons. cbn [bind]. rewrite (proj2 (IH' _)). now rewrite <- app_assoc.
  Qed.
  Lemma product_bad : forall is A, (forall i, In i is -> i < L) -> (exists i, In i is /\ ~ good_pair n (pair_at d zs i)) ->
    mfold stepL is (op_tensor n A) = Err ValueError /\ mfold stepR is (op_tensor n A) = Err ValueError.
  Proof.
    induction is as [|i is IH]; intros A H (j & Hj & B); [destruct Hj|]. cbn [mfold]. destruct (good_pair_dec n (pair_at d zs i)) as [G|G].
    - assert (X : exists i, In i is /\ ~ good_pair n (pair_at d zs i)). { exists j. split; [|exact B]. destruct Hj as [->|Hj]; [contradiction|exact Hj]. }
      pose proof (fun A => IH A (fun j Hj => H j (or_intror Hj)) X) as IH'. split.
      + unfold stepL at 1. unfold L. rewrite (pair_nth d zs i _ (fun a b => do u <- cnot_U (Z.of_nat n) a b; matmul u _)) by (apply H; now left).
        rewrite cnot_U_pair by exact G. cbn [bind]. rewrite matmul_op. cbn [bind]. apply (proj1 (IH' _)).
      + unfold stepR at 1. unfold L. rewrite (pair_nth d zs i _ (fun a b => do u <- cnot_U (Z.of_nat n) a b; matmul _ u)) by (apply H; now left).
        rewrite cnot_U_pair by exact G. cbn [bind]. rewrite matmul_op. cbn [bind]. apply (proj2 (IH' _)).
    - split.
      + unfold stepL at 1. unfold L. rewrite (pair_nth d zs i _ (fun a b => do u <- cnot_U (Z.of_nat n) a b; matmul u _)) by (apply H; now left). now rewrite cnot_U_bad by exact G.
      + unfold stepR at 1. unfold L. rewrite (pair_nth d zs i _ (fun a b => do u <- cnot_U (Z.of_nat n) a b; matmul _ u)) by (apply H; now left). now rewrite cnot_U_bad by exact G.
  Qed.
End Product.

Lemma is_range_zs : forall n zs, is_range (mkR (Z.of_nat n) zs) = true -> zs = map Z.of_nat (seq 0 n).
Proof. intros n zs. unfold is_range. cbn [r_wires r_N]. rewrite Nat2Z.id. destruct list_eq_dec as [E|E]; [intros _; exact E|discriminate]. Qed.
Lemma range_pairs : forall n d, cnots (map (pair_at d (map Z.of_nat (seq 0 n))) (seq 0 n)) = ring_list d (seq 0 n).
Proof.
  intros n d. unfold cnots, ring_list. rewrite seq_length, map_map. apply map_ext_in. intros i Hi. apply in_seq in Hi. unfold pair_at. cbn [fst snd].
  rewrite map_length, seq_length. change 0%Z with (Z.of_nat 0). rewrite !map_nth, !Nat2Z.id. reflexivity.
Qed.
Lemma range_good : forall n d i, 0 < d -> d < n -> i < n -> good_pair n (pair_at d (map Z.of_nat (seq 0 n)) i).
Proof.
  intros n d i Hd Hn Hi. unfold pair_at, good_pair. cbn [fst snd]. rewrite map_length, seq_length. change 0%Z with (Z.of_nat 0). rewrite !map_nth.
  destruct (mod_next i d n Hi Hd Hn) as [M1 M2]. rewrite !seq_nth by auto. cbn [plus]. lia.
Qed.

Definition fusion_of (k : ring_kind) : Z -> res (tensor (SC := C_scalar)) := match k with RK => ring_fusion | RKdag => ring_dag_fusion | RK2 => ring2_fusion end.
Definition ring_layer (k : ring_kind) (r : ring) : layer := match k with RK => LRing r | RKdag => LRingDag r | RK2 => LRing2 r end.
Lemma ring_build_ok : forall k n zs, 2 <= length zs -> length zs <= n -> ring_build k n zs = Ok (ring_layer k (mkR (Z.of_nat n) zs)).
Proof.
  intros k n zs H1 H2. unfold ring_build, new_ring, raise_if. replace (Z.of_nat n <? Z.of_nat (length zs))%Z with false by lia. replace (length zs <? 2) with false by lia. reflexivity.
Qed.
Lemma ring_two_zs : forall n a b, ring_two (mkR (Z.of_nat n) [a; b]) = cnot_U (Z.of_nat n) a b.
Proof. reflexivity. Qed.

Lemma ring_any_ok : forall k n zs, 2 <= length zs -> length zs <= n -> Forall (good_pair n) (pairs (step_of k) zs) ->
  layer_U (ring_layer k (mkR (Z.of_nat n) zs)) = Ok (op_tensor n (gs_op n (ring_seq k zs))).
Proof.
  intros k n zs H1 H2 HG. destruct (Nat.eq_dec (length zs) 2) as [E|E].
  - destruct zs as [|a [|b [|c zs]]]; try discriminate. cbn [pairs] in HG. inversion HG as [|p l G _]. subst p l.
    assert (X : cnot_U (Z.of_nat n) a b = Ok (op_tensor n (gs_op n [gi_cnot (Z.to_nat a) (Z.to_nat b)]))).
    { pose proof (cnot_U_pair n (a, b) G) as X. cbn [fst snd] in X. rewrite X. f_equal. apply op_tensor_ext. symmetry. apply gs_op_1. }
    destruct k; exact X.
  - rewrite (pairs_at _ zs E) in HG. rewrite Forall_forall in HG.
    assert (G : forall i, In i (seq 0 (length zs)) -> i < length zs /\ good_pair n (pair_at (step_of k) zs i)).
    { intros i Hi. split; [apply in_seq in Hi; lia|]. apply HG. now apply in_map. }
    assert (RS : ring_seq k zs = match k with RKdag => rev (cnots (map (pair_at 1 zs) (seq 0 (length zs)))) | _ => cnots (map (pair_at (step_of k) zs) (seq 0 (length zs))) end).
    { destruct k; cbn [ring_seq step_of]; now rewrite pairs_at. }
    rewrite RS. destruct (is_range (mkR (Z.of_nat n) zs)) eqn:R.
    + pose proof (is_range_zs n zs R) as Z. assert (L : length zs = n) by (rewrite Z, map_length; apply seq_length). assert (N3 : 3 <= n) by lia.
      assert (F : layer_U (ring_layer k (mkR (Z.of_nat n) zs)) = fusion_of k (Z.of_nat n)).
      { destruct k; cbn [ring_layer layer_U fusion_of]; unfold ring_U, ring_dag_U, ring2_U; cbn [r_wires r_N]; replace (length zs =? 2) with false by lia; now rewrite R. }
      rewrite F, L, Z. destruct k; cbn [fusion_of step_of]; rewrite range_pairs; [now apply ring_fusion_ok|now apply ring_dag_fusion_ok|now apply ring2_fusion_ok].
    + pose proof (product_good n (step_of k) zs (seq 0 (length zs)) [] G) as [P1 P2]. cbn [app] in P1. rewrite app_nil_r in P2.
      destruct k; cbn [ring_layer layer_U step_of] in *; unfold ring_U, ring_dag_U, ring2_U; cbn [r_wires r_N]; replace (length zs =? 2) with false by lia; rewrite R;
        unfold ring_product, ring_dag_product; cbn [r_wires r_N]; rewrite Nat2Z.id, eye_op; [exact P1|exact P2|exact P1].
Qed.
Lemma ring_any_bad : forall k n zs, 2 <= length zs -> length zs <= n -> Exists (fun p => ~ good_pair n p) (pairs (step_of k) zs) ->
  layer_U (ring_layer k (mkR (Z.of_nat n) zs)) = Err ValueError.
Proof.
  intros k n zs H1 H2 HB. destruct (Nat.eq_dec (length zs) 2) as [E|E].
  - destruct zs as [|a [|b [|c zs]]]; try discriminate. cbn [pairs] in HB. inversion HB as [p l B|p l B]; [|inversion B]. subst p l. 
    pose proof (cnot_U_bad n (a, b) B) as X. destruct k; exact X.
  - rewrite (pairs_at _ zs E) in HB. apply Exists_exists in HB. destruct HB as (p & Hp & B). apply in_map_iff in Hp. destruct Hp as (i & <- & Hi).
    assert (R : is_range (mkR (Z.of_nat n) zs) = false).
    { destruct is_range eqn:R; [|reflexivity]. exfalso. apply B. pose proof (is_range_zs n zs R) as Z. assert (L : length zs = n) by (rewrite Z, map_length; apply seq_length).
      apply in_seq in Hi. rewrite Z. apply range_good; destruct k; cbn [step_of]; lia. }
    pose proof (product_bad n (step_of k) zs (seq 0 (length zs)) id_op ltac:(intros j Hj; apply in_seq in Hj; lia) (ex_intro _ i (conj Hi B))) as [P1 P2].
    destruct k; cbn [ring_layer layer_U step_of] in *; unfold ring_U, ring_dag_U, ring2_U; cbn [r_wires r_N]; replace (length zs =? 2) with false by lia; rewrite R;
      unfold ring_product, ring_dag_product; cbn [r_wires r_N]; rewrite Nat2Z.id, eye_op; [exact P1|exact P2|exact P1].
Qed.
Lemma cnots_ok : forall n l, Forall (good_pair n) l -> Forall (gi_ok n) (cnots l).
Proof. intros n l H. unfold cnots. induction H as [|[a b] l (G1 & G2 & G3) H IH]; cbn [map fst snd] in *; constructor; [apply cnot_okb; lia|exact IH]. Qed.
Lemma cnots_inv : forall l, map gi_inv (cnots l) = cnots l.
Proof. intros l. unfold cnots. rewrite map_map. reflexivity. Qed.

(** the statements *)
Lemma ring_any : forall k n zs, 2 <= length zs -> length zs <= n ->
  exists o, ring_build k n zs = Ok o /\
    (Forall (good_pair n) (pairs (step_of k) zs) -> exists u, layer_U o = Ok u /\ is_op n u (gs_op n (ring_seq k zs))) /\
    (Exists (fun p => ~ good_pair n p) (pairs (step_of k) zs) -> layer_U o = Err ValueError).
Proof.
  intros k n zs H1 H2. eexists. split; [now apply ring_build_ok|]. split.
  - intros G. eexists. split; [now apply ring_any_ok|apply is_op_tensor].
  - now apply ring_any_bad.
Qed.
Lemma ring_any_undo : forall k n zs, k <> RK2 -> 2 <= length zs -> length zs <= n -> Forall (good_pair n) (pairs 1 zs) ->
  exists o od u ud, ring_build k n zs = Ok o /\ layer_dagger o = Ok (Some od) /\ layer_U o = Ok u /\ layer_U od = Ok ud /\ is_op n ud (adj_op (op_of u)).
Proof.
  intros k n zs Hk H1 H2 G. set (k' := match k with RK => RKdag | _ => RK end).
  exists (ring_layer k (mkR (Z.of_nat n) zs)), (ring_layer k' (mkR (Z.of_nat n) zs)). do 2 eexists. split; [now apply ring_build_ok|]. split.
  { destruct k; [| |now elim Hk]; cbn [ring_layer layer_dagger k' r_N r_wires]; unfold new_ring, raise_if;
      replace (Z.of_nat n <? Z.of_nat (length zs))%Z with false by lia; replace (length zs <? 2) with false by lia; reflexivity. }
  split; [apply ring_any_ok; auto; destruct k; [exact G|exact G|now elim Hk]|]. split; [apply ring_any_ok; auto; destruct k; exact G|].
  eapply is_op_ext; [apply is_op_tensor|]. rewrite (proj2 (proj2 (is_op_tensor n (gs_op n (ring_seq k zs))))). pose proof (cnots_ok n _ G) as OK.
  rewrite <- gs_op_rev_inv by (destruct k; cbn [ring_seq step_of]; [exact OK|now apply Forall_rev|now elim Hk]).
  destruct k; [| |now elim Hk]; cbn [ring_seq k' step_of]; rewrite map_rev, ?map_rev, cnots_inv, ?rev_involutive; reflexivity.
Qed.
Lemma ring_any_TN : forall k n zs, k <> RK2 -> 2 <= length zs -> length zs <= n -> zs <> map Z.of_nat (seq 0 n) ->
  exists o, ring_build k n zs = Ok o /\ (forall t b, layer_TN_contract o t b = Err ValueError) /\ (forall svd m, layer_TN_operation svd o m = Err ValueError).
Proof.
  intros k n zs Hk H1 H2 NE. eexists. split; [now apply ring_build_ok|].
  assert (R : is_range (mkR (Z.of_nat n) zs) = false). { destruct is_range eqn:R; [|reflexivity]. now apply is_range_zs in R. }
  destruct k; [| |now elim Hk]; cbn [ring_layer layer_TN_contract layer_TN_operation]; unfold ring_TN_contract, ring_TN_operation, ring_dag_TN_contract, ring_dag_TN_operation; rewrite R; repeat split.
Qed.

(** * BasicEntangleLayer *)
Definition zslice (zs : list Z) (ps : list R) (i : nat) : list R := pslice ps (i * (3 * length zs)) ((i + 1) * (3 * length zs)).
Definition zbasic (n rep : nat) (zs : list Z) (ps : list R) : basic :=
  mkB (Z.of_nat n) zs ps (Z.of_nat rep) (map (fun i => sg_obj n (sg_rot KYZY (zslice zs ps i)) zs) (seq 0 rep)) (map (fun _ => mkR (Z.of_nat n) zs) (seq 0 rep)).
Lemma zslice_length : forall zs ps rep i, length ps = 3 * length zs * rep -> i < rep -> length (zslice zs ps i) = 3 * length zs.
Proof. intros zs ps rep i H Hi. unfold zslice, pslice. rewrite firstn_length, skipn_length. nia. Qed.
Lemma zbasic_ok : forall n rep zs ps, 2 <= length zs -> length zs <= n -> 1 <= rep -> length ps = 3 * length zs * rep -> basic_build n zs ps rep = Ok (LBasic (zbasic n rep zs ps)).
Proof.
  intros n rep zs ps H1 H2 Hr HL. unfold basic_build, new_basic, raise_if.
  replace (3 * Z.of_nat (length zs) * Z.of_nat rep =? Z.of_nat (length ps))%Z with true by nia. cbn [negb].
  replace (Z.of_nat n <? Z.of_nat (length zs))%Z with false by lia. replace (length zs <? 2) with false by lia. replace (Z.of_nat rep <? 1)%Z with false by lia.
  assert (X : basic_parts (Z.of_nat n) zs ps (Z.of_nat rep) = Ok (b_part1 (zbasic n rep zs ps), b_part2 (zbasic n rep zs ps))).
  { unfold basic_parts. rewrite Nat2Z.id. cbn [zbasic b_part1 b_part2].
    assert (X : forall j, j <= rep -> mfold (fun (ps0 : list slayer * list ring) i =>
        do y <- new_slayer YZYLayer (Z.of_nat n) zs (pslice ps (i * (3 * length zs)) ((i + 1) * (3 * length zs)));
        do c <- new_ring (Z.of_nat n) zs; Ok (fst ps0 ++ [y], snd ps0 ++ [c])) (seq 0 j) ([], [])
      = Ok (map (fun i => sg_obj n (sg_rot KYZY (zslice zs ps i)) zs) (seq 0 j), map (fun _ => mkR (Z.of_nat n) zs) (seq 0 j))).
    { induction j as [|j IH]; intros Hj; [reflexivity|]. rewrite seq_S, mfold_app, IH by lia. cbn [bind mfold plus].
      fold (zslice zs ps j). pose proof (zslice_length zs ps rep j HL Hj) as SL.
      unfold new_slayer, new_ring, raise_if. cbn [per_wire]. replace (3 * length zs =? length (zslice zs ps j)) with true by lia. cbn [negb].
      replace (Z.of_nat n <? Z.of_nat (length zs))%Z with false by lia. replace (length zs <? 2) with false by lia. cbn [bind fst snd]. now rewrite !map_app. }
    apply X. lia. }
  rewrite X. reflexivity.
Qed.
Lemma sg_gates_firstn : forall k ps K L, length (kind_axes k) * L <= K -> sg_gates (sg_rot k (firstn K ps)) L = sg_gates (sg_rot k ps) L.
Proof.
  intros k ps K L H. unfold sg_gates. apply map_ext_in. intros i Hi. apply in_seq in Hi. cbn [sg_gate]. f_equal. rewrite skipn_firstn_comm. apply combine_firstn_l. nia.
Qed.
Definition eblock (n : nat) (zs : list Z) (ps : list R) (i : nat) : qop :=
  mul_op n (gs_op n (ring_seq RK zs)) (each_qubit n (last_gate (map (qubit n) zs) (sg_gates (sg_rot KYZY (skipn (i * (3 * length zs)) ps)) (length zs)))).
Lemma entangle_snoc : forall n zs rep ps, op_eq n (entangle_op n (S rep) zs ps) (mul_op n (eblock n zs ps rep) (entangle_op n rep zs ps)).
Proof.
  intros n zs. induction rep as [|rep IH]; intros ps.
  - cbn [entangle_op]. rewrite mul_op_id_l, mul_op_id_r. reflexivity.
  - change (entangle_op n (S (S rep)) zs ps) with (mul_op n (entangle_op n (S rep) zs (skipn (3 * length zs) ps)) (eblock n zs ps 0)).
    rewrite IH. rewrite mul_op_assoc. apply mul_op_proper; [|reflexivity]. unfold eblock. rewrite skipn_skipn'.
    replace (3 * length zs + rep * (3 * length zs)) with (S rep * (3 * length zs)) by lia. reflexivity.
Qed.
Lemma pairs_register : forall n zs, Forall (good_pair n) (pairs 1 zs) -> 2 <= length zs -> forall z, In z zs -> in_register n z.
Proof.
  intros n zs G H z Hz. unfold in_register. destruct (Nat.eq_dec (length zs) 2) as [E|E].
  - destruct zs as [|a [|b [|c zs]]]; try discriminate. inversion G as [|p l (G1 & G2 & G3) _]. cbn [fst snd] in *. destruct Hz as [<-|[<-|[]]]; lia.
  - rewrite pairs_at in G by exact E. rewrite Forall_forall in G. destruct (In_nth zs z 0%Z Hz) as (i & Hi & E').
    destruct (G (pair_at 1 zs i)) as (G1 & _). { apply in_map, in_seq. lia. } unfold pair_at in G1. cbn [fst] in G1. lia.
Qed.
Lemma zring0 : forall n rep zs ps, 1 <= rep -> py_nth (b_part2 (zbasic n rep zs ps)) 0 = Ok (mkR (Z.of_nat n) zs).
Proof.
  intros n rep zs ps Hr. cbn [zbasic b_part2]. change 0%Z with (Z.of_nat 0). rewrite (py_nth_nat _ _ 0 (mkR (Z.of_nat n) zs)) by (rewrite map_length, seq_length; lia).
  now rewrite (map_nth (fun _ : nat => mkR (Z.of_nat n) zs) (seq 0 rep) 0 0).
Qed.
Lemma basic_any : forall n zs ps rep, 2 <= length zs -> length zs <= n -> 1 <= rep -> length ps = 3 * length zs * rep ->
  exists o, basic_build n zs ps rep = Ok o /\
    (Forall (good_pair n) (pairs 1 zs) -> exists u, layer_U o = Ok u /\ is_op n u (entangle_op n rep zs ps)) /\
    (Exists (fun p => ~ good_pair n p) (pairs 1 zs) -> layer_U o = Err ValueError).
Proof.
  intros n zs ps rep H1 H2 Hr HL. exists (LBasic (zbasic n rep zs ps)). split; [now apply zbasic_ok|]. cbn [layer_U]. unfold basic_U. rewrite zring0 by exact Hr. cbn [bind]. split.
  - intros G. pose proof (ring_any_ok RK n zs H1 H2 G) as RU. cbn [ring_layer layer_U] in RU. rewrite RU. cbn [bind zbasic b_part1 b_repeat b_N]. rewrite !Nat2Z.id, eye_op.
    exists (op_tensor n (entangle_op n rep zs ps)). split; [|apply is_op_tensor].
    assert (X : forall j, j <= rep -> mfold (fun rst i => do p <- py_nth (map (fun i => sg_obj n (sg_rot KYZY (zslice zs ps i)) zs) (seq 0 rep)) (Z.of_nat i);
        do u <- slayer_U p; do a <- matmul (op_tensor n (gs_op n (ring_seq RK zs))) u; matmul a rst) (seq 0 j) (op_tensor n id_op) = Ok (op_tensor n (entangle_op n j zs ps))).
    { induction j as [|j IH]; intros Hj; [reflexivity|]. rewrite seq_S, mfold_app, IH by lia. cbn [bind mfold plus].
      rewrite (py_nth_nat _ _ j (sg_obj n (sg_rot KYZY (zslice zs ps 0)) zs)) by (rewrite map_length, seq_length; lia).
      rewrite (map_nth (fun i => sg_obj n (sg_rot KYZY (zslice zs ps i)) zs)), seq_nth by lia. cbn [bind plus].
      destruct (layer_any_wires n (sg_rot KYZY (zslice zs ps j)) zs) as (o & u & E1 & E2 & M & _); [exact (zslice_length zs ps rep j HL Hj)|exact H2|lia|now apply pairs_register|].
      rewrite sg_build_ok in E1 by (first [exact (zslice_length zs ps rep j HL Hj)|exact H2]). injection E1 as <-. cbn [layer_U] in E2. rewrite E2. cbn [bind].
      apply is_op_eq in M. rewrite M, matmul_op. cbn [bind]. rewrite matmul_op. cbn [bind]. f_equal. apply op_tensor_ext. rewrite entangle_snoc. apply mul_op_proper; [|reflexivity].
      unfold eblock. apply mul_op_proper; [reflexivity|]. unfold zslice, pslice. rewrite sg_gates_firstn; [reflexivity|]. cbn [kind_axes length]. nia. }
    apply X. lia.
  - intros B. pose proof (ring_any_bad RK n zs H1 H2 B) as RU. cbn [ring_layer layer_U] in RU. now rewrite RU.
Qed.
