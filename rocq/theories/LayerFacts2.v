(** Lemmas: rings of cnots as full matrices. *)
From Coq Require Import List ZArith QArith Reals Lra Lia ZifyBool Bool Arith Ring Setoid Morphisms.
From Verif Require Import PyBase Scalar CInst BigSum Index Tensor TensorFacts Spec SpecFacts QMath QTN QOperator
  ExpandFacts ExpandFacts2 ContractFacts ContractFacts2 GateSpec QGates GateCalls GateFacts GateFacts2 GateFacts3 GateFacts4 RunSpec
  MPSSpec MPSFacts1 MPSFacts2 MPSFacts4 MPSFacts5 MPSFacts6 MPSFacts8 MPSFacts9 LayerSpec QLayers LayerCalls LayerFacts1.
Import ListNotations.
Local Close Scope Q_scope.
Local Close Scope R_scope.
Local Open Scope nat_scope.

Section Generic.
  Context {SC : Scalar}.
  Add Ring KR : k_ring.
  Local Open Scope k_scope.

  Lemma rd_seq : forall m r, (m <= length r)%nat -> rd r (seq 0 m) = firstn m r.
  Proof.
    intros m r H. unfold rd. apply nth_ext with (d := 0%nat) (d' := 0%nat).
    - rewrite map_length, seq_length, firstn_length. lia.
    - intros i Hi. rewrite map_length, seq_length in Hi. rewrite (nth_indep _ 0%nat (nth 0 r 0%nat)) by (now rewrite map_length, seq_length).
      rewrite (map_nth (fun w => nth w r 0%nat)), seq_nth by auto. cbn [plus]. rewrite <- (firstn_skipn m r) at 1. rewrite app_nth1; auto.
      rewrite firstn_length. lia.
  Qed.

  Lemma same_off_seq : forall m r c, length r = S m -> length c = S m ->
    same_off (seq 0 m) r c = if list_eq_dec Nat.eq_dec (skipn m r) (skipn m c) then true else false.
  Proof.
    intros m r c Lr Lc.
    assert (X : skipn m r = skipn m c <-> nth m r 0%nat = nth m c 0%nat).
    { rewrite (skipn_nth _ m r 0%nat), (skipn_nth _ m c 0%nat) by lia. rewrite (skipn_all2 r), (skipn_all2 c) by lia. split; [congruence|now intros ->]. }
    destruct (list_eq_dec Nat.eq_dec (skipn m r) (skipn m c)) as [E|E].
    - apply (same_off_spec (S m)); auto. intros i Hi HN. assert (i = m) as ->; [|now apply X].
      destruct (Nat.eq_dec i m); auto. exfalso. apply HN. apply in_seq. lia.
    - apply not_true_iff_false. intros H. apply E, X. apply (proj1 (same_off_spec (S m) _ _ _ Lr) H m); [lia|]. rewrite in_seq. lia.
  Qed.

  Lemma good_seq : forall m n, (m <= n)%nat -> good_wires n (seq 0 m).
  Proof. intros m n H. split; [apply seq_NoDup|]. intros w Hw. apply in_seq in Hw. lia. Qed.

  Lemma kron_eye : forall m A, kron (op_tensor m A) (eye 2) = op_tensor (S m) (lift A (seq 0 m)).
  Proof.
    intros m A. change 2%nat with (2 ^ 1)%nat. rewrite eye_op, kron_op. rewrite Nat.add_1_r. apply op_tensor_ext.
    intros r c Hr Hc. apply bits_length in Hr, Hc. unfold lift. rewrite same_off_seq by auto. rewrite !rd_seq by lia.
    unfold id_op. destruct (list_eq_dec Nat.eq_dec (skipn m r) (skipn m c)); ring.
  Qed.

  Lemma map_nth_seq_id : forall m ws, (forall w, In w ws -> w < m)%nat -> map (fun v => nth v (seq 0 m) 0%nat) ws = ws.
  Proof. intros m ws H. rewrite <- (map_id ws) at 2. apply map_ext_in. intros v Hv. now rewrite seq_nth by auto. Qed.

  Lemma swap_conj : forall n a b A, (a < n)%nat -> (b < n)%nat ->
    op_eq n (mul_op n (swap_op a b) (mul_op n A (swap_op a b))) (fun r c => A (swapped a b r) (swapped a b c)).
  Proof.
    intros n a b A Ha Hb r c Hr Hc. pose proof (bits_length _ _ Hr) as Lr. pose proof (bits_length _ _ Hc) as Lc. unfold mul_op at 1.
    rewrite (bigsum_single _ _ (swapped a b r)); [|apply bits_NoDup|now apply swapped_in_bits|].
    - unfold swap_op at 1. rewrite swapped_invol, id_op_refl by lia. unfold mul_op.
      rewrite (bigsum_single _ _ (swapped a b c)); [|apply bits_NoDup|now apply swapped_in_bits|].
      + unfold swap_op. rewrite id_op_refl. ring.
      + intros x Hx Hne. unfold swap_op. rewrite (id_op_ne x) by auto. ring.
    - intros x Hx Hne. unfold swap_op at 1. rewrite (id_op_ne r); [ring|]. intros E. apply Hne. rewrite E, swapped_invol; auto; apply bits_length in Hx; lia.
  Qed.

  Definition trp (a b k : nat) : nat := if (k =? b)%nat then a else if (k =? a)%nat then b else k.
  Lemma swap_conj_lift : forall n a b A ws, (a < n)%nat -> (b < n)%nat -> good_wires n ws ->
    op_eq n (mul_op n (swap_op a b) (mul_op n (lift A ws) (swap_op a b))) (lift A (map (trp a b) ws)).
  Proof.
    intros n a b A ws Ha Hb [HN HW]. rewrite swap_conj by auto. intros r c Hr Hc. unfold lift.
    pose proof (bits_length _ _ Hr) as Lr. pose proof (bits_length _ _ Hc) as Lc.
    assert (N : forall x k, length x = n -> nth k (swapped a b x) 0%nat = nth (trp a b k) x 0%nat).
    { intros x k L. rewrite nth_swapped by lia. unfold trp. destruct (k =? b)%nat, (k =? a)%nat; auto. }
    assert (R : forall x, length x = n -> rd (swapped a b x) ws = rd x (map (trp a b) ws)).
    { intros x L. unfold rd. rewrite map_map. apply map_ext. intros k. now apply N. }
    rewrite !R by auto.
    assert (T : forall k, trp a b (trp a b k) = k).
    { intros k. unfold trp. destruct (k =? b)%nat eqn:E1, (k =? a)%nat eqn:E2; try (rewrite ?E1, ?E2; lia).
      - destruct (a =? b)%nat eqn:E3; lia.
      - destruct (a =? b)%nat eqn:E3; [lia|]. rewrite Nat.eqb_refl. lia.
      - rewrite Nat.eqb_refl. lia. }
    assert (TL : forall k, (k < n)%nat -> (trp a b k < n)%nat). { intros k Hk. unfold trp. destruct (k =? b)%nat, (k =? a)%nat; auto. }
    assert (S : same_off ws (swapped a b r) (swapped a b c) = same_off (map (trp a b) ws) r c).
    { apply eq_true_iff_eq. rewrite (same_off_spec n), (same_off_spec n) by (rewrite ?swapped_length; auto). split.
      - intros H i Hi Hni. specialize (H (trp a b i)). rewrite !N, !T in H by auto. apply H; [auto|]. intros X. apply Hni. apply in_map_iff. exists (trp a b i). auto.
      - intros H i Hi Hni. rewrite !N by auto. apply H; [auto|]. intros X. apply in_map_iff in X. destruct X as (j & E & Hj). apply Hni.
        rewrite <- (T i), <- E, T. exact Hj. }
    now rewrite S.
  Qed.
End Generic.

(** * Gates on a larger register *)
Lemma gi_ok_S : forall m g, gi_ok m g -> gi_ok (S m) g.
Proof.
  intros m g [[H1 H2] X]. split; [|exact X]. split; auto. intros w Hw. apply H2 in Hw. lia.
Qed.
Lemma gi_op_ext : forall m g, gi_ok m g -> op_eq (S m) (lift (gi_op m g) (seq 0 m)) (gi_op (S m) g).
Proof.
  intros m g H. rewrite (gi_op_lift (S m) g (gi_ok_S m g H)).
  transitivity (lift (lift (gi_loc g) (gi_wires g)) (seq 0 m)).
  - apply lift_ext. { intros w Hw. apply in_seq in Hw. lia. } rewrite seq_length. now apply gi_op_lift.
  - destruct H as [[H1 H2] _]. rewrite lift_lift.
    + now rewrite map_nth_seq_id.
    + apply good_seq. lia.
    + intros v Hv. rewrite seq_length. auto.
Qed.
Lemma gs_op_ext : forall m gs, Forall (gi_ok m) gs -> op_eq (S m) (lift (gs_op m gs) (seq 0 m)) (gs_op (S m) gs).
Proof.
  intros m gs H. assert (W : good_wires (S m) (seq 0 m)) by (apply good_seq; lia). induction H as [|g gs H HF IH].
  - now rewrite (lift_id (S m) (seq 0 m)).
  - transitivity (lift (mul_op m (gs_op m gs) (gi_op m g)) (seq 0 m)).
    + apply lift_ext. { intros w Hw. apply in_seq in Hw. lia. } rewrite seq_length. apply gs_op_cons.
    + rewrite gs_op_cons, <- IH, <- gi_op_ext by auto. symmetry. pose proof (lift_mul (S m) (seq 0 m) (gs_op m gs) (gi_op m g) W) as X.
      rewrite seq_length in X. exact X.
Qed.
Lemma kron_gs : forall m gs, Forall (gi_ok m) gs -> kron (op_tensor m (gs_op m gs)) (eye 2) = op_tensor (S m) (gs_op (S m) gs).
Proof. intros m gs H. rewrite kron_eye. apply op_tensor_ext. now apply gs_op_ext. Qed.

(** * cnots *)
Lemma cnot_okb : forall n a b, a < n -> b < n -> a <> b -> gi_ok n (gi_cnot a b).
Proof. intros n a b Ha Hb N. split; [|exact I]. now apply good_wires_2. Qed.
Lemma swap_okb : forall n a b, a < n -> b < n -> a <> b -> gi_ok n (gi_swap a b).
Proof. intros n a b Ha Hb N. split; [|exact I]. now apply good_wires_2. Qed.
Lemma cnot_U_ok : forall n a b, a < n -> b < n -> a <> b ->
  cnot_U (Z.of_nat n) (Z.of_nat a) (Z.of_nat b) = Ok (op_tensor n (gi_op n (gi_cnot a b))).
Proof.
  intros n a b Ha Hb N. unfold cnot_U. change (cnot (Z.of_nat n) (WList [Z.of_nat a; Z.of_nat b])) with (build n (gi_cnot a b)).
  rewrite build_ok. cbn [bind]. apply U_expand_obj. now apply cnot_okb.
Qed.

Lemma matmul_snoc : forall n g gs, matmul (op_tensor n (gi_op n g)) (op_tensor n (gs_op n gs)) = Ok (op_tensor n (gs_op n (gs ++ [g]))).
Proof. intros. rewrite matmul_op. f_equal. apply op_tensor_ext. symmetry. apply gs_op_snoc. Qed.
Lemma matmul_cons : forall n g gs, matmul (op_tensor n (gs_op n gs)) (op_tensor n (gi_op n g)) = Ok (op_tensor n (gs_op n (g :: gs))).
Proof. intros. rewrite matmul_op. f_equal. apply op_tensor_ext. symmetry. apply gs_op_cons. Qed.

(** * The product over the wires *)
Definition ring_list (d : nat) (ws : list nat) : list gi :=
  map (fun i => gi_cnot (nth i ws 0) (nth ((i + d) mod length ws) ws 0)) (seq 0 (length ws)).

Lemma mod_next : forall i d L, i < L -> 0 < d -> d < L -> (i + d) mod L <> i /\ (i + d) mod L < L.
Proof.
  intros i d L Hi Hd HL. split; [|apply Nat.mod_upper_bound; lia]. destruct (lt_dec (i + d) L).
  - rewrite Nat.mod_small; lia.
  - replace (i + d) with ((i + d - L) + 1 * L) by lia. rewrite Nat.mod_add, Nat.mod_small; lia.
Qed.

Lemma ring_list_ok : forall n d ws, good_wires n ws -> 0 < d -> d < length ws -> Forall (gi_ok n) (ring_list d ws).
Proof.
  intros n d ws [HN HW] Hd HL. apply Forall_forall. intros g Hg. apply in_map_iff in Hg. destruct Hg as (i & <- & Hi). apply in_seq in Hi.
  destruct (mod_next i d (length ws)) as [M1 M2]; try lia. apply cnot_okb; [apply HW, nth_In; lia|apply HW, nth_In; lia|].
  intros E. apply M1. symmetry. eapply (NoDup_nth ws 0); eauto. lia.
Qed.

Lemma ring_step : forall n d ws i, good_wires n ws -> 0 < d -> d < length ws -> i < length ws ->
  (do a <- py_nth (map Z.of_nat ws) (Z.of_nat i); do b <- py_nth (map Z.of_nat ws) (Z.of_nat ((i + d) mod length ws)); cnot_U (Z.of_nat n) a b)
  = Ok (op_tensor n (gi_op n (gi_cnot (nth i ws 0) (nth ((i + d) mod length ws) ws 0)))).
Proof.
  intros n d ws i [HN HW] Hd HL Hi. destruct (mod_next i d (length ws)) as [M1 M2]; auto.
  rewrite !(py_nth_nat _ _ _ (Z.of_nat 0)) by (now rewrite map_length). rewrite !map_nth. cbn [bind].
  apply cnot_U_ok; [apply HW, nth_In; lia|apply HW, nth_In; lia|]. intros E. apply M1. symmetry. eapply (NoDup_nth ws 0); eauto.
Qed.

Lemma ring_product_ok : forall n d ws, good_wires n ws -> 0 < d -> d < length ws ->
  ring_product d (mkR (Z.of_nat n) (map Z.of_nat ws)) = Ok (op_tensor n (gs_op n (ring_list d ws))).
Proof.
  intros n d ws W Hd HL. unfold ring_product. cbn [r_wires r_N]. rewrite map_length, Nat2Z.id, eye_op.
  assert (X : forall j, j <= length ws -> mfold (fun rst i => do a <- py_nth (map Z.of_nat ws) (Z.of_nat i);
      do b <- py_nth (map Z.of_nat ws) (Z.of_nat ((i + d) mod length ws)); do u <- cnot_U (Z.of_nat n) a b; matmul u rst) (seq 0 j) (op_tensor n id_op)
    = Ok (op_tensor n (gs_op n (map (fun i => gi_cnot (nth i ws 0) (nth ((i + d) mod length ws) ws 0)) (seq 0 j))))).
  { induction j as [|j IH]; intros Hj; [reflexivity|]. rewrite seq_S, mfold_app, map_app, IH by lia. cbn [bind mfold plus map].
    pose proof (ring_step n d ws j W Hd HL ltac:(lia)) as E. apply bind_inv in E. destruct E as (a & Ea & E). apply bind_inv in E. destruct E as (b & Eb & E).
    rewrite Ea, Eb. cbn [bind]. rewrite E. cbn [bind]. rewrite matmul_snoc. reflexivity. }
  apply X. lia.
Qed.

Lemma ring_dag_product_ok : forall n ws, good_wires n ws -> 1 < length ws ->
  ring_dag_product (mkR (Z.of_nat n) (map Z.of_nat ws)) = Ok (op_tensor n (gs_op n (rev (ring_list 1 ws)))).
Proof.
  intros n ws W HL. unfold ring_dag_product. cbn [r_wires r_N]. rewrite map_length, Nat2Z.id, eye_op.
  assert (X : forall j, j <= length ws -> mfold (fun rst i => do a <- py_nth (map Z.of_nat ws) (Z.of_nat i);
      do b <- py_nth (map Z.of_nat ws) (Z.of_nat ((i + 1) mod length ws)); do u <- cnot_U (Z.of_nat n) a b; matmul rst u) (seq 0 j) (op_tensor n id_op)
    = Ok (op_tensor n (gs_op n (rev (map (fun i => gi_cnot (nth i ws 0) (nth ((i + 1) mod length ws) ws 0)) (seq 0 j)))))).
  { induction j as [|j IH]; intros Hj; [reflexivity|]. rewrite seq_S, mfold_app, map_app, rev_app_distr, IH by lia. cbn [bind mfold plus map rev app].
    pose proof (ring_step n 1 ws j W ltac:(lia) HL ltac:(lia)) as E. apply bind_inv in E. destruct E as (a & Ea & E). apply bind_inv in E. destruct E as (b & Eb & E).
    rewrite Ea, Eb. cbn [bind]. rewrite E. cbn [bind]. rewrite matmul_cons. reflexivity. }
  apply X. lia.
Qed.

(** * The fused products over the whole register *)
Lemma ring_list_seq : forall n d, ring_list d (seq 0 n) = map (fun i => gi_cnot i ((i + d) mod n)) (seq 0 n).
Proof.
  intros n d. unfold ring_list. rewrite seq_length. apply map_ext_in. intros i Hi. apply in_seq in Hi. rewrite !seq_nth; auto; try lia.
  apply Nat.mod_upper_bound. lia.
Qed.

Lemma zrange2_1 : forall n, 1 <= n -> zrange2 1 (Z.of_nat n) = map (fun k => Z.of_nat (S k)) (seq 0 (n - 1)).
Proof. intros n H. unfold zrange2. replace (Z.to_nat (Z.of_nat n - 1)) with (n - 1) by lia. apply map_ext. intros; lia. Qed.

Lemma chain_ok : forall m d j, 0 < d -> j + d < m -> Forall (gi_ok m) (map (fun i => gi_cnot i (i + d)) (seq 0 (S j))).
Proof.
  intros m d j Hd H. apply Forall_forall. intros g Hg. apply in_map_iff in Hg. destruct Hg as (i & <- & Hi). apply in_seq in Hi. apply cnot_okb; lia.
Qed.

Lemma map_mod_chain : forall n d j, j + d < n -> map (fun i => gi_cnot i ((i + d) mod n)) (seq 0 (S j)) = map (fun i => gi_cnot i (i + d)) (seq 0 (S j)).
Proof. intros n d j H. apply map_ext_in. intros i Hi. apply in_seq in Hi. rewrite Nat.mod_small by lia. reflexivity. Qed.

Lemma mod_Z : forall i d n, 0 < n -> ((Z.of_nat i + Z.of_nat d) mod Z.of_nat n)%Z = Z.of_nat ((i + d) mod n).
Proof. intros. rewrite Nat2Z.inj_mod. f_equal. lia. Qed.

Lemma ring_fusion_ok : forall n, 3 <= n -> ring_fusion (Z.of_nat n) = Ok (op_tensor n (gs_op n (ring_list 1 (seq 0 n)))).
Proof.
  intros n Hn. unfold ring_fusion, raise_if. replace (Z.of_nat n <? 3)%Z with false by lia.
  pose proof (cnot_U_ok 2 0 1 ltac:(lia) ltac:(lia) ltac:(lia)) as E0. change (Z.of_nat 2) with 2%Z in E0. change (Z.of_nat 0) with 0%Z in E0. change (Z.of_nat 1) with 1%Z in E0.
  rewrite E0. cbn [bind]. rewrite zrange2_1, mfold_map by lia. rewrite ring_list_seq.
  assert (X : forall j, j + 2 <= n - 0 -> mfold (fun rst k => do cur_M <- cnot_U (Z.min (2 + Z.of_nat (S k)) (Z.of_nat n)) (Z.of_nat (S k)) ((Z.of_nat (S k) + 1) mod Z.of_nat n)%Z;
      if (Z.of_nat (S k) =? Z.of_nat n - 1)%Z then matmul cur_M rst else matmul cur_M (kron rst (eye 2))) (seq 0 j) (op_tensor 2 (gi_op 2 (gi_cnot 0 1)))
    = Ok (op_tensor (j + 2) (gs_op (j + 2) (map (fun i => gi_cnot i (i + 1)) (seq 0 (S j)))))).
  { induction j as [|j IH]; intros Hj.
    - cbn [seq mfold map plus]. f_equal. apply op_tensor_ext. symmetry. apply gs_op_1.
    - rewrite seq_S, mfold_app, IH by lia. cbn [bind mfold plus].
      change 1%Z with (Z.of_nat 1). rewrite mod_Z by lia. rewrite Nat.mod_small by lia.
      replace (Z.min (2 + Z.of_nat (S j)) (Z.of_nat n)) with (Z.of_nat (S (j + 2))) by lia.
      rewrite cnot_U_ok by lia. cbn [bind]. replace (Z.of_nat (S j) =? Z.of_nat n - Z.of_nat 1)%Z with false by lia.
      rewrite kron_gs by (apply chain_ok; lia). rewrite matmul_snoc. cbn [bind]. do 3 f_equal. rewrite (seq_S (S j) 0), map_app. reflexivity. }
  replace (n - 1) with (S (n - 2)) at 1 by lia. rewrite seq_S, mfold_app, X by lia. cbn [bind mfold plus]. clear X.
  change 1%Z with (Z.of_nat 1). rewrite mod_Z by lia. replace (S (n - 2) + 1) with (0 + 1 * n) by lia. rewrite Nat.mod_add, Nat.mod_small by lia.
  replace (Z.min (2 + Z.of_nat (S (n - 2))) (Z.of_nat n)) with (Z.of_nat n) by lia.
  rewrite cnot_U_ok by lia. cbn [bind]. replace (Z.of_nat (S (n - 2)) =? Z.of_nat n - Z.of_nat 1)%Z with true by lia.
  replace (n - 2 + 2) with n by lia. rewrite matmul_snoc. cbn [bind]. do 3 f_equal.
  replace (seq 0 n) with (seq 0 (S (n - 2)) ++ [S (n - 2)]).
  - rewrite map_app, map_mod_chain by lia. cbn [map]. replace (S (n - 2) + 1) with (0 + 1 * n) by lia. now rewrite Nat.mod_add, Nat.mod_small by lia.
  - change [S (n - 2)] with [0 + S (n - 2)]. rewrite <- seq_S. f_equal. lia.
Qed.

Lemma rev_chain_ok : forall m gs, Forall (gi_ok m) gs -> Forall (gi_ok m) (rev gs).
Proof. intros. now apply Forall_rev. Qed.

Lemma ring_dag_fusion_ok : forall n, 3 <= n -> ring_dag_fusion (Z.of_nat n) = Ok (op_tensor n (gs_op n (rev (ring_list 1 (seq 0 n))))).
Proof.
  intros n Hn. unfold ring_dag_fusion, raise_if. replace (Z.of_nat n <? 3)%Z with false by lia.
  pose proof (cnot_U_ok 2 0 1 ltac:(lia) ltac:(lia) ltac:(lia)) as E0. change (Z.of_nat 2) with 2%Z in E0. change (Z.of_nat 0) with 0%Z in E0. change (Z.of_nat 1) with 1%Z in E0.
  rewrite E0. cbn [bind]. rewrite zrange2_1, mfold_map by lia. rewrite ring_list_seq.
  assert (X : forall j, j + 2 <= n - 0 -> mfold (fun rst k => do cur_M <- cnot_U (Z.min (2 + Z.of_nat (S k)) (Z.of_nat n)) (Z.of_nat (S k)) ((Z.of_nat (S k) + 1) mod Z.of_nat n)%Z;
      if (Z.of_nat (S k) =? Z.of_nat n - 1)%Z then matmul rst cur_M else matmul (kron rst (eye 2)) cur_M) (seq 0 j) (op_tensor 2 (gi_op 2 (gi_cnot 0 1)))
    = Ok (op_tensor (j + 2) (gs_op (j + 2) (rev (map (fun i => gi_cnot i (i + 1)) (seq 0 (S j))))))).
  { induction j as [|j IH]; intros Hj.
    - cbn [seq mfold map plus rev app]. f_equal. apply op_tensor_ext. symmetry. apply gs_op_1.
    - rewrite seq_S, mfold_app, IH by lia. cbn [bind mfold plus].
      change 1%Z with (Z.of_nat 1). rewrite mod_Z by lia. rewrite Nat.mod_small by lia.
      replace (Z.min (2 + Z.of_nat (S j)) (Z.of_nat n)) with (Z.of_nat (S (j + 2))) by lia.
      rewrite cnot_U_ok by lia. cbn [bind]. replace (Z.of_nat (S j) =? Z.of_nat n - Z.of_nat 1)%Z with false by lia.
      rewrite kron_gs by (apply rev_chain_ok, chain_ok; lia). rewrite matmul_cons. cbn [bind]. do 3 f_equal. rewrite (seq_S (S j) 0), map_app, rev_app_distr. reflexivity. }
  replace (n - 1) with (S (n - 2)) at 1 by lia. rewrite seq_S, mfold_app, X by lia. cbn [bind mfold plus]. clear X.
  change 1%Z with (Z.of_nat 1). rewrite mod_Z by lia. replace (S (n - 2) + 1) with (0 + 1 * n) by lia. rewrite Nat.mod_add, Nat.mod_small by lia.
  replace (Z.min (2 + Z.of_nat (S (n - 2))) (Z.of_nat n)) with (Z.of_nat n) by lia.
  rewrite cnot_U_ok by lia. cbn [bind]. replace (Z.of_nat (S (n - 2)) =? Z.of_nat n - Z.of_nat 1)%Z with true by lia.
  replace (n - 2 + 2) with n by lia. rewrite matmul_cons. cbn [bind]. do 3 f_equal.
  replace (seq 0 n) with (seq 0 (S (n - 2)) ++ [S (n - 2)]).
  - rewrite map_app, map_mod_chain, rev_app_distr by lia. cbn [map rev app]. replace (S (n - 2) + 1) with (0 + 1 * n) by lia. now rewrite Nat.mod_add, Nat.mod_small by lia.
  - change [S (n - 2)] with [0 + S (n - 2)]. rewrite <- seq_S. f_equal. lia.
Qed.

Lemma ring2_fusion_ok : forall n, 3 <= n -> ring2_fusion (Z.of_nat n) = Ok (op_tensor n (gs_op n (ring_list 2 (seq 0 n)))).
Proof.
  intros n Hn. unfold ring2_fusion, raise_if. replace (Z.of_nat n <? 3)%Z with false by lia.
  pose proof (cnot_U_ok 3 0 2 ltac:(lia) ltac:(lia) ltac:(lia)) as E0. change (Z.of_nat 3) with 3%Z in E0. change (Z.of_nat 0) with 0%Z in E0. change (Z.of_nat 2) with 2%Z in E0.
  rewrite E0. cbn [bind]. rewrite zrange2_1, mfold_map by lia. rewrite ring_list_seq.
  set (step := fun (rst : tensor) k => do cur_M <- cnot_U (Z.min (3 + Z.of_nat (S k)) (Z.of_nat n)) (Z.of_nat (S k)) ((Z.of_nat (S k) + 2) mod Z.of_nat n)%Z;
      if (Z.of_nat (S k) =? Z.of_nat n - 2)%Z || (Z.of_nat (S k) =? Z.of_nat n - 1)%Z then matmul cur_M rst else matmul cur_M (kron rst (eye 2))).
  assert (X : forall j, j + 3 <= n -> mfold step (seq 0 j) (op_tensor 3 (gi_op 3 (gi_cnot 0 2)))
    = Ok (op_tensor (j + 3) (gs_op (j + 3) (map (fun i => gi_cnot i (i + 2)) (seq 0 (S j)))))).
  { induction j as [|j IH]; intros Hj.
    - cbn [seq mfold map plus]. f_equal. apply op_tensor_ext. symmetry. apply gs_op_1.
    - rewrite seq_S, mfold_app, IH by lia. cbn [bind mfold plus]. unfold step.
      change 2%Z with (Z.of_nat 2). rewrite mod_Z by lia. rewrite Nat.mod_small by lia.
      replace (Z.min (3 + Z.of_nat (S j)) (Z.of_nat n)) with (Z.of_nat (S (j + 3))) by lia.
      rewrite cnot_U_ok by lia. cbn [bind]. replace (Z.of_nat (S j) =? Z.of_nat n - Z.of_nat 2)%Z with false by lia.
      replace (Z.of_nat (S j) =? Z.of_nat n - 1)%Z with false by lia. cbn [orb].
      rewrite kron_gs by (apply chain_ok; lia). rewrite matmul_snoc. cbn [bind]. do 3 f_equal. rewrite (seq_S (S j) 0), map_app. reflexivity. }
  assert (Y : forall k gs, k = n - 3 \/ k = n - 2 -> step (op_tensor n (gs_op n gs)) k = Ok (op_tensor n (gs_op n (gs ++ [gi_cnot (S k) ((S k + 2) mod n)])))).
  { intros k gs Hk. unfold step. change 2%Z with (Z.of_nat 2). rewrite mod_Z by lia.
    replace (Z.min (3 + Z.of_nat (S k)) (Z.of_nat n)) with (Z.of_nat n) by lia.
    destruct (mod_next (S k) 2 n) as [M1 M2]; try lia.
    rewrite cnot_U_ok by lia. cbn [bind].
    replace ((Z.of_nat (S k) =? Z.of_nat n - Z.of_nat 2)%Z || (Z.of_nat (S k) =? Z.of_nat n - 1)%Z) with true by lia. apply matmul_snoc. }
  replace (n - 1) with (S (S (n - 3))) at 1 by lia. rewrite 2 seq_S, <- app_assoc, mfold_app, X by lia. cbn [bind mfold plus app]. clear X.
  replace (n - 3 + 3) with n by lia. rewrite Y by lia. cbn [bind]. rewrite Y by lia. cbn [bind]. do 3 f_equal. rewrite <- app_assoc. cbn [app].
  replace (seq 0 n) with (seq 0 (S (n - 3)) ++ [S (n - 3); S (S (n - 3))]).
  - rewrite map_app, map_mod_chain by lia. reflexivity.
  - change [S (n - 3); S (S (n - 3))] with ([0 + S (n - 3)] ++ [0 + S (S (n - 3))]). rewrite app_assoc, <- !seq_S. f_equal. lia.
Qed.
