(** Lemmas: layers as objects; BasicEntangleLayer; inverses and parameter updates. *)
From Coq Require Import List ZArith QArith Reals Lra Lia ZifyBool Bool Arith Ring Setoid Morphisms.
From Verif Require Import PyBase Scalar CInst BigSum Index Tensor TensorFacts Spec SpecFacts QMath QTN QOperator
  ExpandFacts ExpandFacts2 ContractFacts ContractFacts2 GateSpec QGates GateCalls GateFacts GateFacts2 GateFacts3 GateFacts4 RunSpec
  MPSSpec MPSFacts1 MPSFacts2 MPSFacts4 MPSFacts5 MPSFacts6 MPSFacts8 MPSFacts9 LayerSpec QLayers LayerCalls LayerFacts1 LayerFacts2 LayerFacts3.
Import ListNotations.
Local Close Scope Q_scope.
Local Close Scope R_scope.
Local Open Scope nat_scope.

Lemma good_wires_length : forall n ws, good_wires n ws -> length ws <= n.
Proof.
  intros n ws [HN HW]. rewrite <- (seq_length n 0). apply NoDup_incl_length; auto. intros w Hw. apply in_seq. apply HW in Hw. lia.
Qed.

Lemma per_wire_axes : forall k, per_wire (kind_cls k) = length (kind_axes k).
Proof. now intros []. Qed.
Lemma new_slayer_ok : forall k n ws ps, good_wires n ws -> length ps = per_wire k * length ws ->
  new_slayer k (Z.of_nat n) (map Z.of_nat ws) ps = Ok (mkSL k (Z.of_nat n) (map Z.of_nat ws) ps).
Proof.
  intros k n ws ps W H. apply good_wires_length in W. unfold new_slayer, raise_if. rewrite map_length.
  replace (per_wire k * length ws =? length ps) with true by lia. cbn [negb]. now replace (Z.of_nat n <? Z.of_nat (length ws))%Z with false by lia.
Qed.
Lemma new_ring_ok : forall n ws, good_wires n ws -> 2 <= length ws ->
  new_ring (Z.of_nat n) (map Z.of_nat ws) = Ok (mkR (Z.of_nat n) (map Z.of_nat ws)).
Proof.
  intros n ws W H. apply good_wires_length in W. unfold new_ring, raise_if. rewrite map_length.
  replace (Z.of_nat n <? Z.of_nat (length ws))%Z with false by lia. now replace (length ws <? 2) with false by lia.
Qed.

(** * BasicEntangleLayer *)
Definition basic_slice (ws : list nat) (ps : list R) (i : nat) : list R := pslice ps (i * (3 * length ws)) ((i + 1) * (3 * length ws)).
Definition basic_obj (n rep : nat) (ws : list nat) (ps : list R) : basic :=
  let N := Z.of_nat n in let zs := map Z.of_nat ws in
  mkB N zs ps (Z.of_nat rep) (map (fun i => mkSL YZYLayer N zs (basic_slice ws ps i)) (seq 0 rep)) (map (fun _ => mkR N zs) (seq 0 rep)).

Lemma slice_length : forall ws ps rep i, length ps = 3 * length ws * rep -> i < rep -> length (basic_slice ws ps i) = 3 * length ws.
Proof. intros ws ps rep i H Hi. unfold basic_slice, pslice. rewrite firstn_length, skipn_length. nia. Qed.

Lemma basic_parts_ok : forall n rep ws ps, good_wires n ws -> 2 <= length ws -> length ps = 3 * length ws * rep ->
  basic_parts (Z.of_nat n) (map Z.of_nat ws) ps (Z.of_nat rep) = Ok (b_part1 (basic_obj n rep ws ps), b_part2 (basic_obj n rep ws ps)).
Proof.
  intros n rep ws ps W H HL. unfold basic_parts. rewrite map_length, Nat2Z.id. cbn [basic_obj b_part1 b_part2].
  assert (X : forall j, j <= rep -> mfold (fun (ps0 : list slayer * list ring) i =>
      do y <- new_slayer YZYLayer (Z.of_nat n) (map Z.of_nat ws) (pslice ps (i * (3 * length ws)) ((i + 1) * (3 * length ws)));
      do c <- new_ring (Z.of_nat n) (map Z.of_nat ws); Ok (fst ps0 ++ [y], snd ps0 ++ [c])) (seq 0 j) ([], [])
    = Ok (map (fun i => mkSL YZYLayer (Z.of_nat n) (map Z.of_nat ws) (basic_slice ws ps i)) (seq 0 j), map (fun _ => mkR (Z.of_nat n) (map Z.of_nat ws)) (seq 0 j))).
  { induction j as [|j IH]; intros Hj; [reflexivity|]. rewrite seq_S, mfold_app, IH by lia. cbn [bind mfold plus].
    fold (basic_slice ws ps j). rewrite new_slayer_ok; [|exact W|]. 2:{ rewrite (slice_length ws ps rep) by lia. reflexivity. }
    cbn [bind]. rewrite new_ring_ok by auto. cbn [bind fst snd]. now rewrite !map_app. }
  apply X. lia.
Qed.
Lemma new_basic_ok : forall n rep ws ps, good_wires n ws -> 2 <= length ws -> 1 <= rep -> length ps = 3 * length ws * rep ->
  new_basic (Z.of_nat n) (map Z.of_nat ws) ps (Z.of_nat rep) = Ok (basic_obj n rep ws ps).
Proof.
  intros n rep ws ps W H Hr HL. unfold new_basic, raise_if. rewrite map_length. pose proof (good_wires_length n ws W) as Hl.
  replace (3 * Z.of_nat (length ws) * Z.of_nat rep =? Z.of_nat (length ps))%Z with true by nia. cbn [negb].
  replace (Z.of_nat n <? Z.of_nat (length ws))%Z with false by lia. replace (length ws <? 2) with false by lia. replace (Z.of_nat rep <? 1)%Z with false by lia.
  rewrite basic_parts_ok by auto. reflexivity.
Qed.
Lemma basic_update_ok : forall n rep ws ps ps', good_wires n ws -> 2 <= length ws -> length ps' = 3 * length ws * rep ->
  basic_params_update (basic_obj n rep ws ps) ps' = Ok (basic_obj n rep ws ps').
Proof.
  intros n rep ws ps ps' W H HL. unfold basic_params_update. cbn [basic_obj b_N b_wires b_repeat]. rewrite basic_parts_ok by auto. reflexivity.
Qed.

Lemma combine_firstn_l : forall A B (a : list A) (b : list B) k, length a <= k -> combine a (firstn k b) = combine a b.
Proof. intros A B. induction a as [|x a IH]; intros b k H; [reflexivity|]. destruct k; [cbn in H; lia|]. destruct b; [reflexivity|]. cbn. f_equal. apply IH. cbn in H; lia. Qed.
Lemma rot_gates_firstn : forall axes ws ps k, length axes * length ws <= k -> rot_gates axes ws (firstn k ps) = rot_gates axes ws ps.
Proof.
  intros axes ws. induction ws as [|w ws IH]; intros ps k H; [reflexivity|]. cbn [rot_gates length] in *. rewrite combine_firstn_l by nia. f_equal.
  rewrite skipn_firstn_comm. apply IH. nia.
Qed.

Lemma basic_gates_flat : forall rep ws ps, basic_gates rep ws ps = flat_map (fun i => rot_gates (kind_axes KYZY) ws (skipn (i * (3 * length ws)) ps) ++ ring_gates 1 ws) (seq 0 rep).
Proof.
  intros rep ws. induction rep as [|rep IH]; intros ps; [reflexivity|]. cbn [basic_gates seq flat_map]. rewrite <- app_assoc. f_equal. f_equal. rewrite IH.
  rewrite <- seq_shift, flat_map_concat_map, flat_map_concat_map, map_map. f_equal. apply map_ext. intros i. rewrite skipn_skipn'. do 2 f_equal.
Qed.

Lemma rot_gates_ok : forall n axes ws ps, good_wires n ws -> Forall (gi_ok n) (rot_gates axes ws ps).
Proof.
  intros n axes ws ps [_ HW]. revert ps. induction ws as [|w ws IH]; intros ps; [constructor|]. cbn [rot_gates]. apply Forall_app. split.
  - apply Forall_forall. intros g Hg. apply in_map_iff in Hg. destruct Hg as ([a t] & <- & _). split; [|destruct a; exact I].
    assert (w < n) by (apply HW; simpl; auto). destruct a; cbn [axis_gate gi_wires fst snd]; now apply good_wires_1.
  - apply IH. intros; apply HW; simpl; auto.
Qed.
Lemma basic_gates_ok : forall n rep ws ps, good_wires n ws -> 2 <= length ws -> Forall (gi_ok n) (basic_gates rep ws ps).
Proof.
  intros n rep ws ps W H. revert ps. induction rep as [|rep IH]; intros ps; [constructor|]. cbn [basic_gates]. rewrite !Forall_app.
  split; [now apply rot_gates_ok|]. split; [apply ring_gates_ok; auto|apply IH].
Qed.
Lemma li_gates_ok : forall n l, li_ok n l -> Forall (gi_ok n) (li_gates l).
Proof.
  intros n [k ws ps|ws|ws|ws|ws|rep ws ps] H; cbn [li_ok li_gates] in *.
  - apply rot_gates_ok, H.
  - apply Forall_forall. intros g Hg. apply in_map_iff in Hg. destruct Hg as (w & <- & Hw). split; [|exact I]. apply good_wires_1, H, Hw.
  - apply ring_gates_ok; tauto.
  - apply Forall_rev, ring_gates_ok; tauto.
  - apply ring_gates_ok; tauto.
  - apply basic_gates_ok; tauto.
Qed.
Lemma li_unitary : forall n l, li_ok n l -> unitary n (li_op n l).
Proof. intros n l H. apply gs_unitary. now apply li_gates_ok. Qed.

Lemma rot_ops_length : forall k ps L, length (rot_ops k ps L) = L.
Proof. intros. unfold rot_ops. now rewrite map_length, seq_length. Qed.
Lemma rot_obs : forall n k ws ps, good_wires n ws -> op_eq n (obs_op n ws (rot_ops k ps (length ws))) (gs_op n (rot_gates (kind_axes k) ws ps)).
Proof. intros n k ws ps W. symmetry. apply rot_gates_obs, W. Qed.

Lemma rot_U_ok : forall n k ws ps, 0 < n -> good_wires n ws -> length ps = length (kind_axes k) * length ws ->
  slayer_U (mkSL (kind_cls k) (Z.of_nat n) (map Z.of_nat ws) ps) = Ok (op_tensor n (gs_op n (rot_gates (kind_axes k) ws ps))).
Proof.
  intros n k ws ps Hn W H. rewrite (slayer_U_ok (kind_cls k) n ws ps (rot_ops k ps (length ws))); auto using rot_ops_length.
  - f_equal. apply op_tensor_ext. now apply rot_obs.
  - intros i Hi. now apply wire_rot.
Qed.

Lemma basic_U_ok : forall n rep ws ps, 0 < n -> good_wires n ws -> 2 <= length ws -> 1 <= rep -> length ps = 3 * length ws * rep ->
  basic_U (basic_obj n rep ws ps) = Ok (op_tensor n (gs_op n (basic_gates rep ws ps))).
Proof.
  intros n rep ws ps Hn W H Hr HL. unfold basic_U. cbn [basic_obj b_part2 b_part1 b_repeat b_N].
  change 0%Z with (Z.of_nat 0). rewrite (py_nth_nat _ _ 0 (mkR (Z.of_nat n) (map Z.of_nat ws))) by (rewrite map_length, seq_length; lia).
  rewrite (map_nth (fun _ : nat => mkR (Z.of_nat n) (map Z.of_nat ws)) (seq 0 rep) 0 0). cbn [bind]. rewrite ring_U_ok by auto. cbn [bind].
  rewrite !Nat2Z.id, eye_op, basic_gates_flat.
  assert (X : forall j, j <= rep -> mfold (fun rst i => do p <- py_nth (map (fun i => mkSL YZYLayer (Z.of_nat n) (map Z.of_nat ws) (basic_slice ws ps i)) (seq 0 rep)) (Z.of_nat i);
      do u <- slayer_U p; do a <- matmul (op_tensor n (gs_op n (ring_gates 1 ws))) u; matmul a rst) (seq 0 j) (op_tensor n id_op)
    = Ok (op_tensor n (gs_op n (flat_map (fun i => rot_gates (kind_axes KYZY) ws (skipn (i * (3 * length ws)) ps) ++ ring_gates 1 ws) (seq 0 j))))).
  { induction j as [|j IH]; intros Hj; [reflexivity|]. rewrite seq_S, mfold_app, IH by lia. cbn [bind mfold plus].
    rewrite (py_nth_nat _ _ j (mkSL YZYLayer (Z.of_nat n) (map Z.of_nat ws) (basic_slice ws ps 0))) by (rewrite map_length, seq_length; lia).
    rewrite (map_nth (fun i => mkSL YZYLayer (Z.of_nat n) (map Z.of_nat ws) (basic_slice ws ps i))), seq_nth by lia. cbn [bind plus].
    pose proof (rot_U_ok n KYZY ws (basic_slice ws ps j) Hn W) as E. cbn [kind_cls kind_axes length] in E.
    rewrite E by (rewrite (slice_length ws ps rep); lia). cbn [bind]. rewrite !matmul_op. cbn [bind]. rewrite matmul_op. cbn [bind]. f_equal. apply op_tensor_ext.
    rewrite flat_map_app. cbn [flat_map]. rewrite app_nil_r, !gs_op_app. apply mul_op_proper; [|reflexivity]. apply mul_op_proper; [reflexivity|].
    unfold basic_slice, pslice. rewrite rot_gates_firstn; [reflexivity|]. cbn [length]. nia. }
  apply X. lia.
Qed.

(** * Layer objects *)
Definition lobj (n : nat) (l : li) : layer :=
  let N := Z.of_nat n in
  match l with
  | li_rot k ws ps => LS (mkSL (kind_cls k) N (map Z.of_nat ws) ps)
  | li_H ws => LS (mkSL HLayer N (map Z.of_nat ws) [])
  | li_ring ws => LRing (mkR N (map Z.of_nat ws))
  | li_ring_dag ws => LRingDag (mkR N (map Z.of_nat ws))
  | li_ring2 ws => LRing2 (mkR N (map Z.of_nat ws))
  | li_basic rep ws ps => LBasic (basic_obj n rep ws ps)
  end.

Lemma lbuild_ok : forall n l, li_ok n l -> lbuild n l = Ok (lobj n l).
Proof.
  intros n [k ws ps|ws|ws|ws|ws|rep ws ps] H; cbn [li_ok lbuild lobj] in *.
  - rewrite new_slayer_ok; [reflexivity|apply H|]. rewrite per_wire_axes. apply H.
  - rewrite new_slayer_ok; [reflexivity|apply H|reflexivity].
  - rewrite new_ring_ok by tauto. reflexivity.
  - rewrite new_ring_ok by tauto. reflexivity.
  - rewrite new_ring_ok by tauto. reflexivity.
  - rewrite new_basic_ok by tauto. reflexivity.
Qed.

Lemma layer_U_ok : forall n l, 0 < n -> li_ok n l -> layer_U (lobj n l) = Ok (op_tensor n (li_op n l)).
Proof.
  intros n [k ws ps|ws|ws|ws|ws|rep ws ps] Hn H; cbn [li_ok layer_U lobj] in *; unfold li_op; cbn [li_gates].
  - apply rot_U_ok; tauto.
  - rewrite (slayer_U_ok HLayer n ws [] (map (fun _ => H_op) (seq 0 (length ws)))); auto.
    + f_equal. apply op_tensor_ext. symmetry. apply H_gates_obs.
    + now rewrite map_length, seq_length.
    + intros i Hi. now apply wire_H.
  - apply ring_U_ok; tauto.
  - apply ring_dag_U_ok; tauto.
  - apply ring2_U_ok; tauto.
  - apply basic_U_ok; tauto.
Qed.

Lemma li_TN_ring : forall n ws, (if list_eq_dec Nat.eq_dec ws (seq 0 n) then true else false) = true -> ws = seq 0 n.
Proof. intros n ws H. destruct list_eq_dec; [auto|discriminate]. Qed.

Lemma layer_contract_ok : forall n l f, li_ok n l -> li_TN n l = true ->
  layer_TN_contract (lobj n l) (tbuild (repeat 2 n) f) false = Ok (tbuild (repeat 2 n) (act n (li_op n l) f)).
Proof.
  intros n [k ws ps|ws|ws|ws|ws|rep ws ps] f H T; cbn [li_ok layer_TN_contract lobj li_TN] in *; unfold li_op; cbn [li_gates]; try discriminate T.
  - rewrite (slayer_contract_ok (kind_cls k) n ws ps (rot_ops k ps (length ws))); try tauto; auto using rot_ops_length.
    + f_equal. apply tbuild_st_ext. now rewrite rot_obs.
    + intros i Hi. now apply wire_rot.
  - rewrite (slayer_contract_ok HLayer n ws [] (map (fun _ => H_op) (seq 0 (length ws)))); auto.
    + f_equal. apply tbuild_st_ext. now rewrite H_gates_obs.
    + now rewrite map_length, seq_length.
    + intros i Hi. now apply wire_H.
  - apply li_TN_ring in T. subst ws. rewrite seq_length in H. rewrite ring_contract_gs by tauto. apply contract_gs; [|apply ring_no_mcx].
    apply ring_gates_ok; rewrite ?seq_length; tauto.
  - apply li_TN_ring in T. subst ws. rewrite seq_length in H. rewrite ring_dag_contract_gs by tauto. apply contract_gs; [|rewrite forallb_rev; apply ring_no_mcx].
    apply Forall_rev, ring_gates_ok; rewrite ?seq_length; tauto.
Qed.
Lemma layer_contract_batch_ok : forall B n l F, li_ok n l -> li_TN n l = true ->
  layer_TN_contract (lobj n l) (tbuild (B :: repeat 2 n) F) true = Ok (tbuild (B :: repeat 2 n) (batched (act n (li_op n l)) F)).
Proof.
  intros B n [k ws ps|ws|ws|ws|ws|rep ws ps] F H T; cbn [li_ok layer_TN_contract lobj li_TN] in *; unfold li_op; cbn [li_gates]; try discriminate T.
  - rewrite (slayer_contract_batch_ok (kind_cls k) n ws ps (rot_ops k ps (length ws))); try tauto; auto using rot_ops_length.
    + f_equal. apply batched_ext. intros f. now rewrite rot_obs.
    + intros i Hi. now apply wire_rot.
  - rewrite (slayer_contract_batch_ok HLayer n ws [] (map (fun _ => H_op) (seq 0 (length ws)))); auto.
    + f_equal. apply batched_ext. intros f. now rewrite H_gates_obs.
    + now rewrite map_length, seq_length.
    + intros i Hi. now apply wire_H.
  - apply li_TN_ring in T. subst ws. rewrite seq_length in H. rewrite ring_contract_gs by tauto. apply contract_gs_batch; [|apply ring_no_mcx].
    apply ring_gates_ok; rewrite ?seq_length; tauto.
  - apply li_TN_ring in T. subst ws. rewrite seq_length in H. rewrite ring_dag_contract_gs by tauto. apply contract_gs_batch; [|rewrite forallb_rev; apply ring_no_mcx].
    apply Forall_rev, ring_gates_ok; rewrite ?seq_length; tauto.
Qed.
Lemma layer_TN_ok : forall svd n l m psi, exact_svd svd -> li_ok n l -> li_TN n l = true -> is_mps n m psi -> nonzero n psi ->
  exists m', layer_TN_operation svd (lobj n l) m = Ok m' /\ is_mps n m' (act n (li_op n l) psi).
Proof.
  intros svd n [k ws ps|ws|ws|ws|ws|rep ws ps] m psi Hs H T HM Hn; cbn [li_ok layer_TN_operation lobj li_TN] in *; unfold li_op; cbn [li_gates]; try discriminate T.
  - destruct (slayer_TN_ok (kind_cls k) n ws ps (rot_ops k ps (length ws))) with (l := m) (psi := psi) as (m' & E & M); try tauto; auto using rot_ops_length.
    + intros i Hi. now apply wire_rot.
    + exists m'. split; [exact E|]. eapply is_mps_st; [exact M|]. now rewrite rot_obs.
  - destruct (slayer_TN_ok HLayer n ws [] (map (fun _ => H_op) (seq 0 (length ws)))) with (l := m) (psi := psi) as (m' & E & M); auto.
    + now rewrite map_length, seq_length.
    + intros i Hi. now apply wire_H.
    + exists m'. split; [exact E|]. eapply is_mps_st; [exact M|]. now rewrite H_gates_obs.
  - apply li_TN_ring in T. subst ws. rewrite seq_length in H. apply ring_TN_ok; tauto.
  - apply li_TN_ring in T. subst ws. rewrite seq_length in H. apply ring_dag_TN_ok; tauto.
Qed.
Lemma layer_TN_shape : forall svd n l m m', svd_shapes svd -> li_ok n l -> mps_shape n m ->
  layer_TN_operation svd (lobj n l) m = Ok m' -> mps_shape n m'.
Proof.
  intros svd n [k ws ps|ws|ws|ws|ws|rep ws ps] m m' Hs H HM; cbn [li_ok layer_TN_operation lobj li_TN] in *; try (intros X; discriminate X).
  - apply (slayer_TN_shape (kind_cls k) n ws ps (rot_ops k ps (length ws))); try tauto; auto using rot_ops_length. intros i Hi. now apply wire_rot.
  - apply (slayer_TN_shape HLayer n ws [] (map (fun _ => H_op) (seq 0 (length ws)))); auto.
    + now rewrite map_length, seq_length.
    + intros i Hi. now apply wire_H.
  - intros E. destruct (is_range (mkR (Z.of_nat n) (map Z.of_nat ws))) eqn:R.
    + apply is_range_true in R. subst ws. rewrite seq_length in H. rewrite ring_TN_gs in E by tauto. apply (run_shape svd n (ring_run n) m m' Hs); auto. apply ring_run_ok. tauto.
    + unfold ring_TN_operation in E. rewrite R in E. discriminate E.
  - intros E. destruct (is_range (mkR (Z.of_nat n) (map Z.of_nat ws))) eqn:R.
    + apply is_range_true in R. subst ws. rewrite seq_length in H. rewrite ring_dag_TN_gs in E by tauto. apply (run_shape svd n (ring_dag_run n) m m' Hs); auto. apply ring_dag_run_ok. tauto.
    + unfold ring_dag_TN_operation in E. rewrite R in E. discriminate E.
Qed.
Lemma li_nonzero : forall n l psi, li_ok n l -> nonzero n psi -> nonzero n (act n (li_op n l) psi).
Proof. intros n l psi H. apply unitary_nonzero. now apply li_unitary. Qed.

(** * Inverses *)
Definition kind_inv (k : rot_kind) : rot_kind := match k with KXYZ => KZYX | KZYX => KXYZ | KYZY => KYZY | KXZX => KXZX | KXZ => KZX | KZX => KXZ end.
Definition inv_params (w L : nat) (ps : list R) : list R := map (fun m => (- nth (w * (m / w) + (w - 1 - m mod w)) ps 0)%R) (seq 0 (w * L)).
Definition li_inv (l : li) : option li :=
  match l with
  | li_rot k ws ps => Some (li_rot (kind_inv k) ws (inv_params (length (kind_axes k)) (length ws) ps))
  | li_H ws => Some (li_H ws)
  | li_ring ws => Some (li_ring_dag ws)
  | li_ring_dag ws => Some (li_ring ws)
  | li_ring2 _ | li_basic _ _ _ => None
  end.

Lemma nth_map_seq : forall A (f : nat -> A) n i d, i < n -> nth i (map f (seq 0 n)) d = f i.
Proof. intros A f n i d H. rewrite (nth_indep _ d (f 0)) by (now rewrite map_length, seq_length). rewrite map_nth, seq_nth by auto. reflexivity. Qed.
Lemma inv_params_nth : forall w L ps i t, i < L -> t < w -> nth (w * i + t) (inv_params w L ps) 0%R = (- nth (w * i + (w - 1 - t)) ps 0)%R.
Proof.
  intros w L ps i t Hi Ht. unfold inv_params. rewrite nth_map_seq by nia.
  replace ((w * i + t) / w) with i by (rewrite Nat.mul_comm, Nat.div_add_l, Nat.div_small by lia; lia).
  replace ((w * i + t) mod w) with t by (rewrite Nat.add_comm, Nat.mul_comm, Nat.mod_add, Nat.mod_small by lia; lia). reflexivity.
Qed.
Lemma inv_params_length : forall w L ps, length (inv_params w L ps) = w * L.
Proof. intros. unfold inv_params. now rewrite map_length, seq_length. Qed.
Lemma inv_params_1 : forall w L ps i, i < L -> 0 < w -> nth (w * i) (inv_params w L ps) 0%R = (- nth (w * i + (w - 1)) ps 0)%R.
Proof. intros w L ps i Hi Hw. pose proof (inv_params_nth w L ps i 0 Hi Hw) as E. rewrite Nat.add_0_r, Nat.sub_0_r in E. exact E. Qed.

Section Dagger.
  Variables (w L : nat) (ps : list R).
  Hypothesis Hw : w = 2 \/ w = 3.
  Hypothesis HL : length ps = w * L.
  Let part (j : nat) : list R := map (fun m => if m <? w * j then (- nth (w * (m / w) + (w - 1 - m mod w)) ps 0)%R else (- nth m ps 0)%R) (seq 0 (w * L)).
  Lemma part_0 : part 0 = map Ropp ps.
  Proof.
    unfold part. rewrite Nat.mul_0_r. rewrite <- HL. apply nth_ext with (d := (- 0)%R) (d' := (- 0)%R).
    - now rewrite !map_length, seq_length.
    - intros i Hi. rewrite map_length, seq_length in Hi. rewrite nth_map_seq by auto. rewrite map_nth. reflexivity.
  Qed.
  Lemma part_L : part L = inv_params w L ps.
  Proof. unfold part, inv_params. apply map_ext_in. intros m Hm. apply in_seq in Hm. replace (m <? w * L) with true by lia. reflexivity. Qed.
  Lemma part_length : forall j, length (part j) = w * L.
  Proof. intros. unfold part. now rewrite map_length, seq_length. Qed.
  Lemma part_step : forall j, j < L -> swap_entries (part j) (w * j + 0) (w * j + (w - 1)) = Ok (part (S j)).
  Proof.
    intros j Hj. unfold swap_entries. assert (B : w * j + (w - 1) < w * L) by nia.
    rewrite !(py_nth_nat _ _ _ 0%R) by (rewrite part_length; lia). cbn [bind]. rewrite py_set_nat by (rewrite part_length; lia). cbn [bind].
    rewrite py_set_nat by (rewrite set_nth_length, part_length; lia). f_equal.
    apply nth_ext with (d := 0%R) (d' := 0%R). { now rewrite !set_nth_length, !part_length. }
    intros m Hm. rewrite !set_nth_length, part_length in Hm. rewrite nth_set_nth by (rewrite set_nth_length, part_length; lia).
    rewrite nth_set_nth by (rewrite part_length; lia). unfold part. rewrite !nth_map_seq by lia.
    pose proof (Nat.div_mod m w ltac:(lia)) as DM. pose proof (Nat.mod_upper_bound m w ltac:(lia)) as MB.
    destruct (m =? w * j + (w - 1)) eqn:E1; [|destruct (m =? w * j + 0) eqn:E2].
    - replace (w * j + 0 <? w * j) with false by lia. replace (m <? w * S j) with true by nia.
      assert (m / w = j) by nia. rewrite H in *. assert (m mod w = w - 1) by lia. rewrite H0. do 2 f_equal. lia.
    - replace (w * j + (w - 1) <? w * j) with false by lia. replace (m <? w * S j) with true by nia.
      assert (m / w = j) by nia. rewrite H in *. assert (m mod w = 0) by lia. rewrite H0. do 2 f_equal. lia.
    - destruct (m <? w * j) eqn:E3.
      + now replace (m <? w * S j) with true by nia.
      + destruct (m <? w * S j) eqn:E4; [|reflexivity]. assert (m / w = j) by nia. rewrite H in *. do 2 f_equal. lia.
  Qed.
  Lemma dagger_params_ok : forall s, sl_params s = ps -> length (sl_wires s) = L -> dagger_params w s = Ok (inv_params w L ps).
  Proof.
    intros s Es El. unfold dagger_params. rewrite Es, El, <- part_0, <- part_L.
    assert (X : forall j, j <= L -> mfold (fun p i => swap_entries p (w * i + 0) (w * i + (w - 1))) (seq 0 j) (part 0) = Ok (part j)).
    { induction j as [|j IH]; intros Hj; [reflexivity|]. rewrite seq_S, mfold_app, IH by lia. cbn [bind mfold plus]. rewrite part_step by lia. reflexivity. }
    apply X. lia.
  Qed.
End Dagger.

Lemma kind_inv_len : forall k, length (kind_axes (kind_inv k)) = length (kind_axes k).
Proof. now intros []. Qed.

Lemma li_inv_ok : forall n l l', li_ok n l -> li_inv l = Some l' -> li_ok n l'.
Proof.
  intros n [k ws ps|ws|ws|ws|ws|rep ws ps] l' H E; injection E as <- || discriminate E; cbn [li_ok] in *; auto.
  split; [apply H|]. now rewrite inv_params_length, kind_inv_len.
Qed.

Lemma layer_dagger_ok : forall n l, li_ok n l -> layer_dagger (lobj n l) = Ok (match li_inv l with Some l' => Some (lobj n l') | None => None end).
Proof.
  intros n [k ws ps|ws|ws|ws|ws|rep ws ps] H; cbn [li_ok layer_dagger lobj li_inv r_N r_wires] in *; try reflexivity.
  - assert (X : exists w, w = length (kind_axes k) /\ (w = 2 \/ w = 3)) by (exists (length (kind_axes k)); destruct k; cbn; auto).
    destruct X as (w & Ew & Hw).
    assert (D : dagger_params w (mkSL (kind_cls k) (Z.of_nat n) (map Z.of_nat ws) ps) = Ok (inv_params w (length ws) ps)).
    { apply dagger_params_ok; auto; [rewrite Ew; apply H|]. cbn [sl_wires]. apply map_length. }
    assert (N : new_slayer (kind_cls (kind_inv k)) (Z.of_nat n) (map Z.of_nat ws) (inv_params w (length ws) ps)
      = Ok (mkSL (kind_cls (kind_inv k)) (Z.of_nat n) (map Z.of_nat ws) (inv_params w (length ws) ps))).
    { apply new_slayer_ok; [apply H|]. now rewrite inv_params_length, per_wire_axes, kind_inv_len, Ew. }
    rewrite <- Ew. unfold slayer_dagger. cbn [sl_N sl_wires sl_kind]. destruct k; cbn [kind_axes length kind_cls kind_inv] in *; subst w; rewrite D; cbn [bind]; rewrite N; reflexivity.
  - rewrite new_ring_ok by tauto. reflexivity.
  - rewrite new_ring_ok by tauto. reflexivity.
Qed.

Lemma axis_adj : forall a t, op_eq 1 (axis_op a (- t)) (adj_op (axis_op a t)).
Proof. intros [] t; cbn [axis_op]; symmetry; [apply rx_adj|apply ry_adj|apply rz_adj]. Qed.

Lemma prod_adj : forall n F, op_eq n (adj_op (prod_of n F)) (prod_of n (fun i => adj_op (F i))).
Proof.
  intros n F r c Hr Hc. unfold adj_op, prod_of. generalize (seq 0 n) as l. induction l as [|i l IH]; [apply kconj_1|].
  rewrite !bigprod_cons, kconj_mul, IH. reflexivity.
Qed.
Lemma obs_adj : forall n ws Gs Hs, good_wires n ws -> length Gs = length ws -> length Hs = length ws ->
  (forall i, i < length ws -> op_eq 1 (nth i Hs id_op) (adj_op (nth i Gs id_op))) ->
  op_eq n (obs_op n ws Hs) (adj_op (obs_op n ws Gs)).
Proof.
  intros n ws Gs Hs W LG LH E. rewrite <- (lfac_obs n ws Gs W), <- (lfac_obs n ws Hs W), prod_adj. apply prod_of_ext. intros i Hi.
  destruct (in_dec Nat.eq_dec i ws) as [I|I].
  - apply (In_nth _ _ 0) in I. destruct I as (j & Hj & <-). rewrite !lfac_in; auto; try apply W; try (rewrite repeat_length; apply W).
  - rewrite !lfac_out by (auto; rewrite repeat_length; apply W). rewrite !fac_repeat. symmetry. apply adj_id.
Qed.

Lemma rot_ops_inv : forall k ps L i, length ps = length (kind_axes k) * L -> i < L ->
  op_eq 1 (nth i (rot_ops (kind_inv k) (inv_params (length (kind_axes k)) L ps) L) id_op) (adj_op (nth i (rot_ops k ps L) id_op)).
Proof.
  intros k ps L i HL Hi. unfold rot_ops. rewrite !nth_map_seq by auto.
  destruct k; cbn [kind_axes length kind_inv] in *;
    ((rewrite (skipn3 ps (3 * i)), (skipn3 (inv_params 3 L ps) (3 * i)) by (rewrite ?inv_params_length; lia)) || (rewrite (skipn2 ps (2 * i)), (skipn2 (inv_params 2 L ps) (2 * i)) by (rewrite ?inv_params_length; lia)));
    rewrite inv_params_1 by lia; rewrite !inv_params_nth by lia; cbn [Nat.sub]; rewrite ?Nat.add_0_r; unfold axes_op; cbn [combine fold_left fst snd];
    rewrite !axis_adj, !mul_op_id_r, ?adj_mul, ?mul_op_assoc; reflexivity.
Qed.

Lemma ring_inv : forall (n d : nat) ws, map gi_inv (rev (ring_gates d ws)) = rev (ring_gates d ws).
Proof.
  intros n d ws. rewrite <- (map_id (rev (ring_gates d ws))) at 2. apply map_ext_in. intros g Hg. apply in_rev in Hg.
  destruct ws as [|a [|b [|c ws]]]; cbn [ring_gates] in Hg;
    [destruct Hg| |destruct Hg as [<-|[]]; reflexivity|]; apply in_map_iff in Hg; destruct Hg as (i & <- & _); reflexivity.
Qed.

Lemma li_inv_op : forall n l l', li_ok n l -> li_inv l = Some l' -> op_eq n (li_op n l') (adj_op (li_op n l)).
Proof.
  intros n [k ws ps|ws|ws|ws|ws|rep ws ps] l' H E; injection E as <- || discriminate E; cbn [li_ok] in *; unfold li_op; cbn [li_gates].
  - rewrite <- !rot_obs by apply H. apply obs_adj; [apply H|apply rot_ops_length|apply rot_ops_length|]. intros i Hi. now apply rot_ops_inv.
  - rewrite H_gates_obs. apply obs_adj; [apply H|now rewrite map_length, seq_length|now rewrite map_length, seq_length|]. intros i Hi.
    rewrite !nth_map_seq by auto. symmetry. apply H_adj.
  - rewrite <- (ring_inv n 1 ws). apply gs_op_rev_inv. apply ring_gates_ok; tauto.
  - rewrite <- (gs_op_rev_inv n (rev (ring_gates 1 ws))) by (apply Forall_rev, ring_gates_ok; tauto). rewrite rev_involutive.
    pose proof (ring_inv n 1 ws) as R. rewrite map_rev in R. apply (f_equal (@rev gi)) in R. rewrite !rev_involutive in R. now rewrite R.
Qed.

(** * params_update *)
Lemma layer_update_ok : forall n l ps, li_ok n (li_set l ps) -> layer_params_update (lobj n l) ps = Ok (lobj n (li_set l ps)).
Proof.
  intros n [k ws q|ws|ws|ws|ws|rep ws q] ps H; cbn [li_ok layer_params_update lobj li_set] in *; try reflexivity.
  - destruct k; reflexivity.
  - rewrite basic_update_ok by tauto. reflexivity.
Qed.
