(** Lemmas: rings as contractions and on matrix product states. *)
From Coq Require Import List ZArith QArith Reals Lra Lia ZifyBool Bool Arith Ring Setoid Morphisms.
From Verif Require Import PyBase Scalar CInst BigSum Index Tensor TensorFacts Spec SpecFacts QMath QTN QOperator
  ExpandFacts ExpandFacts2 ContractFacts ContractFacts2 GateSpec QGates GateCalls GateFacts GateFacts2 GateFacts3 GateFacts4 RunSpec
  MPSSpec MPSFacts1 MPSFacts2 MPSFacts4 MPSFacts5 MPSFacts6 MPSFacts8 MPSFacts9 LayerSpec QLayers LayerCalls LayerFacts1 LayerFacts2.
Import ListNotations.
Local Close Scope Q_scope.
Local Close Scope R_scope.
Local Open Scope nat_scope.

Lemma ring_gates_list : forall d ws, length ws <> 2 -> ring_gates d ws = ring_list d ws.
Proof. intros d ws H. destruct ws as [|a [|b [|c ws]]]; try reflexivity. cbn in H. lia. Qed.

Lemma ring_gates_ok : forall n d ws, good_wires n ws -> 2 <= length ws -> d = 1 \/ d = 2 -> Forall (gi_ok n) (ring_gates d ws).
Proof.
  intros n d ws W H Hd. destruct (Nat.eq_dec (length ws) 2) as [E|E].
  - destruct ws as [|a [|b [|c ws]]]; cbn [length] in E; try lia. cbn [ring_gates]. constructor; [|constructor]. split; [exact W|exact I].
  - rewrite ring_gates_list by auto. apply ring_list_ok; auto; lia.
Qed.

Lemma zmap_inj : forall l l', map Z.of_nat l = map Z.of_nat l' -> l = l'.
Proof. induction l as [|a l IH]; intros [|b l'] H; try discriminate; auto. injection H as H1 H2. f_equal; [lia|auto]. Qed.
Lemma is_range_true : forall n ws, is_range (mkR (Z.of_nat n) (map Z.of_nat ws)) = true <-> ws = seq 0 n.
Proof.
  intros n ws. unfold is_range. cbn [r_wires r_N]. rewrite Nat2Z.id. unfold zrange. destruct list_eq_dec as [E|E].
  - split; auto. intros _. now apply zmap_inj.
  - split; [discriminate|]. intros ->. congruence.
Qed.
Lemma is_range_seq : forall n, is_range (mkR (Z.of_nat n) (map Z.of_nat (seq 0 n))) = true.
Proof. intros. now apply is_range_true. Qed.

Lemma ring_two_ok : forall n a b, good_wires n [a; b] -> ring_two (mkR (Z.of_nat n) (map Z.of_nat [a; b])) = Ok (op_tensor n (gs_op n [gi_cnot a b])).
Proof.
  intros n a b W. apply gw2 in W. destruct W as (Wa & Wb & Wn). unfold ring_two. cbn [r_wires r_N map].
  change (py_nth [Z.of_nat a; Z.of_nat b] 0) with (Ok (Z.of_nat a)). change (py_nth [Z.of_nat a; Z.of_nat b] 1) with (Ok (Z.of_nat b)). cbn [bind].
  rewrite cnot_U_ok by auto. f_equal. apply op_tensor_ext. symmetry. apply gs_op_1.
Qed.

Lemma ring_U_ok : forall n ws, good_wires n ws -> 2 <= length ws ->
  ring_U (mkR (Z.of_nat n) (map Z.of_nat ws)) = Ok (op_tensor n (gs_op n (ring_gates 1 ws))).
Proof.
  intros n ws W H. unfold ring_U. cbn [r_wires r_N]. rewrite map_length. destruct (length ws =? 2) eqn:E.
  - destruct ws as [|a [|b [|c ws]]]; cbn in E; try discriminate. now apply ring_two_ok.
  - rewrite ring_gates_list by lia. destruct (is_range _) eqn:R.
    + apply is_range_true in R. subst ws. rewrite seq_length in *. apply ring_fusion_ok. lia.
    + apply ring_product_ok; auto; lia.
Qed.
Lemma ring_dag_U_ok : forall n ws, good_wires n ws -> 2 <= length ws ->
  ring_dag_U (mkR (Z.of_nat n) (map Z.of_nat ws)) = Ok (op_tensor n (gs_op n (rev (ring_gates 1 ws)))).
Proof.
  intros n ws W H. unfold ring_dag_U. cbn [r_wires r_N]. rewrite map_length. destruct (length ws =? 2) eqn:E.
  - destruct ws as [|a [|b [|c ws]]]; cbn in E; try discriminate. now apply ring_two_ok.
  - rewrite ring_gates_list by lia. destruct (is_range _) eqn:R.
    + apply is_range_true in R. subst ws. rewrite seq_length in *. apply ring_dag_fusion_ok. lia.
    + apply ring_dag_product_ok; auto; lia.
Qed.
Lemma ring2_U_ok : forall n ws, good_wires n ws -> 2 <= length ws ->
  ring2_U (mkR (Z.of_nat n) (map Z.of_nat ws)) = Ok (op_tensor n (gs_op n (ring_gates 2 ws))).
Proof.
  intros n ws W H. unfold ring2_U. cbn [r_wires r_N]. rewrite map_length. destruct (length ws =? 2) eqn:E.
  - destruct ws as [|a [|b [|c ws]]]; cbn in E; try discriminate. now apply ring_two_ok.
  - rewrite ring_gates_list by lia. destruct (is_range _) eqn:R.
    + apply is_range_true in R. subst ws. rewrite seq_length in *. apply ring2_fusion_ok. lia.
    + apply ring_product_ok; auto; lia.
Qed.

(** * Contraction of a sequence of gates *)
Lemma contract_gs : forall n gs f, Forall (gi_ok n) gs -> forallb (fun g => negb (is_mcx g)) gs = true ->
  mfold (fun t g => TN_contract (obj n g) t false) gs (tbuild (repeat 2 n) f) = Ok (tbuild (repeat 2 n) (act n (gs_op n gs) f)).
Proof.
  intros n gs f H. revert f. induction H as [|g gs H HF IH]; intros f M.
  - cbn [mfold]. f_equal. apply tbuild_st_ext. symmetry. apply act_id.
  - cbn [forallb] in M. apply andb_prop in M. destruct M as [M1 M2]. apply negb_true_iff in M1. cbn [mfold]. rewrite TN_contract_obj_act by auto. cbn [bind].
    rewrite IH by auto. f_equal. apply tbuild_st_ext. rewrite gs_op_cons. symmetry. apply act_mul.
Qed.
Lemma batched_batched : forall B n h k F, (forall f g, st_eq n f g -> st_eq n (k f) (k g)) ->
  tbuild (B :: repeat 2 n) (batched k (batched h F)) = tbuild (B :: repeat 2 n) (batched (fun f => k (h f)) F).
Proof. reflexivity. Qed.
Lemma contract_gs_batch : forall B n gs F, Forall (gi_ok n) gs -> forallb (fun g => negb (is_mcx g)) gs = true ->
  mfold (fun t g => TN_contract (obj n g) t true) gs (tbuild (B :: repeat 2 n) F) = Ok (tbuild (B :: repeat 2 n) (batched (act n (gs_op n gs)) F)).
Proof.
  intros B n gs F H. revert F. induction H as [|g gs H HF IH]; intros F M.
  - cbn [mfold]. f_equal. apply tbuild_ext. intros idx Hi. destruct idx as [|j idx]; [inversion Hi|]. unfold batched. cbn [hd tl]. symmetry.
    apply (act_id n (fun b => F (j :: b))). apply valid_cons in Hi. rewrite bits_all_idx. apply in_all_idx, Hi.
  - cbn [forallb] in M. apply andb_prop in M. destruct M as [M1 M2]. apply negb_true_iff in M1. cbn [mfold]. rewrite TN_contract_obj_batch_act by auto. cbn [bind].
    rewrite IH by auto. f_equal. rewrite batched_batched by (intros; now apply act_proper). apply batched_ext. intros f. rewrite gs_op_cons. symmetry. apply act_mul.
Qed.

Lemma ring_step_contract : forall n i b t, 2 <= n -> i < n ->
  ring_contract_step (mkR (Z.of_nat n) (map Z.of_nat (seq 0 n))) b (Z.of_nat n) t i = TN_contract (obj n (gi_cnot i ((i + 1) mod n))) t b.
Proof.
  intros n i b t Hn Hi. unfold ring_contract_step. cbn [r_wires]. rewrite map_length, seq_length.
  assert (M : (i + 1) mod n < n) by (apply Nat.mod_upper_bound; lia).
  rewrite !(py_nth_nat _ _ _ (Z.of_nat 0)) by (rewrite map_length, seq_length; auto). rewrite !map_nth, !seq_nth by auto. cbn [bind plus].
  change (cnot (Z.of_nat n) (WList [Z.of_nat i; Z.of_nat ((i + 1) mod n)])) with (build n (gi_cnot i ((i + 1) mod n))). rewrite build_ok. reflexivity.
Qed.

Lemma ring_contract_gs : forall n b t, 2 <= n ->
  ring_TN_contract (mkR (Z.of_nat n) (map Z.of_nat (seq 0 n))) t b = mfold (fun t g => TN_contract (obj n g) t b) (ring_gates 1 (seq 0 n)) t.
Proof.
  intros n b t Hn. unfold ring_TN_contract, raise_if. rewrite is_range_seq. cbn [negb r_N r_wires]. destruct (Z.of_nat n =? 2)%Z eqn:E.
  - assert (n = 2) by lia. subst n. change 2%Z with (Z.of_nat 2). rewrite ring_step_contract by lia. cbn [seq ring_gates mfold]. now destruct TN_contract.
  - rewrite ring_gates_list by (rewrite seq_length; lia). rewrite map_length, seq_length, ring_list_seq, mfold_map. apply mfold_ext. intros u i Hi.
    apply in_seq in Hi. apply ring_step_contract; lia.
Qed.
Lemma ring_dag_contract_gs : forall n b t, 2 <= n ->
  ring_dag_TN_contract (mkR (Z.of_nat n) (map Z.of_nat (seq 0 n))) t b = mfold (fun t g => TN_contract (obj n g) t b) (rev (ring_gates 1 (seq 0 n))) t.
Proof.
  intros n b t Hn. unfold ring_dag_TN_contract, raise_if. rewrite is_range_seq. cbn [negb r_N r_wires]. destruct (Z.of_nat n =? 2)%Z eqn:E.
  - assert (n = 2) by lia. subst n. change 2%Z with (Z.of_nat 2). rewrite ring_step_contract by lia. cbn [seq ring_gates mfold rev app]. now destruct TN_contract.
  - rewrite ring_gates_list by (rewrite seq_length; lia). rewrite map_length, seq_length, ring_list_seq, <- map_rev, mfold_map. apply mfold_ext. intros u i Hi.
    apply in_rev in Hi. apply in_seq in Hi. apply ring_step_contract; lia.
Qed.
Lemma ring_no_mcx : forall d ws, forallb (fun g => negb (is_mcx g)) (ring_gates d ws) = true.
Proof.
  intros d ws. apply forallb_forall. intros g Hg. destruct ws as [|a [|b [|c ws]]]; cbn [ring_gates] in Hg;
    [destruct Hg| |destruct Hg as [<-|[]]; reflexivity|]; apply in_map_iff in Hg; destruct Hg as (i & <- & _); reflexivity.
Qed.
Lemma forallb_rev : forall A (f : A -> bool) l, forallb f (rev l) = forallb f l.
Proof. intros A f l. apply eq_true_iff_eq. rewrite !forallb_forall. split; intros H x Hx; apply H; [now apply in_rev in Hx|now apply in_rev]; rewrite rev_involutive in *; auto. Qed.

(** * The swap ladder *)
Lemma swap_gate_conj : forall n c j, S j < n -> c < n -> c <> j -> c <> S j ->
  op_eq n (gs_op n [gi_swap j (S j); gi_cnot c (S j); gi_swap j (S j)]) (gi_op n (gi_cnot c j)).
Proof.
  intros n c j Hj Hc N1 N2. rewrite !gs_op_cons. change (gs_op n []) with (@id_op C_scalar). rewrite mul_op_id_l, mul_op_assoc.
  rewrite (gi_op_lift n (gi_cnot c (S j))) by (apply cnot_okb; lia). rewrite (gi_op_lift n (gi_cnot c j)) by (apply cnot_okb; lia).
  cbn [gi_wires gi_op gi_loc]. rewrite swap_conj_lift; [|lia|lia|apply good_wires_2; lia].
  cbn [map]. unfold trp. rewrite Nat.eqb_refl. replace (c =? S j) with false by lia. replace (c =? j) with false by lia. reflexivity.
Qed.

Definition sw (i : nat) : gi := gi_swap i (S i).
Lemma swap_ladder : forall n c m j, c < n -> j + m < c ->
  op_eq n (gs_op n (map sw (seq j m) ++ [gi_cnot c (j + m)] ++ rev (map sw (seq j m)))) (gi_op n (gi_cnot c j)).
Proof.
  intros n c. induction m as [|m IH]; intros j Hc Hj.
  - cbn [seq map app rev]. rewrite Nat.add_0_r. apply gs_op_1.
  - replace (j + S m) with (S j + m) by lia.
    assert (E : map sw (seq j (S m)) ++ [gi_cnot c (S j + m)] ++ rev (map sw (seq j (S m)))
      = [sw j] ++ ((map sw (seq (S j) m) ++ [gi_cnot c (S j + m)] ++ rev (map sw (seq (S j) m))) ++ [sw j])).
    { cbn [seq map rev app]. now rewrite <- !app_assoc. }
    rewrite E, gs_op_app, gs_op_app, (IH (S j)) by lia.
    rewrite <- (swap_gate_conj n c j) by lia. rewrite !gs_op_cons. change (gs_op n []) with (@id_op C_scalar). rewrite !mul_op_id_l. unfold sw. reflexivity.
Qed.

(** the gates executed by [closing_TN] *)
Definition closing_gates (n : nat) : list gi := map sw (seq 0 (n - 2)) ++ [gi_cnot (n - 1) (n - 2)] ++ rev (map sw (seq 0 (n - 2))).
Lemma closing_op : forall n, 3 <= n -> op_eq n (gs_op n (closing_gates n)) (gi_op n (gi_cnot (n - 1) 0)).
Proof. intros n H. unfold closing_gates. apply (swap_ladder n (n - 1) (n - 2) 0); lia. Qed.
Lemma sw_ok : forall n j m, j + m < n -> Forall (gi_ok n) (map sw (seq j m)).
Proof. intros n j m H. apply Forall_forall. intros g Hg. apply in_map_iff in Hg. destruct Hg as (i & <- & Hi). apply in_seq in Hi. apply swap_okb; lia. Qed.
Lemma closing_ok : forall n, 3 <= n -> Forall (gi_ok n) (closing_gates n).
Proof.
  intros n H. unfold closing_gates. rewrite !Forall_app. split; [apply sw_ok; lia|]. split; [constructor; [apply cnot_okb; lia|constructor]|].
  apply Forall_rev, sw_ok. lia.
Qed.

Lemma zrange2_0 : forall n, zrange2 0 (Z.of_nat n) = map Z.of_nat (seq 0 n).
Proof. intros. unfold zrange2. replace (Z.to_nat (Z.of_nat n - 0)) with n by lia. apply map_ext. intros. lia. Qed.
Lemma zrange_down_rev : forall n, zrange_down (Z.of_nat n - 1) (-1) = map Z.of_nat (rev (seq 0 n)).
Proof.
  intros n. unfold zrange_down. replace (Z.to_nat (Z.of_nat n - 1 - -1)) with n by lia. induction n as [|n IH]; [reflexivity|].
  replace (map Z.of_nat (rev (seq 0 (S n)))) with (Z.of_nat n :: map Z.of_nat (rev (seq 0 n))) by (rewrite (seq_S n 0), rev_app_distr; reflexivity).
  rewrite <- IH. change (seq 0 (S n)) with (0 :: seq 1 n). rewrite <- seq_shift. cbn [map]. f_equal; [lia|]. rewrite map_map. apply map_ext. intros; lia.
Qed.

Section MPS.
  Variable svd : tensor -> tensor * tensor * tensor.
  Lemma swap_TN_obj : forall n i l, swap_TN svd (Z.of_nat n) (Z.of_nat i) (Z.of_nat i + 1) l = TN_operation svd (obj n (sw i)) l.
  Proof.
    intros. unfold swap_TN. replace (Z.of_nat i + 1)%Z with (Z.of_nat (S i)) by lia.
    change (SWAP (Z.of_nat n) (WList [Z.of_nat i; Z.of_nat (S i)])) with (build n (sw i)). now rewrite build_ok.
  Qed.
  Lemma cnot_TN_obj : forall n a b l, cnot_TN svd (Z.of_nat n) (Z.of_nat a) (Z.of_nat b) l = TN_operation svd (obj n (gi_cnot a b)) l.
  Proof.
    intros. unfold cnot_TN. change (cnot (Z.of_nat n) (WList [Z.of_nat a; Z.of_nat b])) with (build n (gi_cnot a b)). now rewrite build_ok.
  Qed.
  Lemma closing_TN_gs : forall n l, 3 <= n ->
    closing_TN svd (Z.of_nat n) (Z.of_nat n) l = mfold (fun l g => TN_operation svd (obj n g) l) (closing_gates n) l.
  Proof.
    intros n l H. unfold closing_TN, closing_gates. rewrite app_assoc, mfold_app.
    replace (Z.of_nat n - 1)%Z with (Z.of_nat (n - 1)) by lia. rewrite zrange2_0.
    replace (Z.of_nat n - 3)%Z with (Z.of_nat (n - 2) - 1)%Z by lia. rewrite zrange_down_rev.
    assert (X : mfold (fun MPS i => if negb (i =? Z.of_nat n - 2)%Z then swap_TN svd (Z.of_nat n) i (i + 1) MPS
        else cnot_TN svd (Z.of_nat n) (i + 1) i MPS) (map Z.of_nat (seq 0 (n - 1))) l
      = mfold (fun l g => TN_operation svd (obj n g) l) (map sw (seq 0 (n - 2)) ++ [gi_cnot (n - 1) (n - 2)]) l).
    { replace (n - 1) with (S (n - 2)) by lia. rewrite seq_S, map_app, !mfold_app, !mfold_map. cbn [plus map mfold].
      assert (E : mfold (fun a b => if negb (Z.of_nat b =? Z.of_nat n - 2)%Z then swap_TN svd (Z.of_nat n) (Z.of_nat b) (Z.of_nat b + 1) a
        else cnot_TN svd (Z.of_nat n) (Z.of_nat b + 1) (Z.of_nat b) a) (seq 0 (n - 2)) l
        = mfold (fun a b => TN_operation svd (obj n (sw b)) a) (seq 0 (n - 2)) l).
      { apply mfold_ext. intros a i Hi. apply in_seq in Hi. replace (Z.of_nat i =? Z.of_nat n - 2)%Z with false by lia. cbn [negb]. apply swap_TN_obj. }
      rewrite E. clear E. destruct mfold as [l1|e]; cbn [bind]; auto. replace (Z.of_nat (n - 2) =? Z.of_nat n - 2)%Z with true by lia. cbn [negb].
      replace (Z.of_nat (n - 2) + 1)%Z with (Z.of_nat (S (n - 2))) by lia. rewrite cnot_TN_obj. reflexivity. }
    rewrite X. clear X. destruct mfold as [l1|e]; cbn [bind]; auto. rewrite <- map_rev, !mfold_map. apply mfold_ext. intros a i Hi. apply swap_TN_obj.
  Qed.

  Definition line_gates (m : nat) : list gi := map (fun i => gi_cnot i (S i)) (seq 0 m).

  Lemma line_TN_gs : forall n m l, mfold (fun MPS i => cnot_TN svd (Z.of_nat n) i (i + 1) MPS) (map Z.of_nat (seq 0 m)) l
    = mfold (fun l g => TN_operation svd (obj n g) l) (line_gates m) l.
  Proof.
    intros n m l. unfold line_gates. rewrite !mfold_map. apply mfold_ext. intros a i _. replace (Z.of_nat i + 1)%Z with (Z.of_nat (S i)) by lia. apply cnot_TN_obj.
  Qed.
  Lemma line_down_TN_gs : forall n m l, mfold (fun MPS i => cnot_TN svd (Z.of_nat n) i (i + 1) MPS) (map Z.of_nat (rev (seq 0 m))) l
    = mfold (fun l g => TN_operation svd (obj n g) l) (rev (line_gates m)) l.
  Proof.
    intros n m l. unfold line_gates. rewrite <- map_rev, !mfold_map. apply mfold_ext. intros a i _. replace (Z.of_nat i + 1)%Z with (Z.of_nat (S i)) by lia. apply cnot_TN_obj.
  Qed.

  (** the gates executed on a matrix product state *)
  Definition ring_run (n : nat) : list gi := if n =? 2 then line_gates 1 else line_gates (n - 1) ++ closing_gates n.
  Definition ring_dag_run (n : nat) : list gi := if n =? 2 then line_gates 1 else closing_gates n ++ rev (line_gates (n - 1)).

  Lemma ring_TN_gs : forall n l, 2 <= n -> ring_TN_operation svd (mkR (Z.of_nat n) (map Z.of_nat (seq 0 n))) l
    = mfold (fun l g => TN_operation svd (obj n g) l) (ring_run n) l.
  Proof.
    intros n l H. unfold ring_TN_operation, raise_if. rewrite is_range_seq. cbn [negb r_N r_wires]. rewrite map_length, seq_length.
    replace (Z.of_nat n - 1)%Z with (Z.of_nat (n - 1)) by lia. rewrite zrange2_0, line_TN_gs. unfold ring_run. destruct (n =? 2) eqn:E.
    - replace (Z.of_nat n =? 2)%Z with true by lia. replace (n - 1) with 1 by lia. now destruct mfold.
    - replace (Z.of_nat n =? 2)%Z with false by lia. rewrite mfold_app. destruct mfold as [l1|e]; cbn [bind]; auto. apply closing_TN_gs. lia.
  Qed.
  Lemma ring_dag_TN_gs : forall n l, 2 <= n -> ring_dag_TN_operation svd (mkR (Z.of_nat n) (map Z.of_nat (seq 0 n))) l
    = mfold (fun l g => TN_operation svd (obj n g) l) (ring_dag_run n) l.
  Proof.
    intros n l H. unfold ring_dag_TN_operation, raise_if. rewrite is_range_seq. cbn [negb r_N r_wires]. rewrite map_length, seq_length.
    unfold ring_dag_run. destruct (n =? 2) eqn:E.
    - replace (Z.of_nat n =? 2)%Z with true by lia. assert (n = 2) by lia. subst n. change 2%Z with (Z.of_nat 2). change 0%Z with (Z.of_nat 0). change 1%Z with (Z.of_nat 1).
      rewrite cnot_TN_obj. unfold line_gates. cbn [seq map mfold]. now destruct TN_operation.
    - replace (Z.of_nat n =? 2)%Z with false by lia. rewrite mfold_app, closing_TN_gs by lia. destruct mfold as [l1|e]; cbn [bind]; auto.
      replace (Z.of_nat n - 2)%Z with (Z.of_nat (n - 1) - 1)%Z by lia. rewrite zrange_down_rev. apply line_down_TN_gs.
  Qed.
End MPS.

Lemma line_ok : forall n m, m < n -> Forall (gi_ok n) (line_gates m).
Proof. intros n m H. apply Forall_forall. intros g Hg. apply in_map_iff in Hg. destruct Hg as (i & <- & Hi). apply in_seq in Hi. apply cnot_okb; lia. Qed.
Lemma ring_run_ok : forall n, 2 <= n -> Forall (gi_ok n) (ring_run n).
Proof.
  intros n H. unfold ring_run. destruct (n =? 2) eqn:E; [apply line_ok; lia|]. apply Forall_app. split; [apply line_ok; lia|apply closing_ok; lia].
Qed.
Lemma ring_dag_run_ok : forall n, 2 <= n -> Forall (gi_ok n) (ring_dag_run n).
Proof.
  intros n H. unfold ring_dag_run. destruct (n =? 2) eqn:E; [apply line_ok; lia|]. apply Forall_app. split; [apply closing_ok; lia|apply Forall_rev, line_ok; lia].
Qed.

Lemma ring_gates_seq : forall n, 3 <= n -> ring_gates 1 (seq 0 n) = line_gates (n - 1) ++ [gi_cnot (n - 1) 0].
Proof.
  intros n H. rewrite ring_gates_list by (rewrite seq_length; lia). rewrite ring_list_seq. unfold line_gates.
  replace (seq 0 n) with (seq 0 (n - 1) ++ [n - 1]) by (change [n - 1] with [0 + (n - 1)]; rewrite <- seq_S; f_equal; lia).
  rewrite map_app. cbn [map]. f_equal.
  - apply map_ext_in. intros i Hi. apply in_seq in Hi. rewrite Nat.mod_small by lia. f_equal. lia.
  - replace (n - 1 + 1) with (0 + 1 * n) by lia. now rewrite Nat.mod_add, Nat.mod_small by lia.
Qed.
Lemma ring_run_op : forall n, 2 <= n -> op_eq n (gs_op n (ring_run n)) (gs_op n (ring_gates 1 (seq 0 n))).
Proof.
  intros n H. unfold ring_run. destruct (n =? 2) eqn:E.
  - assert (n = 2) by lia. subst n. reflexivity.
  - rewrite ring_gates_seq, gs_op_app, gs_op_snoc, closing_op by lia. reflexivity.
Qed.
Lemma ring_dag_run_op : forall n, 2 <= n -> op_eq n (gs_op n (ring_dag_run n)) (gs_op n (rev (ring_gates 1 (seq 0 n)))).
Proof.
  intros n H. unfold ring_dag_run. destruct (n =? 2) eqn:E.
  - assert (n = 2) by lia. subst n. reflexivity.
  - rewrite ring_gates_seq, rev_app_distr, gs_op_app, closing_op by lia. cbn [rev app]. now rewrite gs_op_cons.
Qed.
Lemma line_TN : forall m, forallb has_TN (line_gates m) = true.
Proof. intros. apply forallb_forall. intros g Hg. apply in_map_iff in Hg. now destruct Hg as (i & <- & _). Qed.
Lemma sw_TN : forall j m, forallb has_TN (map sw (seq j m)) = true.
Proof. intros. apply forallb_forall. intros g Hg. apply in_map_iff in Hg. now destruct Hg as (i & <- & _). Qed.
Lemma closing_has_TN : forall n, forallb has_TN (closing_gates n) = true.
Proof. intros. unfold closing_gates. rewrite !forallb_app, forallb_rev, sw_TN. reflexivity. Qed.
Lemma ring_run_TN : forall n, forallb has_TN (ring_run n) = true.
Proof. intros. unfold ring_run. destruct (n =? 2); [reflexivity|]. now rewrite forallb_app, line_TN, closing_has_TN. Qed.
Lemma ring_dag_run_TN : forall n, forallb has_TN (ring_dag_run n) = true.
Proof. intros. unfold ring_dag_run. destruct (n =? 2); [reflexivity|]. now rewrite forallb_app, forallb_rev, line_TN, closing_has_TN. Qed.

Lemma run_gs : forall svd n gs l psi, exact_svd svd -> Forall (gi_ok n) gs -> forallb has_TN gs = true -> is_mps n l psi -> nonzero n psi ->
  exists l', mfold (fun l g => TN_operation svd (obj n g) l) gs l = Ok l' /\ is_mps n l' (act n (gs_op n gs) psi).
Proof.
  intros svd n gs l psi Hs HF HT HM Hn. destruct (run_ok svd n gs l psi Hs HF HT HM Hn) as (l' & E & M & _). exists l'. split; [|exact M].
  rewrite mfold_map in E. exact E.
Qed.
Lemma run_shape : forall svd n gs l l', svd_shapes svd -> Forall (gi_ok n) gs -> mps_shape n l ->
  mfold (fun l g => TN_operation svd (obj n g) l) gs l = Ok l' -> mps_shape n l'.
Proof.
  intros svd n gs l l' Hs HF. revert l. induction HF as [|g gs H HF IH]; intros l HM E; cbn [mfold] in E; [injection E as <-; exact HM|].
  apply bind_inv in E. destruct E as (l1 & E1 & E2). apply (IH l1); auto. eapply TN_operation_shape; eauto.
Qed.

Lemma ring_TN_ok : forall svd n l psi, exact_svd svd -> 2 <= n -> is_mps n l psi -> nonzero n psi ->
  exists l', ring_TN_operation svd (mkR (Z.of_nat n) (map Z.of_nat (seq 0 n))) l = Ok l' /\ is_mps n l' (act n (gs_op n (ring_gates 1 (seq 0 n))) psi).
Proof.
  intros svd n l psi Hs H HM Hn. rewrite ring_TN_gs by auto.
  destruct (run_gs svd n (ring_run n) l psi Hs (ring_run_ok n H) (ring_run_TN n) HM Hn) as (l' & E & M). exists l'. split; [exact E|].
  eapply is_mps_st; [exact M|]. now rewrite ring_run_op.
Qed.
Lemma ring_dag_TN_ok : forall svd n l psi, exact_svd svd -> 2 <= n -> is_mps n l psi -> nonzero n psi ->
  exists l', ring_dag_TN_operation svd (mkR (Z.of_nat n) (map Z.of_nat (seq 0 n))) l = Ok l' /\ is_mps n l' (act n (gs_op n (rev (ring_gates 1 (seq 0 n)))) psi).
Proof.
  intros svd n l psi Hs H HM Hn. rewrite ring_dag_TN_gs by auto.
  destruct (run_gs svd n (ring_dag_run n) l psi Hs (ring_dag_run_ok n H) (ring_dag_run_TN n) HM Hn) as (l' & E & M). exists l'. split; [exact E|].
  eapply is_mps_st; [exact M|]. now rewrite ring_dag_run_op.
Qed.
