(** Lemmas: PauliEncoding, AmplitudeEncoding. *)
From Coq Require Import List ZArith QArith Reals Lra Lia Bool Arith String.
From Verif Require Import PyBase Scalar CInst BigSum Index Tensor TensorFacts Spec SpecFacts QMath QTN QOperator GateSpec QGates GateCalls RunSpec MPSSpec
  ContractFacts2 GateFacts GateFacts3 GateFacts6 GateProofs ExpandFacts2 ExpandFacts ContractFacts MPSFacts1 MPSFacts3 MPSFacts5 MPSFacts6 MPSFacts7 LayerSpec QLayers LayerFacts1 LayerProofs MeasSpec MeasFacts EmbedSpec QEmbedding.
Import ListNotations.
Local Close Scope Q_scope.
Local Close Scope R_scope.
Local Open Scope nat_scope.
Notation length := List.length.

(** * PauliEncoding *)
Definition axis_m (a : axis) : tensor := match a with AX => PauliX_m | AY => PauliY_m | AZ => PauliZ_m end.
Lemma axis_m_ok : forall a t, rot_m (axis_m a) 2 t = Ok (op_tensor 1 (axis_op a t)).
Proof. intros [] t; [apply rx_m_ok|apply ry_m_ok|apply rz_m_ok]. Qed.

Definition enc_ops (a : axis) (xs : list R) (L : nat) : list qop := map (fun i => axis_op a (nth (i mod length xs) xs 0%R)) (seq 0 L).

Lemma enc_matrix_ok : forall a xs L i, xs <> [] -> i < L -> enc_matrix (axis_m a) xs i = Ok (op_tensor 1 (nth i (enc_ops a xs L) id_op)).
Proof.
  intros a xs L i Hx Hi. unfold enc_matrix, raise_if.
  assert (HL : length xs <> 0) by (destruct xs; [congruence|cbn; lia]).
  replace (length xs =? 0) with false by (symmetry; now apply Nat.eqb_neq).
  rewrite (py_nth_nat _ _ _ 0%R) by (now apply Nat.mod_upper_bound). cbn [bind]. rewrite axis_m_ok. do 2 f_equal.
  unfold enc_ops. rewrite (nth_map' _ _ (fun i => axis_op a (nth (i mod length xs) xs 0%R)) (seq 0 L) i id_op 0) by (now rewrite seq_length).
  now rewrite seq_nth.
Qed.

Lemma pe_gates_axis : forall a N xs ws, pe_single_gates (mkPE N xs (axis_name a) ws) = fill_wires (enc_matrix (axis_m a) xs) N ws.
Proof. intros [] N xs ws; reflexivity. Qed.

Lemma enc_gates_obs : forall n a ws xs, (forall w, In w ws -> w < n) -> op_eq n (gs_op n (enc_gates a ws xs)) (obs_op n ws (enc_ops a xs (length ws))).
Proof.
  intros n a ws xs. unfold enc_gates, enc_ops.
  assert (X : forall us j, (forall w, In w us -> w < n) ->
    op_eq n (gs_op n (map (fun i => axis_gate a (nth ((j + i) mod length xs) xs 0%R) (nth i us 0)) (seq 0 (length us))))
      (obs_op n us (map (fun i => axis_op a (nth ((j + i) mod length xs) xs 0%R)) (seq 0 (length us))))).
  { induction us as [|u us IH]; intros j HU; [reflexivity|]. cbn [length seq map nth]. rewrite gs_op_cons, obs_op_cons, axis_gate_op.
    apply mul_op_proper; [|reflexivity]. rewrite <- seq_shift, !map_map. cbn [nth].
    rewrite (map_ext _ (fun i => axis_gate a (nth ((S j + i) mod length xs) xs 0%R) (nth i us 0))) by (intros; now rewrite Nat.add_succ_comm).
    rewrite (map_ext (fun x => axis_op a (nth ((j + S x) mod length xs) xs 0%R)) (fun i => axis_op a (nth ((S j + i) mod length xs) xs 0%R))) by (intros; now rewrite Nat.add_succ_comm).
    apply IH. intros; apply HU; simpl; auto. }
  intros H. apply (X ws 0 H).
Qed.

Lemma pe_build : forall n a xs ws, length xs <= n -> PauliEncoding (Z.of_nat n) xs ws (axis_name a) = Ok (mkPE (Z.of_nat n) xs (axis_name a) ws).
Proof. intros n a xs ws H. unfold PauliEncoding, raise_if. replace (Z.of_nat n <? Z.of_nat (length xs))%Z with false by lia. reflexivity. Qed.

Section Pauli.
  Variables (n : nat) (a : axis) (xs : list R) (ws : list nat).
  Hypothesis Hx : xs <> [].
  Hypothesis W : good_wires n ws.
  Let e := mkPE (Z.of_nat n) xs (axis_name a) (map Z.of_nat ws).
  Let Gs := enc_ops a xs (length ws).
  Lemma enc_LG : length Gs = length ws. Proof. unfold Gs, enc_ops. now rewrite map_length, seq_length. Qed.
  Lemma enc_WM : forall i, i < length ws -> enc_matrix (axis_m a) xs i = Ok (op_tensor 1 (nth i Gs id_op)).
  Proof. intros i Hi. now apply enc_matrix_ok. Qed.
  Lemma pe_gates_ok : pe_single_gates e = Ok (map (op_tensor 1) (lfac ws Gs (repeat id_op n))).
  Proof. unfold e. rewrite pe_gates_axis. exact (fill_ok _ n ws Gs W enc_LG enc_WM). Qed.
  Lemma pe_U_ok : 0 < n -> pe_U e = Ok (op_tensor n (gs_op n (enc_gates a ws xs))).
  Proof.
    intros Hn. unfold pe_U, e. rewrite pe_gates_axis. rewrite (fill_U_ok _ n ws Gs W enc_LG enc_WM Hn). f_equal. apply op_tensor_ext.
    symmetry. apply enc_gates_obs, W.
  Qed.
  Lemma pe_contract_ok : forall f, pe_TN_contract e (tbuild (repeat 2 n) f) false = Ok (tbuild (repeat 2 n) (act n (gs_op n (enc_gates a ws xs)) f)).
  Proof.
    intros f. unfold pe_TN_contract. rewrite pe_gates_ok. cbn [bind e pe_N pe_wires]. rewrite (base_contract_ok n ws Gs W enc_LG).
    f_equal. apply tbuild_st_ext. rewrite enc_gates_obs by apply W. reflexivity.
  Qed.
  Lemma pe_contract_batch_ok : forall B F, pe_TN_contract e (tbuild (B :: repeat 2 n) F) true =
    Ok (tbuild (B :: repeat 2 n) (batched (act n (gs_op n (enc_gates a ws xs))) F)).
  Proof.
    intros B F. unfold pe_TN_contract. rewrite pe_gates_ok. cbn [bind e pe_N pe_wires]. rewrite (base_contract_batch_ok n ws Gs W enc_LG).
    f_equal. apply batched_ext. intros f. rewrite enc_gates_obs by apply W. reflexivity.
  Qed.
  Lemma pe_TN_ok : forall l psi, is_mps n l psi -> exists l', pe_TN_operation e l = Ok l' /\ is_mps n l' (act n (gs_op n (enc_gates a ws xs)) psi).
  Proof.
    intros l psi HM. unfold pe_TN_operation. rewrite pe_gates_ok. cbn [bind e pe_wires].
    destruct (base_TN_ok n ws Gs W enc_LG l psi HM) as (l' & E & M). exists l'. split; [exact E|]. eapply is_mps_st; [exact M|].
    rewrite enc_gates_obs by apply W. reflexivity.
  Qed.
End Pauli.

Lemma enc_gates_ok : forall n a ws xs, good_wires n ws -> Forall (gi_ok n) (enc_gates a ws xs).
Proof.
  intros n a ws xs W. apply Forall_forall. intros g Hg. apply in_map_iff in Hg. destruct Hg as (i & <- & Hi). apply in_seq in Hi.
  assert (nth i ws 0 < n) by (apply W, nth_In; lia). destruct a; (split; [now apply good_wires_1|exact I]).
Qed.

Lemma enc_matrix_main : forall n a xs ws, 0 < n -> xs <> [] -> length xs <= n -> good_wires n ws -> exists e u,
  PauliEncoding (Z.of_nat n) xs (map Z.of_nat ws) (axis_name a) = Ok e /\ pe_U e = Ok u /\ is_op n u (gs_op n (enc_gates a ws xs)) /\ unitary n (op_of u).
Proof.
  intros n a xs ws Hn Hx HL W. eexists. eexists. split; [now apply pe_build|]. split; [now apply pe_U_ok|]. split; [apply is_op_tensor|].
  rewrite op_of_tensor. apply gs_unitary. now apply enc_gates_ok.
Qed.

(** one wire at a time: entry <r|U|c> is the product over the wires of the rotation elements *)
Lemma enc_contract_main : forall n a xs ws s, xs <> [] -> length xs <= n -> good_wires n ws -> shape s = repeat 2 n -> wf s -> exists e s',
  PauliEncoding (Z.of_nat n) xs (map Z.of_nat ws) (axis_name a) = Ok e /\ pe_TN_contract e s false = Ok s' /\
  is_state n (repeat 2 n) s' (act n (gs_op n (enc_gates a ws xs)) (amp s)).
Proof.
  intros n a xs ws s Hx HL W S F. eexists. exists (tbuild (repeat 2 n) (act n (gs_op n (enc_gates a ws xs)) (amp s))). split; [now apply pe_build|].
  assert (E : s = tbuild (repeat 2 n) (amp s)).
  { apply state_eta. split; [exact S|]. split; [|intros b _; reflexivity]. unfold wf in F. rewrite F, S, prodn_repeat. reflexivity. }
  split; [rewrite E at 1; now apply pe_contract_ok|]. now apply state_eta.
Qed.

Lemma enc_batch_main : forall B n a xs ws t, xs <> [] -> length xs <= n -> good_wires n ws -> shape t = B :: repeat 2 n -> wf t -> exists e t',
  PauliEncoding (Z.of_nat n) xs (map Z.of_nat ws) (axis_name a) = Ok e /\ pe_TN_contract e t true = Ok t' /\ shape t' = B :: repeat 2 n /\ wf t' /\
  forall i u, i < B -> sample n i t u -> exists u', pe_TN_contract e u false = Ok u' /\ sample n i t' u'.
Proof.
  intros B n a xs ws t Hx HL W S F. destruct (wf_tbuild t _ S F) as (G & ->). eexists. eexists. split; [now apply pe_build|].
  split; [now apply pe_contract_batch_ok|]. split; [apply tbuild_shape|]. split; [apply tbuild_wf|].
  intros i u Hi Hu. apply state_eta in Hu. subst u. eexists. split; [now apply pe_contract_ok|].
  apply state_eta. apply tbuild_ext. intros idx Hv. symmetry. rewrite tget_tbuild; [|apply valid_cons; auto].
  unfold batched. cbn [hd tl]. apply act_proper; [reflexivity| |now apply bits_valid].
  intros b Hb. rewrite tget_tbuild; [reflexivity|]. apply valid_cons; split; [exact Hi|now apply bits_valid].
Qed.

Lemma enc_mps_main : forall n a xs ws m psi, xs <> [] -> length xs <= n -> good_wires n ws -> is_mps n m psi -> exists e m',
  PauliEncoding (Z.of_nat n) xs (map Z.of_nat ws) (axis_name a) = Ok e /\ pe_TN_operation e m = Ok m' /\
  is_mps n m' (act n (gs_op n (enc_gates a ws xs)) psi).
Proof.
  intros n a xs ws m psi Hx HL W HM. destruct (pe_TN_ok n a xs ws Hx W m psi HM) as (m' & E & M). eexists. exists m'. split; [now apply pe_build|]. now split.
Qed.

Lemma enc_too_many : forall N xs ws p, (N < Z.of_nat (length xs))%Z -> PauliEncoding N xs ws p = Err ValueError.
Proof. intros N xs ws p H. unfold PauliEncoding, raise_if. replace (N <? Z.of_nat (length xs))%Z with true by lia. reflexivity. Qed.

Lemma enc_bad_pauli : forall N xs ws p, (Z.of_nat (length xs) <= N)%Z -> (forall a, p <> axis_name a) -> exists e, PauliEncoding N xs ws p = Ok e /\
  pe_U e = Err ValueError /\ (forall m, pe_TN_operation e m = Err ValueError) /\ (forall t b, pe_TN_contract e t b = Err ValueError).
Proof.
  intros N xs ws p H HP. exists (mkPE N xs p ws).
  assert (E : pe_single_gates (mkPE N xs p ws) = Err ValueError).
  { unfold pe_single_gates. cbn [pe_pauli]. pose proof (HP AX) as P1. pose proof (HP AY) as P2. pose proof (HP AZ) as P3. cbn in P1, P2, P3.
    apply String.eqb_neq in P1, P2, P3. now rewrite P1, P2, P3. }
  unfold PauliEncoding, raise_if, pe_U, pe_TN_operation, pe_TN_contract. replace (N <? Z.of_nat (length xs))%Z with false by lia. rewrite E. auto.
Qed.

Lemma enc_fails : forall N a xs ws er, (forall lst, fill_wires (enc_matrix (axis_m a) xs) N ws <> Ok lst) -> fill_wires (enc_matrix (axis_m a) xs) N ws = Err er ->
  let e := mkPE N xs (axis_name a) ws in
  pe_U e = Err er /\ (forall m, pe_TN_operation e m = Err er) /\ (forall t b, pe_TN_contract e t b = Err er).
Proof. intros N a xs ws er _ H e. unfold e, pe_U, pe_TN_operation, pe_TN_contract. rewrite pe_gates_axis, H. auto. Qed.

Lemma enc_no_inputs : forall N a w ws, (0 <= N)%Z -> exists e, PauliEncoding N [] (w :: ws) (axis_name a) = Ok e /\
  pe_U e = Err ZeroDivisionError /\ (forall m, pe_TN_operation e m = Err ZeroDivisionError) /\ (forall t b, pe_TN_contract e t b = Err ZeroDivisionError).
Proof.
  intros N a w ws H. exists (mkPE N [] (axis_name a) (w :: ws)). split.
  { unfold PauliEncoding, raise_if. cbn [List.length]. replace (N <? Z.of_nat 0)%Z with false by lia. reflexivity. }
  now apply enc_fails; [intros lst; cbn; discriminate|].
Qed.

Lemma fill_ok_len : forall wm ws j (lst : list tensor) lst', mfold (fun l (iq : nat * Z) => do m <- wm (fst iq); py_set l (snd iq) m) (combine (seq j (length ws)) ws) lst = Ok lst' ->
  length lst' = length lst /\ Forall (fun w => exists k, py_index (length lst) w = Ok k) ws.
Proof.
  intros wm ws. induction ws as [|w ws IH]; intros j lst lst' H; cbn [length seq combine mfold fst snd] in H.
  - injection H as <-. split; [reflexivity|constructor].
  - apply bind_inv in H. destruct H as (l1 & E1 & E2). apply bind_inv in E1. destruct E1 as (m & _ & E1). unfold py_set in E1. apply bind_inv in E1.
    destruct E1 as (k & Ek & E1). injection E1 as <-. destruct (IH _ _ _ E2) as (L & F). rewrite set_nth_length in L, F. split; [exact L|]. constructor; eauto.
Qed.

(** the only errors with inputs: a wire out of range *)
Lemma fill_err : forall a xs N ws, xs <> [] -> (0 <= N)%Z -> Exists (fun w => w < - N \/ N <= w)%Z ws -> fill_wires (enc_matrix (axis_m a) xs) N ws = Err IndexError.
Proof.
  intros a xs N ws Hx HN HE. unfold fill_wires, enumerate.
  assert (X : forall us j (lst : list tensor), Z.of_nat (length lst) = N -> Exists (fun w => w < - N \/ N <= w)%Z us ->
    mfold (fun l (iq : nat * Z) => do m <- enc_matrix (axis_m a) xs (fst iq); py_set l (snd iq) m) (combine (seq j (length us)) us) lst = Err IndexError).
  { induction us as [|u us IH]; intros j lst HL H; [inversion H|]. cbn [length seq combine mfold fst snd].
    rewrite (enc_matrix_ok a xs (S j) j) by (auto; lia). cbn [bind]. unfold py_set.
    destruct (py_index (length lst) u) as [k|er] eqn:Ek; cbn [bind].
    - apply IH; [now rewrite set_nth_length|]. inversion H; subst; auto. exfalso.
      unfold py_index in Ek. destruct ((0 <=? u)%Z && (u <? Z.of_nat (length lst))%Z) eqn:E1; [lia|].
      destruct ((- Z.of_nat (length lst) <=? u)%Z && (u <? 0)%Z) eqn:E2; [lia|discriminate].
    - unfold py_index in Ek. destruct ((0 <=? u)%Z && (u <? Z.of_nat (length lst))%Z); [discriminate|].
      destruct ((- Z.of_nat (length lst) <=? u)%Z && (u <? 0)%Z); [discriminate|]. now injection Ek as <-. }
  apply X; auto. unfold eyes. rewrite repeat_length. lia.
Qed.
Lemma enc_wire_range : forall N a xs ws, xs <> [] -> (Z.of_nat (length xs) <= N)%Z -> Exists (fun w => w < - N \/ N <= w)%Z ws -> exists e,
  PauliEncoding N xs ws (axis_name a) = Ok e /\
  pe_U e = Err IndexError /\ (forall m, pe_TN_operation e m = Err IndexError) /\ (forall t b, pe_TN_contract e t b = Err IndexError).
Proof.
  intros N a xs ws Hx HL HE. exists (mkPE N xs (axis_name a) ws). split.
  { unfold PauliEncoding, raise_if. replace (N <? Z.of_nat (length xs))%Z with false by lia. reflexivity. }
  apply enc_fails; [intros lst; rewrite fill_err by (auto; lia); discriminate|]. apply fill_err; auto. lia.
Qed.

(** * AmplitudeEncoding *)
Lemma fold_norm : forall xs s, fold_left (fun norm each => (norm + Cabs each ^ 2)%R) xs s = (s + rsum xs Cnorm2)%R.
Proof.
  induction xs as [|x xs IH]; intros s; cbn [fold_left rsum]; [ring|]. rewrite IH. rewrite <- Rsqr_pow2. unfold Cabs. rewrite Rsqr_sqrt by apply Cnorm2_nonneg. ring.
Qed.
Lemma rsum_norm_nonneg : forall A (l : list A) f, (forall x, In x l -> 0 <= f x)%R -> (0 <= rsum l f)%R.
Proof. induction l as [|x l IH]; intros f H; cbn [rsum]; [lra|]. pose proof (H x (or_introl eq_refl)). specialize (IH f ltac:(intros; apply H; simpl; auto)). lra. Qed.
Lemma vsum_pos : forall xs, Exists (fun x => x <> RtoC 0) xs -> (0 < rsum xs Cnorm2)%R.
Proof.
  induction xs as [|x xs IH]; intros H; inversion H; subst; cbn [rsum].
  - pose proof (Cnorm2_nonneg x). pose proof (rsum_norm_nonneg C xs Cnorm2 ltac:(intros; apply Cnorm2_nonneg)).
    assert (Cnorm2 x <> 0)%R by (intros E; apply Cnorm2_0 in E; contradiction). lra.
  - pose proof (Cnorm2_nonneg x). specialize (IH H1). lra.
Qed.
Lemma vnorm_pos : forall xs, Exists (fun x => x <> RtoC 0) xs -> (0 < vnorm xs)%R.
Proof. intros xs H. now apply sqrt_lt_R0, vsum_pos. Qed.

Lemma fill_prefix : forall A (ys : list A) z M, length ys <= M ->
  mfold (fun st i => do x <- py_nth ys (Z.of_nat i); py_set st (Z.of_nat i) x) (seq 0 (length ys)) (repeat z M) = Ok (ys ++ repeat z (M - length ys)).
Proof.
  intros A ys z M HM. destruct (mfold_inv _ _ (fun st i => do x <- py_nth ys (Z.of_nat i); py_set st (Z.of_nat i) x)
    (fun i st => st = firstn i ys ++ repeat z (M - i)) (seq 0 (length ys)) (repeat z M)) as (a & E & P).
  - now rewrite Nat.sub_0_r.
  - intros i a b Hb ->. assert (Hi : i < length ys) by (rewrite <- (seq_length (length ys) 0); apply nth_error_Some; congruence).
    assert (b = i) by (apply (nth_error_nth _ _ 0) in Hb; now rewrite seq_nth in Hb). subst b.
    rewrite (py_nth_nat _ ys i z Hi). cbn [bind]. assert (LF : length (firstn i ys) = i) by (apply firstn_length_le; lia).
    rewrite py_set_nat by (rewrite app_length, repeat_length; lia). eexists. split; [reflexivity|].
    rewrite <- LF at 1. rewrite <- (Nat.add_0_r (length (firstn i ys))), set_nth_app2. replace (M - i) with (S (M - S i)) by lia. cbn [repeat set_nth].
    change (nth i ys z :: repeat z (M - S i)) with ([nth i ys z] ++ repeat z (M - S i)). rewrite app_assoc. f_equal.
    clear - Hi. revert i Hi. induction ys; intros i Hi; [cbn in Hi; lia|]. destruct i; [reflexivity|]. cbn. f_equal. apply IHys. cbn in Hi. lia.
  - rewrite E, P, seq_length, firstn_all. reflexivity.
Qed.

Lemma zeros_data : forall n, data (zeros (SC := C_scalar) [n]) = repeat (RtoC 0) n.
Proof.
  intros n. unfold zeros, tbuild. cbn [data]. replace n with (length (all_idx [n])) at 2.
  - induction (all_idx [n]); cbn; auto. f_equal. exact IHl.
  - rewrite all_idx_length. cbn. lia.
Qed.

Lemma encoded_ok : forall n xs, length xs <= 2 ^ n -> Exists (fun x => x <> RtoC 0) xs -> exists e,
  AmplitudeEncoding n xs = Ok e /\ encoded_state e = Ok (mkT [2 ^ n] (map (Cmul (RtoC (/ vnorm xs))) xs ++ repeat (RtoC 0) (2 ^ n - length xs))).
Proof.
  intros n xs HL HE. eexists. split. { unfold AmplitudeEncoding, raise_if. replace (2 ^ n <? length xs) with false by (symmetry; now apply Nat.ltb_ge). reflexivity. }
  unfold encoded_state. cbn [ae_inputs ae_N]. rewrite fold_norm, Rplus_0_l.
  assert (length xs <> 0) by (inversion HE; cbn; lia). replace (length xs =? 0) with false by (symmetry; now apply Nat.eqb_neq). cbn [raise_if].
  pose proof (vsum_pos xs HE) as HP. destruct (Req_EM_T (rsum xs Cnorm2) 0) as [E|_]; [lra|].
  rewrite zeros_data. fold (vnorm xs). unfold cR, Rdiv. rewrite Rmult_1_l. set (ys := map (Cmul (RtoC (/ vnorm xs))) xs).
  assert (LY : length ys = length xs) by apply map_length. rewrite <- LY at 1. rewrite fill_prefix by lia. cbn [bind]. now rewrite LY.
Qed.

Lemma rsum_scale : forall A (l : list A) f c, rsum l (fun x => c * f x)%R = (c * rsum l f)%R.
Proof. induction l; intros; cbn [rsum]; [ring|]. rewrite IHl. ring. Qed.
Lemma rsum_app : forall A (l1 l2 : list A) f, rsum (l1 ++ l2) f = (rsum l1 f + rsum l2 f)%R.
Proof. induction l1; intros; cbn [rsum app]; [ring|]. rewrite IHl1. ring. Qed.
Lemma rsum_nth : forall A (l : list A) f d, rsum (seq 0 (length l)) (fun i => f (nth i l d)) = rsum l f.
Proof.
  intros A l f d. induction l as [|x l IH]; [reflexivity|]. cbn [length seq rsum nth]. f_equal. rewrite <- seq_shift, rsum_map. cbn [nth]. exact IH.
Qed.
Lemma norm2_data : forall n (t : tensor), length (data t) = 2 ^ n -> norm2 n (amp t) = rsum (data t) Cnorm2.
Proof.
  intros n t H. unfold norm2. rewrite bits_map, rsum_map. rewrite <- (rsum_nth _ (data t) Cnorm2 (RtoC 0)), H. apply rsum_ext. intros i Hi. apply in_seq in Hi.
  unfold amp. now rewrite bval_bitsof by lia.
Qed.
Lemma unit_scaled : forall xs m, Exists (fun x => x <> RtoC 0) xs -> rsum (map (Cmul (RtoC (/ vnorm xs))) xs ++ repeat (RtoC 0) m) Cnorm2 = 1%R.
Proof.
  intros xs m HE. rewrite rsum_app, rsum_map. pose proof (vsum_pos xs HE) as HP. pose proof (vnorm_pos xs HE) as HV.
  replace (rsum (repeat (RtoC 0) m) Cnorm2) with 0%R by (clear; induction m; cbn [repeat rsum]; [reflexivity|]; rewrite <- IHm; unfold Cnorm2; cbn; ring).
  rewrite (rsum_ext _ _ _ (fun x => / vnorm xs * / vnorm xs * Cnorm2 x)%R) by (intros x _; rewrite Cnorm2_mul; unfold Cnorm2 at 1; cbn; ring).
  rewrite rsum_scale, Rplus_0_r. assert (E : (vnorm xs * vnorm xs = rsum xs Cnorm2)%R) by (apply sqrt_sqrt; lra). rewrite <- E. field. lra.
Qed.

Lemma amplitude_main : forall n xs, length xs <= 2 ^ n -> Exists (fun x => x <> RtoC 0) xs -> exists e t,
  AmplitudeEncoding n xs = Ok e /\ encoded_state e = Ok t /\ is_state n [2 ^ n] t (padded xs) /\ norm2 n (amp t) = 1%R.
Proof.
  intros n xs HL HE. destruct (encoded_ok n xs HL HE) as (e & E1 & E2). exists e. eexists. split; [exact E1|]. split; [exact E2|].
  set (ys := map (Cmul (RtoC (/ vnorm xs))) xs) in *. assert (LY : length ys = length xs) by apply map_length.
  assert (LD : length (ys ++ repeat (RtoC 0) (2 ^ n - length xs)) = 2 ^ n) by (rewrite app_length, repeat_length; lia).
  split.
  - split; [reflexivity|]. split; [exact LD|]. intros b Hb. unfold amp, padded. cbn [data].
    destruct (Nat.ltb_spec (bval b) (length xs)) as [L|L].
    + rewrite app_nth1 by lia. unfold ys. rewrite (nth_map' _ _ _ _ _ _ (RtoC 0)) by auto. reflexivity.
    + rewrite app_nth2 by lia. apply nth_repeat.
  - rewrite norm2_data by exact LD. cbn [data]. apply unit_scaled, HE.
Qed.

Lemma amplitude_too_long : forall n xs, 2 ^ n < length xs -> AmplitudeEncoding n xs = Err ValueError.
Proof. intros n xs H. unfold AmplitudeEncoding, raise_if. apply Nat.ltb_lt in H. now rewrite H. Qed.
Lemma amplitude_zero : forall n k, 0 < k -> k <= 2 ^ n -> exists e, AmplitudeEncoding n (repeat (RtoC 0) k) = Ok e /\ encoded_state e = Err NotFinite.
Proof.
  intros n k Hk HL. eexists. split. { unfold AmplitudeEncoding, raise_if. rewrite repeat_length. replace (2 ^ n <? k) with false by (symmetry; now apply Nat.ltb_ge). reflexivity. }
  unfold encoded_state. cbn [ae_inputs]. rewrite repeat_length. replace (k =? 0) with false by (symmetry; apply Nat.eqb_neq; lia). cbn [raise_if].
  rewrite fold_norm. destruct (Req_EM_T _ 0) as [_|N]; [reflexivity|]. exfalso. apply N. rewrite Rplus_0_l. clear.
  induction k; cbn [repeat rsum]; [reflexivity|]. rewrite IHk. unfold Cnorm2; cbn; ring.
Qed.
Lemma amplitude_empty : forall n, exists e, AmplitudeEncoding n [] = Ok e /\ encoded_state e = Err TypeError.
Proof. intros n. eexists. split; reflexivity. Qed.

(** state0 and rho0 *)
Lemma bval_zero : forall n b, In b (bits n) -> (bval b = 0 <-> b = repeat 0 n).
Proof.
  intros n b Hb. split.
  - intros E. rewrite <- (bitsof_bval n b Hb), E. assert (Z0 : In (repeat 0 n) (bits n)).
    { clear. induction n; cbn; auto. apply in_or_app. left. now apply in_map. }
    rewrite <- (bitsof_bval n (repeat 0 n) Z0). f_equal. clear. induction n; [reflexivity|]. exact IHn.
  - intros ->. clear. induction n; [reflexivity|]. exact IHn.
Qed.
Lemma amplitude_start : forall n xs e, AmplitudeEncoding n xs = Ok e ->
  is_state n [2 ^ n] (ae_state0 e) (ket (repeat 0 n)) /\ is_op n (ae_rho0 e) (outer (ket (repeat 0 n))).
Proof.
  intros n xs e H. unfold AmplitudeEncoding, raise_if in H. destruct (2 ^ n <? length xs); [discriminate|]. injection H as <-. cbn [ae_state0 ae_rho0].
  assert (K : forall b, In b (bits n) -> ket (repeat 0 n) b = if bval b =? 0 then RtoC 1 else RtoC 0).
  { intros b Hb. unfold ket. pose proof (bval_zero n b Hb) as Z. destruct (list_eq_dec _ _ _) as [E|E]; destruct (Nat.eqb_spec (bval b) 0); tauto. }
  split.
  - split; [reflexivity|]. split. { unfold tbuild. cbn [data]. rewrite map_length, all_idx_length. cbn. lia. }
    intros b Hb. rewrite K by auto. pose proof (bval_lt n b Hb).
    transitivity (tget (tbuild [2 ^ n] (fun idx => if nth 0 idx 0 =? 0 then cR 1 else cR 0)) [bval b]).
    { unfold amp, tget. rewrite tbuild_shape. f_equal. cbn. lia. }
    rewrite tget_tbuild by (apply valid_cons; split; [auto|constructor]). reflexivity.
  - split; [reflexivity|]. split; [apply tbuild_wf|]. intros r c Hr Hc. unfold op_of, outer. rewrite !K by auto. pose proof (bval_lt n r Hr). pose proof (bval_lt n c Hc).
    rewrite tget_tbuild by (repeat (apply valid_cons; split; [auto|]); constructor). cbn [nth].
    destruct (bval r =? 0), (bval c =? 0); cbn [andb]; unfold cR; ceq; cbn; ring.
Qed.

(** multiplying the input by a positive number changes nothing *)
Lemma amplitude_scale : forall n xs c, length xs <= 2 ^ n -> Exists (fun x => x <> RtoC 0) xs -> (0 < c)%R -> exists e e' t,
  AmplitudeEncoding n xs = Ok e /\ AmplitudeEncoding n (map (Cmul (RtoC c)) xs) = Ok e' /\ encoded_state e = Ok t /\ encoded_state e' = Ok t.
Proof.
  intros n xs c HL HE Hc. destruct (encoded_ok n xs HL HE) as (e & E1 & E2).
  assert (HE' : Exists (fun x => x <> RtoC 0) (map (Cmul (RtoC c)) xs)).
  { apply Exists_exists in HE. destruct HE as (x & Hx & Nx). apply Exists_exists. exists (Cmul (RtoC c) x). split; [now apply in_map|].
    intros E. apply Nx. apply Cnorm2_0. apply Cnorm2_0 in E. rewrite Cnorm2_mul in E. apply Rmult_integral in E. destruct E as [E|E]; [|exact E]. unfold Cnorm2 in E. cbn in E. nra. }
  destruct (encoded_ok n (map (Cmul (RtoC c)) xs)) as (e' & E3 & E4); [now rewrite map_length|exact HE'|].
  exists e, e'. eexists. split; [exact E1|]. split; [exact E3|]. split; [exact E2|]. rewrite E4, map_length, map_map. do 3 f_equal.
  apply map_ext. intros x. assert (V : vnorm (map (Cmul (RtoC c)) xs) = (c * vnorm xs)%R).
  { unfold vnorm. rewrite rsum_map. rewrite (rsum_ext _ _ _ (fun x => c * c * Cnorm2 x)%R) by (intros y _; rewrite Cnorm2_mul; unfold Cnorm2 at 1; cbn; ring).
    rewrite rsum_scale, sqrt_mult_alt by nra. now rewrite sqrt_square by lra. }
  rewrite V. pose proof (vnorm_pos xs HE). ceq; field; lra.
Qed.

(** * A wire given twice *)
Lemma enc_repeated : forall n a x y w, 2 <= n -> w < n -> exists e u, PauliEncoding (Z.of_nat n) [x; y] [Z.of_nat w; Z.of_nat w] (axis_name a) = Ok e /\
  pe_U e = Ok u /\ is_op n u (gs_op n [axis_gate a y w]) /\
  forall s, shape s = repeat 2 n -> wf s -> exists s', pe_TN_contract e s false = Ok s' /\
    is_state n (repeat 2 n) s' (act n (gs_op n [axis_gate a y w; axis_gate a y w]) (amp s)).
Proof.
  intros n a x y w Hn Hw. eexists. exists (op_tensor n (gs_op n [axis_gate a y w])). split; [apply (pe_build n a [x; y]); cbn; lia|].
  set (e := mkPE _ _ _ _). pose proof (good_wires_1 n w Hw) as W.
  assert (G : pe_single_gates e = Ok (map (op_tensor 1) (set_nth w (axis_op a y) (set_nth w (axis_op a x) (repeat id_op n))))).
  { unfold e. rewrite pe_gates_axis. unfold fill_wires. cbn [enumerate length seq combine mfold fst snd].
    rewrite (enc_matrix_ok a [x; y] 2 0), (enc_matrix_ok a [x; y] 2 1) by (try discriminate; lia). rewrite eyes_op. cbn [bind].
    rewrite (py_set_op _ n) by (rewrite ?repeat_length; auto). cbn [bind]. rewrite (py_set_op _ n) by (rewrite ?set_nth_length, ?repeat_length; auto). reflexivity. }
  assert (P : py_nth (map (op_tensor 1) (set_nth w (axis_op a y) (set_nth w (axis_op a x) (repeat id_op n)))) (Z.of_nat w) = Ok (op_tensor 1 (axis_op a y))).
  { rewrite (py_nth_nat _ _ _ (op_tensor 1 id_op)) by (rewrite map_length, !set_nth_length, repeat_length; auto). rewrite map_nth.
    rewrite nth_set_nth by (rewrite set_nth_length, repeat_length; auto). now rewrite Nat.eqb_refl. }
  split; [|split; [apply is_op_tensor|]].
  - unfold pe_U. rewrite G. cbn [bind]. rewrite (multi_kron_fac _ n) by (rewrite ?set_nth_length, ?repeat_length; lia). f_equal. apply op_tensor_ext.
    rewrite gs_op_1, axis_gate_op. apply prod_of_1; auto. intros i Hi. rewrite !fac_set by (rewrite ?set_nth_length, repeat_length; auto). rewrite fac_repeat. now destruct (i =? w).
  - intros s S F. eexists. assert (E : s = tbuild (repeat 2 n) (amp s)).
    { apply state_eta. split; [exact S|]. split; [|intros b _; reflexivity]. unfold wf in F. rewrite F, S, prodn_repeat. reflexivity. }
    split; [|now apply state_eta]. rewrite E at 1. unfold pe_TN_contract, base_TN_contract. rewrite G. cbn [bind e pe_N pe_wires mfold].
    rewrite P. cbn [bind]. pose proof (fun f => contract1_ok (repeat 2 n) w (axis_op a y) f) as K. rewrite repeat_length in K.
    rewrite K by (auto; now apply nth_repeat_lt). cbn [bind]. rewrite K by (auto; now apply nth_repeat_lt). cbn [bind]. f_equal. apply tbuild_st_ext.
    rewrite gs_op_cons, gs_op_1, axis_gate_op, act_mul. symmetry. transitivity (act n (lift (axis_op a y) [w]) (apply_on (axis_op a y) [w] (amp s))); [|now apply act_lift].
    apply act_proper; [reflexivity|]. now apply act_lift.
Qed.
