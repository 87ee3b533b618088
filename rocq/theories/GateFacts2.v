(** Gate objects: what they contain, their matrix on the whole register, inverse, unitarity, contraction. *)
From Coq Require Import List ZArith Reals Lra Lia Bool Arith Ring Morphisms.
From Verif Require Import PyBase Scalar CInst BigSum Index Tensor TensorFacts Spec SpecFacts QMath QTN QOperator
  ExpandFacts ExpandFacts2 ContractFacts ContractFacts2 GateSpec QGates GateCalls GateFacts.
Import ListNotations.

(** the gate's own matrix, as an operator on as many qubits as it has wires *)
Definition gi_loc (g : gi) : qop :=
  match g with
  | gi_H _ => H_op | gi_X _ => X_op | gi_Y _ => Y_op | gi_Z _ => Z_op
  | gi_rx t _ => rx_op t | gi_ry t _ => ry_op t | gi_rz t _ => rz_op t
  | gi_u1 t _ => u1_op t | gi_u3 t p l _ => u3_op t p l
  | gi_rxx t _ _ => rpp_op X_op 2 t 0 1
  | gi_ryy t _ _ => rpp_op Y_op 2 t 0 1
  | gi_rzz t _ _ => rpp_op Z_op 2 t 0 1
  | gi_cnot _ _ => ctrl [0] (lift X_op [1])
  | gi_cz _ _ => ctrl [0] (lift Z_op [1])
  | gi_cphase th _ _ => ctrl [0] (lift (u1_op th) [1])
  | gi_cu3 th p l _ _ => ctrl [0] (lift (u3_op th p l) [1])
  | gi_swap _ _ => swap_op 0 1
  | gi_toffoli _ _ _ => ctrl [0; 1] (lift X_op [2])
  | gi_mcx cs _ => ctrl (seq 0 (length cs)) (lift X_op [length cs])
  end.

Definition gi_cls (g : gi) : gcls :=
  match g with
  | gi_H _ => cHadamard | gi_X _ => cPauliX | gi_Y _ => cPauliY | gi_Z _ => cPauliZ
  | gi_rx t _ => crx | gi_ry t _ => cry | gi_rz t _ => crz
  | gi_u1 t _ => cu1 | gi_u3 t p l _ => cu3s
  | gi_rxx t _ _ => crxx | gi_ryy t _ _ => cryy | gi_rzz t _ _ => crzz
  | gi_cnot _ _ => ccnot | gi_cz _ _ => ccz | gi_cphase th _ _ => ccphase | gi_cu3 th p l _ _ => ccu3
  | gi_swap _ _ => cSWAP | gi_toffoli _ _ _ => ctoffoli | gi_mcx cs _ => cmcx
  end.

Definition gi_params (g : gi) : option pval :=
  match g with
  | gi_rx t _ | gi_ry t _ | gi_rz t _ | gi_u1 t _ => Some (PS t)
  | gi_u3 t p l _ => Some (PV [t; p; l])
  | gi_rxx t _ _ | gi_ryy t _ _ | gi_rzz t _ _ => Some (PS t)
  | gi_cphase th _ _ => Some (PS th)
  | gi_cu3 th p l _ _ => Some (PV [th; p; l])
  | _ => None
  end.

Definition gi_pywires (g : gi) : pywires :=
  match g with
  | gi_mcx cs t => zl (cs ++ [t])
  | _ => match gi_wires g with [w] => zi w | l => zl l end
  end.

Definition obj (n : nat) (g : gi) : gate :=
  mkG (gi_cls g) (Z.of_nat n) (gi_pywires g) (gi_params g)
      (match g with gi_mcx _ _ => no_matrix | _ => op_tensor (length (gi_wires g)) (gi_loc g) end)
      (match g with gi_cu3 t p l _ _ => op_tensor 1 (u3_op t p l) | _ => no_matrix end).

Lemma build_ok : forall n g, build n g = Ok (obj n g).
Proof.
  intros n g. destruct g; unfold build, obj; cbn [gi_cls gi_pywires gi_wires gi_params length gi_loc].
  1:{ unfold Hadamard. now rewrite H_m_ok. }
  1:{ unfold PauliX. now rewrite PauliX_op. }
  1:{ unfold PauliY. now rewrite PauliY_op. }
  1:{ unfold PauliZ. now rewrite PauliZ_op. }
  1:{ unfold rx. now rewrite rx_m_ok. }
  1:{ unfold ry. now rewrite ry_m_ok. }
  1:{ unfold rz. now rewrite rz_m_ok. }
  1:{ unfold u1. now rewrite u1_m_ok. }
  1:{ unfold u3. now rewrite u3_m_ok. }
  1:{ unfold rxx. now rewrite PauliX_op, rpp_m_ok. }
  1:{ unfold ryy. now rewrite PauliY_op, rpp_m_ok. }
  1:{ unfold rzz. now rewrite PauliZ_op, rpp_m_ok. }
  1:{ unfold cnot. now rewrite cnot_m_ok. }
  1:{ unfold cz. now rewrite cz_m_ok. }
  1:{ unfold cphase. now rewrite cphase_m_ok. }
  1:{ unfold cu3. rewrite u3_m_ok. cbn [bind]. now rewrite cu3_m_ok. }
  1:{ unfold SWAP. now rewrite mat4_swap. }
  1:{ unfold toffoli. now rewrite toffoli_m_ok. }
  unfold multi_control_cnot, zl. cbn [wire_list bind].
  unfold py_nth. rewrite map_length, app_length. cbn [length].
  replace (-1)%Z with (- Z.of_nat 1)%Z by reflexivity.
  rewrite py_index_neg by lia. cbn [bind].
  rewrite (nth_error_nth' _ 0%Z) by (rewrite map_length, app_length; simpl; lia).
  reflexivity.
Qed.

(** ** the operator as a lifted local matrix *)

Lemma rpp_lift : forall P n t a b, a < n -> b < n -> a <> b ->
  op_eq n (rpp_op P n t a b) (lift (rpp_op P 2 t 0 1) [a; b]).
Proof.
  intros P n t a b Ha Hb N. pose proof (good_wires_2 n a b Ha Hb N) as W.
  unfold rpp_op. rewrite lift_comb by exact W. rewrite lift_id by exact W.
  pose proof (lift_mul_sub n [a; b] 0 1 P P W) as E. cbn [length nth] in E. rewrite E by lia. reflexivity.
Qed.

Lemma map_nth_seq0 : forall (l l' : list nat), map (fun v => nth v (l ++ l') 0) (seq 0 (length l)) = l.
Proof.
  induction l as [|x l IH]; intros l'; [reflexivity|].
  cbn [length seq map app nth]. f_equal. rewrite <- seq_shift, map_map. apply IH.
Qed.

Lemma ctrl_mcx_lift : forall n cs t U, good_wires n (cs ++ [t]) ->
  op_eq n (ctrl cs (lift U [t])) (lift (ctrl (seq 0 (length cs)) (lift U [length cs])) (cs ++ [t])).
Proof.
  intros n cs t U W.
  assert (L : length (cs ++ [t]) = S (length cs)) by (rewrite app_length; simpl; lia).
  rewrite lift_ctrl; [|exact W|intros v Hv; apply in_seq in Hv; lia].
  rewrite map_nth_seq0.
  assert (E : op_eq n (lift (lift U [length cs]) (cs ++ [t])) (lift U [t])).
  { rewrite (lift_lift n (cs ++ [t]) [length cs] U W) by (intros v [<-|[]]; lia).
    cbn [map]. rewrite app_nth2, Nat.sub_diag by lia. reflexivity. }
  intros r c Hr Hc. unfold ctrl. destruct all_one; [symmetry; now apply E|reflexivity].
Qed.

Lemma gw1 : forall n w, good_wires n [w] -> w < n.
Proof. intros n w [_ H]. apply H. now left. Qed.
Lemma gw2 : forall n a b, good_wires n [a; b] -> a < n /\ b < n /\ a <> b.
Proof.
  intros n a b [H1 H2]. repeat split; try (apply H2; simpl; tauto).
  intros ->. inversion H1; subst. simpl in *. tauto.
Qed.
Lemma gw3 : forall n a b c, good_wires n [a; b; c] -> a < n /\ b < n /\ c < n /\ a <> b /\ a <> c /\ b <> c.
Proof.
  intros n a b c [H1 H2]. repeat split; try (apply H2; simpl; tauto);
  intros E; inversion H1 as [|? ? N1 H1']; inversion H1' as [|? ? N2 _]; subst; simpl in *; tauto.
Qed.

Lemma gi_op_lift : forall n g, gi_ok n g -> op_eq n (gi_op n g) (lift (gi_loc g) (gi_wires g)).
Proof.
  intros n g [W X]. destruct g; cbn [gi_op gi_loc gi_wires] in *;
    try reflexivity;
    try (apply gw2 in W; destruct W as (Wa & Wb & Wn); now first [apply rpp_lift|apply ctrl_lift1|apply swap_lift]).
  - apply gw3 in W. destruct W as (Wa & Wb & Wc & Wab & Wac & Wbc). now apply ctrl_lift2.
  - now apply ctrl_mcx_lift.
Qed.

(** ** U_expand *)
Lemma unset_int : forall n w, unset (Z.of_nat n) (zi w) = false.
Proof. intros n w. unfold unset, zi. simpl. lia. Qed.
Lemma unset_list : forall n l, unset (Z.of_nat n) (zl l) = false.
Proof. intros n w. unfold unset, zl. simpl. lia. Qed.

Lemma U_expand_obj : forall n g, gi_ok n g -> U_expand (obj n g) = Ok (op_tensor n (gi_op n g)).
Proof.
  assert (S1 : forall n w M, w < n -> single_U_expand (op_tensor 1 M) (Z.of_nat n) (zi w) = Ok (op_tensor n (lift M [w]))).
  { intros n w M H. unfold single_U_expand. rewrite unset_int. unfold raise_if.
    destruct (Z.ltb_spec (Z.of_nat n) 1); [lia|]. cbn [zi wire_int bind]. now apply gate_expand_ok. }
  assert (R1 : forall n a b t c P m u, a < n -> b < n -> a <> b ->
    rpp_U_expand (op_tensor 1 P) (mkG c (Z.of_nat n) (zl [a; b]) (Some (PS t)) m u) = Ok (op_tensor n (rpp_op P n t a b))).
  { intros n a b t c P m u Ha Hb Hn. unfold rpp_U_expand. cbn [g_N g_wires g_params p_scalar]. rewrite unset_list.
    unfold raise_if. destruct (Z.ltb_spec (Z.of_nat n) 1); [lia|].
    change (wire_at (zl [a; b]) 0) with (Ok (Z.of_nat a)). change (wire_at (zl [a; b]) 1) with (Ok (Z.of_nat b)). cbn [bind].
    destruct (Z.ltb_spec (Z.of_nat a) 0); [lia|]. destruct (Z.ltb_spec (Z.of_nat n - 1) (Z.of_nat a)); [lia|]. cbn [orb].
    unfold p_scalar; cbn [g_params bind]. now apply rpp_U_ok. }
  assert (C1 : forall n c t k p m u v, c < n -> t < n -> c <> t ->
    ctrl_U_expand (Ok (op_tensor 1 v)) (mkG k (Z.of_nat n) (zl [c; t]) p m u) = Ok (op_tensor n (ctrl [c] (lift v [t])))).
  { intros n c t k p m u v Ha Hb Hn. unfold ctrl_U_expand. cbn [g_N g_wires]. rewrite unset_list.
    unfold raise_if. cbn [bind]. change (wire_at (zl [c; t]) 0) with (Ok (Z.of_nat c)). change (wire_at (zl [c; t]) 1) with (Ok (Z.of_nat t)).
    cbn [bind]. now apply two_qubit_control_ok. }
  intros n g [W X].
  destruct g; unfold obj; cbn [gi_cls gi_pywires gi_wires gi_params length gi_loc gi_op] in *; unfold U_expand;
    cbn [g_cls g_N g_wires g_matrix g_umatrix];
    try (apply gw1 in W; now apply S1);
    try (apply gw2 in W; destruct W as (Wa & Wb & Wn)).
  - rewrite PauliX_op. now apply R1.
  - rewrite PauliY_op. now apply R1.
  - rewrite PauliZ_op. now apply R1.
  - rewrite sigma_x_op. now apply C1.
  - rewrite sigma_z_op. now apply C1.
  - unfold p_scalar; cbn [g_params bind]. rewrite phase_m_ok. now apply C1.
  - now apply C1.
  - rewrite unset_list. unfold raise_if.
    change (wire_at (zl [a; b]) 0) with (Ok (Z.of_nat a)). change (wire_at (zl [a; b]) 1) with (Ok (Z.of_nat b)). cbn [bind].
    now apply swap_U_ok.
  - apply gw3 in W. destruct W as (Wa & Wb & Wc & Wab & Wac & Wbc).
    rewrite unset_list. unfold raise_if.
    change (wire_at (zl [c1; c2; t]) 0) with (Ok (Z.of_nat c1)). change (wire_at (zl [c1; c2; t]) 1) with (Ok (Z.of_nat c2)).
    change (wire_at (zl [c1; c2; t]) 2) with (Ok (Z.of_nat t)). cbn [bind].
    rewrite sigma_x_op. apply (multi_control_ok n [c1; c2] t X_op); try discriminate; try assumption.
    + intros w [<-|[<-|[]]]; assumption.
    + intros [E|[E|[]]]; congruence.
  - rewrite unset_list. unfold raise_if, zl. cbn [wire_list bind].
    unfold py_nth. rewrite map_length, app_length. cbn [length].
    replace (-1)%Z with (- Z.of_nat 1)%Z by reflexivity.
    rewrite py_index_neg by lia. cbn [bind].
    rewrite (nth_error_nth' _ (Z.of_nat 0)) by (rewrite map_length, app_length; simpl; lia).
    rewrite map_nth. cbn [bind]. replace (length cs + 1 - 1) with (length cs) by lia.
    rewrite app_nth2, Nat.sub_diag by lia. cbn [nth].
    rewrite map_app, firstn_app, map_length, Nat.sub_diag, firstn_O, app_nil_r.
    rewrite (firstn_all2 (n := length cs)) by (rewrite map_length; lia).
    rewrite sigma_x_op. destruct W as [W1 W2]. apply multi_control_ok; auto.
    + intros w Hw. apply W2, in_or_app; now left.
    + apply W2, in_or_app; right; now left.
    + intros Ht. apply NoDup_remove_2 in W1. rewrite app_nil_r in W1. contradiction.
Qed.
