(** Lemmas about the older class Circuit. *)
From Coq Require Import List ZArith Reals Lra Lia Bool Arith.
From Verif Require Import PyBase Scalar CInst BigSum Index Tensor TensorFacts Spec SpecFacts QMath QTN QOperator GateSpec QGates GateCalls ExpandFacts ExpandFacts2 GateFacts GateFacts2
  RunSpec LayerSpec QLayers LayerCalls CircuitSpec QCircuit CircuitProofs PTSpec PTFacts2 QMathC MeasSpec MeasFacts LegacySpec QGateLegacy.
Import ListNotations.
Local Close Scope R_scope.
Local Open Scope nat_scope.

Lemma kron_one : forall F : @qop C_scalar, kron (mkT [1] [k1]) (op_tensor 1 F) = op_tensor 1 F.
Proof.
  intros F. unfold kron, rank, padl. change (shape (op_tensor 1 F)) with [2; 2]. cbn [shape length Nat.max Nat.sub repeat app map2n Nat.mul Nat.add]. unfold op_tensor. cbn. unfold tbuild. cbn.
  repeat f_equal; ceq; cbn; ring.
Qed.
Lemma l_multi_kron_op : forall Fs : list (@qop C_scalar), Fs <> [] -> l_multi_kron (map (op_tensor 1) Fs) = multi_kron (map (op_tensor 1) Fs).
Proof. intros [|F Fs] H; [congruence|]. cbn [map l_multi_kron multi_kron fold_left]. now rewrite kron_one. Qed.
Lemma l_multi_kron_fac : forall (Fs : list (@qop C_scalar)) n, length Fs = n -> 0 < n -> l_multi_kron (map (op_tensor 1) Fs) = multi_kron (map (op_tensor 1) Fs).
Proof. intros Fs n L H. apply l_multi_kron_op. destruct Fs; [cbn in L; lia|discriminate]. Qed.

Lemma l_expand_ok : forall n w (G : @qop C_scalar), w < n -> l_expand (op_tensor 1 G) (Z.of_nat n) (Z.of_nat w) = Ok (op_tensor n (lift G [w])).
Proof.
  intros n w G H. rewrite <- gate_expand_ok by auto. unfold l_expand, gate_expand_1toN, raise_if.
  destruct (Z.ltb_spec (Z.of_nat n) 1); [lia|]. destruct (Z.leb_spec (Z.of_nat n) (Z.of_nat w)); [lia|]. destruct (Z.ltb_spec (Z.of_nat w) 0); [lia|]. destruct (Z.ltb_spec (Z.of_nat n - 1) (Z.of_nat w)); [lia|]. cbn [orb].
  rewrite eyes_op, (py_set_op _ n) by (rewrite ?repeat_length; auto). cbn [bind]. apply (l_multi_kron_fac _ n); [|lia]. now rewrite set_nth_length, repeat_length.
Qed.
Lemma l_control_ok : forall n c t (U : @qop C_scalar), c < n -> t < n -> c <> t -> l_control (op_tensor 1 U) (Z.of_nat n) (Z.of_nat c) (Z.of_nat t) = Ok (op_tensor n (ctrl [c] (lift U [t]))).
Proof.
  intros n c t U Hc Ht N. rewrite <- two_qubit_control_ok by auto. unfold l_control, two_qubit_control_gate, raise_if.
  destruct (Z.ltb_spec (Z.of_nat n) 1); [lia|]. destruct (Z.leb_spec (Z.of_nat n) (Z.of_nat c)); [lia|]. destruct (Z.leb_spec (Z.of_nat n) (Z.of_nat t)); [lia|].
  destruct (Z.eqb_spec (Z.of_nat t) (Z.of_nat c)); [lia|]. destruct (Z.eqb_spec (Z.of_nat c) (Z.of_nat t)); [lia|].
  destruct (Z.ltb_spec (Z.of_nat n - 1) (Z.max (Z.of_nat c) (Z.of_nat t))); [lia|]. destruct (Z.ltb_spec (Z.min (Z.of_nat c) (Z.of_nat t)) 0); [lia|].
  unfold zero_zero, one_one. rewrite !mat_of_op2. rewrite eyes_op, !(py_set_op _ n) by (rewrite ?repeat_length; auto). cbn [bind].
  rewrite !(py_set_op _ n) by (rewrite ?set_nth_length, ?repeat_length; auto). cbn [bind].
  rewrite !(l_multi_kron_fac _ n) by (rewrite ?set_nth_length, ?repeat_length; lia). reflexivity.
Qed.
Lemma l_rotation_ok : forall n a b (P : @qop C_scalar) t, a < n -> b < n -> a <> b -> l_rotation (op_tensor 1 P) t (Z.of_nat n) (Z.of_nat a) (Z.of_nat b) = Ok (op_tensor n (rpp_op P n t a b)).
Proof.
  intros n a b P t Ha Hb N. unfold rpp_op. rewrite <- (rpp_U_ok n a b P) by auto. unfold l_rotation, rpp_U, raise_if.
  destruct (Z.ltb_spec (Z.of_nat n) 1); [lia|]. destruct (Z.ltb_spec (Z.of_nat a) 0); [lia|]. destruct (Z.ltb_spec (Z.of_nat b) 0); [lia|]. destruct (Z.ltb_spec (Z.of_nat n - 1) (Z.of_nat a)); [lia|].
  destruct (Z.ltb_spec (Z.of_nat n - 1) (Z.of_nat b)); [lia|]. destruct (Z.eqb_spec (Z.of_nat a) (Z.of_nat b)); [lia|]. cbn [orb].
  rewrite eyes_op, !(py_set_op _ n) by (rewrite ?repeat_length; auto). cbn [bind]. rewrite !(py_set_op _ n) by (rewrite ?set_nth_length, ?repeat_length; auto). cbn [bind].
  rewrite !(l_multi_kron_fac _ n) by (rewrite ?set_nth_length, ?repeat_length; lia).
  rewrite !(multi_kron_fac _ n) by (rewrite ?set_nth_length, ?repeat_length; lia). cbn [bind]. rewrite !tscale_op, tsub_op, tadd_op. f_equal. apply op_tensor_ext. intros r c _ _. unfold scale_op, cR, cI.
  ceq; cbn; ring.
Qed.
Lemma l_multi_control_ok : forall n cs t (U : @qop C_scalar), cs <> [] -> (forall w, In w cs -> w < n) -> t < n -> ~ In t cs ->
  l_multi_control (op_tensor 1 U) (Z.of_nat n) (map Z.of_nat cs) (Z.of_nat t) = Ok (op_tensor n (ctrl cs (lift U [t]))).
Proof.
  intros n cs t U Hne Hc Ht Hni. rewrite <- multi_control_ok by auto. unfold l_multi_control, multi_control_gate, raise_if.
  destruct (Z.of_nat n <? 1)%Z; auto. destruct (py_max _); cbn [bind]; auto. destruct (_ <? _)%Z; auto. destruct (py_min _); cbn [bind]; auto. destruct (_ <? _)%Z; auto. destruct (existsb _ _); auto.
  unfold one_one. rewrite !mat_of_op2, !eyes_op. rewrite !(mfold_set_op cs _ _ n) by (rewrite ?repeat_length; auto). cbn [bind].
  rewrite !(py_set_op _ n) by (rewrite ?set_many_length, ?repeat_length; auto). cbn [bind].
  rewrite !(l_multi_kron_fac _ n) by (rewrite ?set_nth_length, ?set_many_length, ?repeat_length; lia). reflexivity.
Qed.

Lemma l_x_op : l_x = op_tensor 1 X_op. Proof. apply mat_of_op2. Qed.
Lemma l_y_op : l_y = op_tensor 1 Y_op. Proof. unfold l_y. rewrite mat_of_op2. apply op_tensor_ext, op2_op_eq; unfold cR, cI; ceq; cbn; ring. Qed.
Lemma l_z_op : l_z = op_tensor 1 Z_op. Proof. unfold l_z. rewrite mat_of_op2. apply op_tensor_ext, op2_op_eq; unfold cR, cI; ceq; cbn; ring. Qed.
Lemma l_H_op : l_H = op_tensor 1 H_op. Proof. apply H_m_ok. Qed.
Lemma l_rx_op : forall t, l_rx t = op_tensor 1 (rx_op t). Proof. intros. apply mat_of_op2. Qed.
Lemma l_ry_op : forall t, l_ry t = op_tensor 1 (ry_op t). Proof. intros. apply mat_of_op2. Qed.
Lemma l_rz_op : forall t, l_rz t = op_tensor 1 (rz_op t). Proof. intros. apply mat_of_op2. Qed.

(** the object after a successful call *)
Definition l_after (n : nat) (c : lcirc) (g : gi) : lcirc := mkL (l_N c) (l_gates c ++ legacy_entry g) (l_u c ++ [op_tensor n (gi_op n g)]).
Lemma l_single_ok : forall n name m phi c w (A : @qop C_scalar), l_N c = Z.of_nat n -> m = op_tensor 1 A -> w < n ->
  l_single name m phi c (Z.of_nat w) = (mkL (l_N c) (l_gates c ++ [(name, [Z.of_nat w], phi)]) (l_u c ++ [op_tensor n (lift A [w])]), None).
Proof.
  intros n name m phi c w A E -> H. unfold l_single. rewrite E. destruct (Z.leb_spec 0 (Z.of_nat w)); [|lia]. destruct (Z.ltb_spec (Z.of_nat w) (Z.of_nat n)); [|lia]. cbn [andb negb].
  unfold l_add_gate. cbn [l_N]. rewrite E, l_expand_ok by auto. reflexivity.
Qed.
Lemma l_ctrl_ok : forall n name m c a b (A : @qop C_scalar), l_N c = Z.of_nat n -> m = op_tensor 1 A -> a < n -> b < n -> a <> b ->
  l_ctrl name m c (Z.of_nat a) (Z.of_nat b) = (mkL (l_N c) (l_gates c ++ [(name, [Z.of_nat a; Z.of_nat b], None)]) (l_u c ++ [op_tensor n (ctrl [a] (lift A [b]))]), None).
Proof.
  intros n name m c a b A E -> Ha Hb N. unfold l_ctrl. rewrite E. destruct (Z.leb_spec (Z.of_nat a) (Z.of_nat n)); [|lia]. destruct (Z.leb_spec 0 (Z.of_nat b)); [|lia]. destruct (Z.ltb_spec (Z.of_nat b) (Z.of_nat n)); [|lia]. cbn [andb negb].
  unfold l_add_gate. cbn [l_N]. rewrite E, l_control_ok by auto. reflexivity.
Qed.
(** rxx and friends, with the qubit the code really takes as the second one *)
Definition second (a b : nat) : nat := if b =? 0 then a + 1 else b.
Lemma l_rot2_ok : forall n name m d c a b t (P : @qop C_scalar), l_N c = Z.of_nat n -> m = op_tensor 1 P -> a < n -> second a b < n -> a <> second a b ->
  l_rot2 name m d c (Z.of_nat a) (Z.of_nat b) t =
  (mkL (l_N c) (l_gates c ++ [(name, [Z.of_nat a; Z.of_nat (second a b)], Some t)]) (l_u c ++ [op_tensor n (rpp_op P n t a (second a b))]), None).
Proof.
  intros n name m d c a b t P E -> Ha Hb N. unfold l_rot2. rewrite E.
  replace (if (Z.of_nat b =? 0)%Z then (Z.of_nat a + 1)%Z else Z.of_nat b) with (Z.of_nat (second a b)) by (unfold second; destruct (Nat.eqb_spec b 0), (Z.eqb_spec (Z.of_nat b) 0); lia).
  destruct (Z.leb_spec (Z.of_nat a) (Z.of_nat n)); [|lia]. destruct (Z.leb_spec (Z.of_nat (second a b)) (Z.of_nat n)); [|lia]. destruct (Z.eqb_spec (Z.of_nat a) (Z.of_nat (second a b))); [lia|]. rewrite andb_false_r. cbn [negb].
  unfold l_add_gate. cbn [l_N]. rewrite E, l_rotation_ok by auto. reflexivity.
Qed.
Lemma l_call_ok : forall n c g, l_N c = Z.of_nat n -> gi_ok n g -> legacy_call g = true -> l_call c g = Some (l_after n c g, None).
Proof.
  intros n c g E [W X] L. unfold l_after.
  destruct g; try discriminate L; cbn [l_call legacy_entry gi_wires gi_op legacy_call map] in *;
    try (apply gw1 in W; f_equal; apply l_single_ok; auto using l_x_op, l_y_op, l_z_op, l_H_op, l_rx_op, l_ry_op, l_rz_op; fail);
    try (apply gw2 in W; destruct W as (Wa & Wb & Wn)).
  1-3: apply negb_true_iff in L; f_equal; assert (S : second a b = b) by (unfold second; now rewrite L); rewrite <- S at 2 3; apply l_rot2_ok; rewrite ?S; auto using l_x_op, l_y_op, l_z_op.
  1-2: f_equal; apply l_ctrl_ok; auto using l_x_op, l_z_op.
  f_equal. unfold l_mcx. destruct W as [ND W]. rewrite l_x_op, E, l_multi_control_ok; auto.
  - cbn [l_add_u]. now rewrite app_nil_r, E.
  - intros w Hw. apply W, in_or_app. now left.
  - apply W, in_or_app. right. now left.
  - intros Hi. apply (NoDup_remove_2 cs [] t ND). now rewrite app_nil_r.
Qed.

Definition prod_ops (n : nat) (b : bool) (gs : list gi) (A : @qop C_scalar) : @qop C_scalar :=
  fold_left (fun A g => if b then mul_op n (gi_op n g) A else mul_op n A (gi_op n g)) gs A.
Lemma l_fold : forall n (b : bool) gs (A : @qop C_scalar), mfold (fun U_overall U => if b then matmul U U_overall else matmul U_overall U) (map (fun g => op_tensor n (gi_op n g)) gs) (op_tensor n A) = Ok (op_tensor n (prod_ops n b gs A)).
Proof. intros n b. induction gs as [|g gs IH]; intros A; [reflexivity|]. cbn [map mfold]. destruct b; rewrite matmul_op; cbn [bind]; rewrite IH; reflexivity. Qed.
Lemma prod_ops_cs : forall n gs (A : @qop C_scalar), prod_ops n true gs A = fold_left (fun (A : @qop C_scalar) c => mul_op n (ci_op n c) A) (map CG gs) A.
Proof. intros n. induction gs; intros A; [reflexivity|]. cbn. apply IHgs. Qed.
Lemma prod_ops_rev : forall n gs (A : @qop C_scalar), prod_ops n false gs A = fold_left (fun A c => mul_op n A (ci_op n c)) (map CG gs) A.
Proof. intros n. induction gs; intros A; [reflexivity|]. cbn. apply IHgs. Qed.

Lemma l_calls_ok : forall n gs c, l_N c = Z.of_nat n -> Forall (gi_ok n) gs -> forallb legacy_call gs = true ->
  exists c', l_calls c gs = Some (c', None) /\ l_N c' = Z.of_nat n /\ l_gates c' = l_gates c ++ flat_map legacy_entry gs /\ l_u c' = l_u c ++ map (fun g => op_tensor n (gi_op n g)) gs.
Proof.
  intros n. induction gs as [|g gs IH]; intros c E F L.
  - exists c. cbn. now rewrite !app_nil_r.
  - inversion F as [|x y F1 F2]; subst. cbn [forallb] in L. apply andb_true_iff in L. destruct L as [L1 L2]. cbn [l_calls]. rewrite (l_call_ok n) by auto.
    destruct (IH (l_after n c g) E F2 L2) as (c' & H1 & H2 & H3 & H4). exists c'. split; [exact H1|]. split; [exact H2|]. unfold l_after in H3, H4. cbn [l_gates l_u] in H3, H4. rewrite H3, H4. cbn [flat_map map]. now rewrite <- !app_assoc.
Qed.

Lemma legacy_agrees : forall n gs, 0 < n -> Forall (gi_ok n) gs -> forallb legacy_call gs = true ->
  exists c cc u u', l_calls (LCircuit (Z.of_nat n)) gs = Some (c, None) /\ l_gates c = flat_map legacy_entry gs /\ circuit_of n (map CG gs) = Ok cc /\
    l_U c = Ok u /\ cU cc true = Ok u /\ l_product c false = Ok u' /\ cU cc false = Ok u' /\ is_op n u (cs_op n (map CG gs)).
Proof.
  intros n gs Hn F L. destruct (l_calls_ok n gs (LCircuit (Z.of_nat n)) eq_refl F L) as (c & H1 & H2 & H3 & H4).
  destruct (circuit_matrix n (map CG gs) Hn) as (cc & u & u' & C1 & C2 & C3 & C4 & C5).
  { apply Forall_map. exact F. }
  exists c, cc, u, u'. unfold l_U, l_product. rewrite H4, H2, Nat2Z.id, eye_op. cbn [app l_u LCircuit]. pose proof (l_fold n true gs id_op) as P1. pose proof (l_fold n false gs id_op) as P2. cbn iota in P1, P2. rewrite P1, P2. pose proof C3 as O. apply is_op_eq in C3, C5. subst u u'.
  rewrite prod_ops_cs, prod_ops_rev. repeat split; auto; apply O.
Qed.
