(** The calls on which the older class departs from its documentation; concrete cases. *)
From Coq Require Import List ZArith QArith Qreals Reals Lra Lia Bool Arith.
From Verif Require Import PyBase Scalar CInst BigSum Index Tensor TensorFacts Spec SpecFacts QMath QTN QOperator GateSpec QGates GateCalls ExpandFacts ExpandFacts2 GateFacts GateFacts2
  PTSpec PTFacts2 QMathC MeasSpec MeasFacts MeasCases LegacySpec QGateLegacy LegacyFacts.
From Coq Require Import Strings.String.
Import ListNotations.
Local Close Scope Q_scope.
Local Close Scope R_scope.
Local Open Scope nat_scope.

Lemma legacy_bad_single : forall name m phi c q, (q < 0 \/ l_N c <= q)%Z -> l_single name m phi c q = (c, Some AssertionError).
Proof. intros name m phi c q H. unfold l_single. replace ((0 <=? q)%Z && (q <? l_N c)%Z) with false; [reflexivity|]. destruct (Z.leb_spec 0 q), (Z.ltb_spec q (l_N c)); auto; lia. Qed.
Lemma legacy_bad_control : forall name m c a b, (l_N c < a \/ b < 0 \/ l_N c <= b)%Z -> l_ctrl name m c a b = (c, Some AssertionError).
Proof.
  intros name m c a b H. unfold l_ctrl. destruct (Z.leb_spec a (l_N c)); [|reflexivity]. cbn [negb].
  replace ((0 <=? b)%Z && (b <? l_N c)%Z) with false; [reflexivity|]. destruct (Z.leb_spec 0 b), (Z.ltb_spec b (l_N c)); auto; lia.
Qed.
(** control = n_qubits, or control = target: the entry stays, the matrix is not added *)
Lemma legacy_recorded : forall name m c a b, (a = l_N c \/ a = b)%Z -> (0 <= b < l_N c)%Z -> l_ctrl name m c a b = (l_add_gate c name [a; b] None, Some ValueError).
Proof.
  intros name m c a b H B. unfold l_ctrl. destruct (Z.leb_spec a (l_N c)); [|lia]. destruct (Z.leb_spec 0 b); [|lia]. destruct (Z.ltb_spec b (l_N c)); [|lia]. cbn [negb andb].
  unfold l_control, raise_if, l_add_gate. cbn [l_N]. destruct (Z.ltb_spec (l_N c) 1); [lia|]. destruct (Z.leb_spec (l_N c) a); [reflexivity|]. destruct (Z.leb_spec (l_N c) b); [lia|]. destruct (Z.eqb_spec b a); [reflexivity|lia].
Qed.
Lemma legacy_second_zero : forall n c a t, l_N c = Z.of_nat n -> a + 1 < n ->
  l_call c (gi_rxx t a 0) = Some (l_after n c (gi_rxx t a (a + 1)), None) /\ l_call c (gi_ryy t a 0) = Some (l_after n c (gi_ryy t a (a + 1)), None) /\
  l_call c (gi_rzz t a 0) = Some (l_after n c (gi_rzz t a (a + 1)), None).
Proof.
  intros n c a t E H. cbn [l_call]. unfold l_after. cbn [legacy_entry gi_wires gi_op map].
  split; [|split]; f_equal; apply (l_rot2_ok n _ _ _ c a 0); auto using l_x_op, l_y_op, l_z_op; unfold second; cbn; lia.
Qed.
(** on the last qubit: the shifted qubit is outside the register *)
Lemma legacy_second_zero_last : forall n c t, l_N c = Z.of_nat n -> 0 < n ->
  exists c', l_call c (gi_rxx t (n - 1) 0) = Some (c', Some ValueError) /\ l_u c' = l_u c /\ List.length (l_gates c') = List.length (l_gates c) + 1.
Proof.
  intros n c t E H. cbn [l_call]. unfold l_rot2. cbn [Z.of_nat Z.eqb]. rewrite E. destruct (Z.leb_spec (Z.of_nat (n - 1)) (Z.of_nat n)); [|lia]. destruct (Z.leb_spec (Z.of_nat (n - 1) + 1) (Z.of_nat n)); [|lia]. cbn [negb andb].
  unfold l_rotation, raise_if, l_add_gate. cbn [l_N]. rewrite E. destruct (Z.ltb_spec (Z.of_nat n) 1); [lia|].
  replace (_ || _ || _ || _) with true by (symmetry; apply orb_true_iff; right; apply Z.ltb_lt; lia). cbn [l_add_u]. eexists. split; [reflexivity|]. cbn [l_u l_gates]. rewrite app_length. cbn. auto.
Qed.
Lemma rxx_differs : ~ op_eq 3 (gi_op 3 (gi_rxx PI 1 2)) (gi_op 3 (gi_rxx PI 1 0)).
Proof.
  intros H. specialize (H [0; 1; 1] [0; 0; 0]). assert (I1 : In [0; 1; 1] (bits 3)) by (cbn; tauto). assert (I2 : In [0; 0; 0] (bits 3)) by (cbn; tauto). specialize (H I1 I2).
  cbn [gi_op] in H. unfold rpp_op, add_op in H. unfold scale_op in H. rewrite !(lift2_mul 3) in H by (auto; lia). apply (f_equal snd) in H. cbn in H. rewrite sin_PI2 in H. lra.
Qed.

Lemma py_index_neg : forall n k, 1 <= k <= n -> py_index n (- Z.of_nat k) = py_index n (Z.of_nat (n - k)).
Proof.
  intros n k H. rewrite py_index_nat by lia. unfold py_index. destruct (Z.leb_spec 0 (- Z.of_nat k)); [lia|]. cbn [andb]. destruct (Z.leb_spec (- Z.of_nat n) (- Z.of_nat k)); [|lia]. destruct (Z.ltb_spec (- Z.of_nat k) 0); [|lia]. cbn [andb]. f_equal. lia.
Qed.
Lemma py_set_neg : forall A (l : list A) k x, 1 <= k <= List.length l -> py_set l (- Z.of_nat k) x = py_set l (Z.of_nat (List.length l - k)) x.
Proof. intros A l k x H. unfold py_set. now rewrite py_index_neg. Qed.
Lemma eyes_length : forall n, List.length (eyes (SC := C_scalar) (Z.of_nat n)) = n.
Proof. intros. unfold eyes. now rewrite repeat_length, Nat2Z.id. Qed.
(** a negative control counts from the end *)
Lemma legacy_negative : forall n name m c k t (A : @qop C_scalar), l_N c = Z.of_nat n -> m = op_tensor 1 A -> 1 <= k <= n -> t < n -> t <> n - k ->
  l_ctrl name m c (- Z.of_nat k) (Z.of_nat t) = (mkL (l_N c) (l_gates c ++ [(name, [(- Z.of_nat k)%Z; Z.of_nat t], None)]) (l_u c ++ [op_tensor n (ctrl [n - k] (lift A [t]))]), None).
Proof.
  intros n name m c k t A E -> Hk Ht N. unfold l_ctrl. rewrite E. destruct (Z.leb_spec (- Z.of_nat k) (Z.of_nat n)); [|lia]. destruct (Z.leb_spec 0 (Z.of_nat t)); [|lia]. destruct (Z.ltb_spec (Z.of_nat t) (Z.of_nat n)); [|lia]. cbn [negb andb].
  unfold l_add_gate. cbn [l_N]. rewrite E. replace (l_control (op_tensor 1 A) (Z.of_nat n) (- Z.of_nat k) (Z.of_nat t)) with (l_control (op_tensor 1 A) (Z.of_nat n) (Z.of_nat (n - k)) (Z.of_nat t)).
  - rewrite l_control_ok by lia. reflexivity.
  - unfold l_control, raise_if. destruct (Z.ltb_spec (Z.of_nat n) 1); [lia|]. destruct (Z.leb_spec (Z.of_nat n) (- Z.of_nat k)); [lia|]. destruct (Z.leb_spec (Z.of_nat n) (Z.of_nat t)); [lia|]. destruct (Z.leb_spec (Z.of_nat n) (Z.of_nat (n - k))); [lia|].
    destruct (Z.eqb_spec (Z.of_nat t) (Z.of_nat (n - k))); [lia|]. destruct (Z.eqb_spec (Z.of_nat t) (- Z.of_nat k)); [lia|]. rewrite !py_set_neg by (rewrite eyes_length; lia). rewrite !eyes_length. reflexivity.
Qed.
(** the same qubit once as a negative and once as a positive number is not refused *)
Lemma legacy_negative_same : forall n name m c k (A : @qop C_scalar), l_N c = Z.of_nat n -> m = op_tensor 1 A -> 1 <= k <= n ->
  l_ctrl name m c (- Z.of_nat k) (Z.of_nat (n - k)) =
  (mkL (l_N c) (l_gates c ++ [(name, [(- Z.of_nat k)%Z; Z.of_nat (n - k)], None)])
       (l_u c ++ [op_tensor n (lift (add_op (op2 (RtoC 1) (RtoC 0) (RtoC 0) (RtoC 0)) A) [n - k])]), None).
Proof.
  intros n name m c k A E -> Hk. unfold l_ctrl. rewrite E. destruct (Z.leb_spec (- Z.of_nat k) (Z.of_nat n)); [|lia]. destruct (Z.leb_spec 0 (Z.of_nat (n - k))); [|lia]. destruct (Z.ltb_spec (Z.of_nat (n - k)) (Z.of_nat n)); [|lia]. cbn [negb andb].
  unfold l_add_gate. cbn [l_N]. rewrite E.
  assert (X : l_control (op_tensor 1 A) (Z.of_nat n) (- Z.of_nat k) (Z.of_nat (n - k)) = Ok (op_tensor n (lift (add_op (op2 (RtoC 1) (RtoC 0) (RtoC 0) (RtoC 0)) A) [n - k]))).
  { unfold l_control, raise_if. destruct (Z.ltb_spec (Z.of_nat n) 1); [lia|]. destruct (Z.leb_spec (Z.of_nat n) (- Z.of_nat k)); [lia|]. destruct (Z.leb_spec (Z.of_nat n) (Z.of_nat (n - k))); [lia|]. destruct (Z.eqb_spec (Z.of_nat (n - k)) (- Z.of_nat k)); [lia|].
    rewrite !py_set_neg by (rewrite eyes_length; lia). rewrite !eyes_length. unfold zero_zero, one_one. rewrite !mat_of_op2. rewrite eyes_op, !(py_set_op _ n) by (rewrite ?repeat_length; lia). cbn [bind].
    rewrite !(py_set_op _ n) by (rewrite ?set_nth_length, ?repeat_length; lia). cbn [bind]. rewrite !(l_multi_kron_fac _ n) by (rewrite ?set_nth_length, ?repeat_length; lia).
    rewrite !(multi_kron_fac _ n) by (rewrite ?set_nth_length, ?repeat_length; lia). cbn [bind]. rewrite tadd_op. f_equal. apply op_tensor_ext. intros r cc Hr Hc.
    rewrite (prod_of_1 n (op2 k1 k0 k0 k0) (n - k)) by (auto; try lia; intros i Hi; now rewrite fac_set, fac_repeat by (rewrite repeat_length; lia)).
    rewrite (prod_of_1 n A (n - k)) by (auto; try lia; intros i Hi; rewrite !fac_set, fac_repeat by (rewrite ?set_nth_length, ?repeat_length; lia); destruct (i =? n - k); reflexivity).
    rewrite lift_add. reflexivity. }
  rewrite X. reflexivity.
Qed.
Lemma not_unitary_example : ~ unitary 2 (lift (add_op (op2 (RtoC 1) (RtoC 0) (RtoC 0) (RtoC 0)) X_op) [1]).
Proof.
  intros [H _]. specialize (H [0; 0] [0; 0]). assert (I1 : In [0; 0] (bits 2)) by (cbn; tauto). specialize (H I1 I1). apply (f_equal fst) in H. cbn in H. lra.
Qed.

Lemma legacy_measure : forall n t A, is_op n t A -> l_measure t n = Ok (map (zmean_rho n A) (seq 0 n)).
Proof.
  intros n t A H. unfold l_measure. rewrite zrange_seq, mmap_map. apply mmap_Ok_ext. intros q Hq. apply in_seq in Hq. unfold l_expecval_ZI. rewrite l_z_op, l_expand_ok by lia. cbn [bind].
  apply is_op_eq in H. subst t. rewrite matmul_op. cbn [bind]. rewrite trace_op_tensor. cbn [bind]. f_equal. apply Z_trace. lia.
Qed.
Lemma legacy_measure_agrees : forall n t A, 0 < n -> is_op n t A -> (Cabs (Csub (trace_op n A) (RtoC 1)) <= 1 / 10000)%R -> l_measure t n = measure (Z.of_nat n) t INone.
Proof. intros n t A Hn H T. now rewrite (legacy_measure n t A), (measure_all_rho n t A). Qed.

Definition legacy_demo : list gi := [gi_H 0; gi_rx 1 2; gi_cnot 0 2; gi_rxx PI 2 1; gi_mcx [0; 1] 2].
Lemma legacy_demo_ok : Forall (gi_ok 3) legacy_demo /\ forallb legacy_call legacy_demo = true.
Proof.
  split; [|reflexivity]. repeat (apply Forall_cons || apply Forall_nil); (split; [split; [repeat constructor; cbn; lia|cbn; intros w Hw; lia]|first [exact I|discriminate]]).
Qed.

Lemma legacy_second_same : forall n c a t, l_N c = Z.of_nat n -> a + 1 < n ->
  l_call c (gi_rxx t a 0) = l_call c (gi_rxx t a (a + 1)) /\ l_call c (gi_ryy t a 0) = l_call c (gi_ryy t a (a + 1)) /\ l_call c (gi_rzz t a 0) = l_call c (gi_rzz t a (a + 1)).
Proof.
  intros n c a t E H. destruct (legacy_second_zero n c a t E H) as (H1 & H2 & H3). rewrite H1, H2, H3.
  assert (G : forall b, b < n -> a <> b -> good_wires n [a; b]) by (intros; apply good_wires_2; auto; lia). rewrite !(l_call_ok n) by (first [exact E | (split; [apply G; lia|exact I]) | (cbn; apply negb_true_iff, Nat.eqb_neq; lia)]). auto.
Qed.
Lemma one_u : forall n N gs (A : @qop C_scalar), N = Z.of_nat n -> exists u, l_U (mkL N gs [op_tensor n A]) = Ok u /\ is_op n u A.
Proof.
  intros n N gs A ->. unfold l_U, l_product. cbn [l_N l_u mfold]. rewrite Nat2Z.id, eye_op, matmul_op. cbn [bind]. eexists. split; [reflexivity|]. apply is_op_eq. apply op_tensor_ext. intros r c Hr Hc. now apply mul_op_id_r.
Qed.
Lemma legacy_second_differs : exists c u, l_call (LCircuit 3) (gi_rxx PI 1 0) = Some (c, None) /\ l_U c = Ok u /\
  is_op 3 u (gi_op 3 (gi_rxx PI 1 2)) /\ ~ is_op 3 u (gi_op 3 (gi_rxx PI 1 0)).
Proof.
  destruct (legacy_second_zero 3 (LCircuit 3) 1 PI eq_refl ltac:(lia)) as (H & _). unfold l_after in H. cbn [l_u l_N l_gates LCircuit app] in H. eexists.
  destruct (one_u 3 3%Z (legacy_entry (gi_rxx PI 1 (1 + 1))) (gi_op 3 (gi_rxx PI 1 2)) eq_refl) as (u & U1 & U2). exists u. split; [exact H|]. split; [exact U1|]. split; [exact U2|]. intros U3. apply rxx_differs.
  intros r c Hr Hc. destruct U2 as (_ & _ & U2), U3 as (_ & _ & U3). rewrite <- U2, <- U3 by auto. reflexivity.
Qed.
Lemma legacy_negative_cnot : forall n c k t, l_N c = Z.of_nat n -> 1 <= k <= n -> t < n -> t <> n - k ->
  exists c', l_ctrl "cnot"%string l_x c (- Z.of_nat k) (Z.of_nat t) = (c', None) /\ l_u c' = l_u c ++ [op_tensor n (gi_op n (gi_cnot (n - k) t))].
Proof. intros n c k t E H1 H2 H3. rewrite (legacy_negative n _ _ c k t X_op E l_x_op H1 H2 H3). eexists. split; reflexivity. Qed.
Lemma legacy_not_unitary : exists c u, l_ctrl "cnot"%string l_x (LCircuit 2) (-1) 1 = (c, None) /\ l_U c = Ok u /\ shape u = [4; 4] /\ ~ unitary 2 (op_of u).
Proof.
  pose proof (legacy_negative_same 2 "cnot"%string l_x (LCircuit 2) 1 X_op eq_refl l_x_op ltac:(lia)) as H. cbn [l_u l_N l_gates LCircuit app] in H. eexists.
  destruct (one_u 2 2%Z [("cnot"%string, [(-1)%Z; 1%Z], None)] (lift (add_op (op2 (SC := C_scalar) (RtoC 1) (RtoC 0) (RtoC 0) (RtoC 0)) X_op) [1]) eq_refl) as (u & U1 & U2). exists u. split; [exact H|]. split; [exact U1|]. split; [apply U2|].
  intros U. apply not_unitary_example. destruct U2 as (_ & _ & U2). now rewrite <- U2.
Qed.
