(** Lemmas: the quantum convolution. *)
From Coq Require Import List ZArith QArith Reals Lra Lia ZifyBool Bool Arith Setoid Morphisms.
From Verif Require Import PyBase Scalar CInst BigSum Index Tensor TensorFacts Spec SpecFacts QMath QMathC QTN QOperator
  ExpandFacts ExpandFacts2 ContractFacts ContractFacts2 GateSpec QGates GateCalls GateFacts GateFacts2 GateFacts3 GateFacts4 GateFacts5 GateFacts6 GateProofs RunSpec
  MPSSpec LayerSpec QLayers LayerCalls LayerFacts1 LayerFacts2 LayerFacts3 LayerFacts4 LayerProofs
  CircuitSpec QCircuit StateFacts CircuitFacts1 CircuitProofs MeasSpec MeasFacts MeasCases QuanvSpec QQuanv.
Import ListNotations.
Local Close Scope Q_scope.
Local Close Scope R_scope.
Local Open Scope nat_scope.

(** *** loops *)
Lemma mfold_flat : forall A B X (f : A -> B -> res A) (g : X -> list B) l a, mfold (fun a x => mfold f (g x) a) l a = mfold f (flat_map g l) a.
Proof. induction l as [|x l IH]; intros a; [reflexivity|]. cbn [mfold flat_map]. rewrite mfold_app. destruct (mfold f (g x) a); cbn [bind]; auto. Qed.
Lemma mfold_err : forall A B (f : A -> B -> res A) (P : A -> Prop) e l a,
  (forall a b, In b l -> P a -> (exists a', f a b = Ok a' /\ P a') \/ f a b = Err e) ->
  (exists b, In b l /\ forall a, P a -> f a b = Err e) -> P a -> mfold f l a = Err e.
Proof.
  intros A B f P e l. induction l as [|x l IH]; intros a H (b & Hb & Hf) Pa; [destruct Hb|]. cbn [mfold].
  destruct (H a x (or_introl eq_refl) Pa) as [(a' & E & Pa')|E]; rewrite E; cbn [bind]; [|reflexivity].
  apply IH; auto; [intros; apply H; auto; now right|]. destruct Hb as [<-|Hb]; [rewrite Hf in E by auto; discriminate|eauto].
Qed.

Lemma gates_circuit : forall n gs, Forall (gi_ok n) gs -> mfold method (map CG gs) (Circuit n) = Ok (circ n (map CG gs)).
Proof. intros n gs H. apply circuit_of_ok. rewrite Forall_map. exact H. Qed.
Lemma flat_CG : forall gs, flat_map ci_gates (map CG gs) = gs.
Proof. induction gs; cbn; congruence. Qed.

(** *** one circuit on a pure state *)
Section Outer.
  Context {SC : Scalar}.
  Add Ring KRq : k_ring.
  Local Open Scope k_scope.
  Lemma outer_conj_gen : forall n (A : qop) (psi : qstate), op_eq n (mul_op n (mul_op n A (fun r c => psi r * kconj (psi c))) (adj_op A)) (fun r c => act n A psi r * kconj (act n A psi c)).
  Proof.
    intros n A psi r c Hr Hc. unfold mul_op, adj_op, act. rewrite bigsum_conj, <- bigsum_mul_l. apply bigsum_ext. intros m Hm.
    rewrite kconj_mul, <- !bigsum_mul_r. apply bigsum_ext. intros k Hk. ring.
  Qed.
End Outer.
Lemma outer_conj : forall n A psi, op_eq n (mul_op n (mul_op n A (outer psi)) (adj_op A)) (outer (act n A psi)).
Proof. intros. exact (outer_conj_gen (SC := C_scalar) n A psi). Qed.
Lemma norm2_inner : forall n psi, RtoC (norm2 n psi) = inner n psi psi.
Proof.
  intros. unfold norm2, inner. apply C_eq; cbn [Re Im RtoC].
  - etransitivity; [|symmetry; apply (Re_bigsum_rsum _ _ _)]. apply rsum_ext. intros b _. cbn. unfold Cnorm2, Re, Im. ring.
  - etransitivity; [|symmetry; apply (Im_bigsum_rsum _ _ _)]. symmetry. erewrite rsum_ext; [apply rsum_0|]. intros b _. cbn. unfold Re, Im. ring.
Qed.
Lemma norm2_unitary : forall n A psi, unitary n A -> norm2 n (act n A psi) = norm2 n psi.
Proof. intros n A psi U. assert (X := unitary_inner n A psi psi U). rewrite <- !norm2_inner in X. injection X. auto. Qed.
Lemma norm2_zero : forall n, norm2 n (ket (repeat 0 n)) = 1%R.
Proof.
  intros n. assert (X : RtoC (norm2 n (ket (repeat 0 n))) = RtoC 1); [|injection X; auto]. rewrite norm2_inner.
  exact (proj2 (state_init_ok (Circuit n))).
Qed.
Lemma valid_2 : forall a b idx, valid [a; b] idx -> exists i j, idx = [i; j] /\ i < a /\ j < b.
Proof.
  intros a b idx H. destruct idx as [|i idx]; [inversion H|]. apply valid_cons in H. destruct H as [Hi H]. destruct idx as [|j idx]; [inversion H|]. apply valid_cons in H. destruct H as [Hj H].
  destruct idx; [eauto 6|inversion H].
Qed.
Lemma py_nth_big : forall A (l : list A) i, length l <= i -> py_nth l (Z.of_nat i) = Err IndexError.
Proof. intros A l i H. unfold py_nth, py_index. replace ((0 <=? Z.of_nat i)%Z && (Z.of_nat i <? Z.of_nat (length l))%Z) with false by lia. replace ((- Z.of_nat (length l) <=? Z.of_nat i)%Z && (Z.of_nat i <? 0)%Z) with false by lia. reflexivity. Qed.
Lemma init_op : forall n, tbuild [2 ^ n; 2 ^ n] (fun idx => if (nth 0 idx 0 =? 0) && (nth 1 idx 0 =? 0) then cR 1 else cR 0) = op_tensor n (outer (ket (repeat 0 n))).
Proof.
  intros n. unfold op_tensor. apply tbuild_ext. intros idx H. destruct (valid_2 _ _ _ H) as (i & j & -> & Hi & Hj). cbn [nth].
  assert (Z : forall k, k < 2 ^ n -> ket (repeat 0 n) (bitsof n k) = if k =? 0 then RtoC 1 else RtoC 0).
  { intros k Hk. unfold ket. pose proof (bval_zero n _ (bitsof_in n k Hk)) as Z. rewrite bval_bitsof in Z by exact Hk.
    destruct list_eq_dec as [e|ne]; [apply Z in e; now rewrite e|]. destruct (k =? 0) eqn:B; [apply Nat.eqb_eq in B; tauto|reflexivity]. }
  unfold outer. rewrite !Z by auto. unfold cR. destruct (i =? 0), (j =? 0); cbn [andb]; ceq; ring.
Qed.

(** *** the two circuits *)
Definition in_gates (n : nat) (data : list R) : list gi := map (fun q => gi_ry (PI * nth q data 0)%R q) (seq 0 n).
Definition conv_gates (n : nat) (w : list R) : list gi :=
  flat_map (fun q => [gi_rx (nth (3 * q) w 0%R) q; gi_rz (nth (3 * q + 1) w 0%R) q; gi_rx (nth (3 * q + 2) w 0%R) q]) (seq 0 n) ++
  map (fun q => gi_cnot q ((q + 1) mod n)) (seq 0 n).
Lemma quanv_split : forall n w data, quanv_gates n w data = in_gates n data ++ conv_gates n w.
Proof. reflexivity. Qed.

Lemma one_wire_ok : forall n q, q < n -> good_wires n [q].
Proof. intros. now apply good_wires_1. Qed.
Lemma in_gates_ok : forall n data, Forall (gi_ok n) (in_gates n data).
Proof. intros n data. apply Forall_map, Forall_forall. intros q Hq. apply in_seq in Hq. split; [apply one_wire_ok; lia|exact I]. Qed.
Lemma rot_gates_ok : forall n w, Forall (gi_ok n) (flat_map (fun q => [gi_rx (nth (3 * q) w 0%R) q; gi_rz (nth (3 * q + 1) w 0%R) q; gi_rx (nth (3 * q + 2) w 0%R) q]) (seq 0 n)).
Proof.
  intros n w. apply Forall_flat_map, Forall_forall. intros q Hq. apply in_seq in Hq.
  repeat constructor; try (apply one_wire_ok; lia); cbn; try tauto; intros ? [<-|[]]; lia.
Qed.
Lemma ring_gates_ok : forall n, 1 < n -> Forall (gi_ok n) (map (fun q => gi_cnot q ((q + 1) mod n)) (seq 0 n)).
Proof.
  intros n Hn. apply Forall_map, Forall_forall. intros q Hq. apply in_seq in Hq. split; [|exact I]. cbn [gi_wires]. apply good_wires_2; [lia|apply Nat.mod_upper_bound; lia|].
  destruct (Nat.eq_dec (q + 1) n) as [E|E]; [rewrite E, Nat.mod_same; lia|rewrite Nat.mod_small; lia].
Qed.
Lemma conv_gates_ok : forall n w, 1 < n -> Forall (gi_ok n) (conv_gates n w).
Proof. intros. apply Forall_app. split; [apply rot_gates_ok|now apply ring_gates_ok]. Qed.

Lemma gates_U : forall n gs, 0 < n -> Forall (gi_ok n) gs -> cU (circ n (map CG gs)) true = Ok (op_tensor n (gs_op n gs)).
Proof.
  intros n gs Hn H. rewrite cU_ok by (auto; now rewrite Forall_map). f_equal. apply op_tensor_ext. now rewrite cs_op_gates, flat_CG.
Qed.

Lemma input_ok : forall q data, 0 < qc_n q -> qc_n q <= length data -> qc_input q data = Ok (op_tensor (qc_n q) (gs_op (qc_n q) (in_gates (qc_n q) data))).
Proof.
  intros q data Hn L. unfold qc_input. set (n := qc_n q) in *.
  rewrite (mfold_ext _ _ _ (fun c k => method c (CG (gi_ry (PI * nth k data 0)%R k)))).
  2:{ intros c k Hk. apply in_seq in Hk. rewrite (py_nth_nat _ data k 0%R) by lia. reflexivity. }
  rewrite <- (mfold_map _ _ _ method (fun k => CG (gi_ry (PI * nth k data 0)%R k))).
  rewrite <- (map_map (fun k => gi_ry (PI * nth k data 0)%R k) CG). rewrite gates_circuit by apply in_gates_ok. cbn [bind]. apply gates_U; [exact Hn|apply in_gates_ok].
Qed.
Lemma input_short : forall q data, length data < qc_n q -> qc_input q data = Err IndexError.
Proof.
  intros q data L. unfold qc_input. set (n := qc_n q) in *.
  rewrite (mfold_err _ _ _ (fun c => c_N c = n) IndexError); [reflexivity| | |reflexivity].
  - intros c k Hk N. apply in_seq in Hk. destruct (le_lt_dec (length data) k) as [G|G].
    + right. rewrite py_nth_big by lia. reflexivity.
    + left. rewrite (py_nth_nat _ data k 0%R) by lia. cbn [bind]. unfold method. rewrite N.
      rewrite obuild_ok by (split; [apply one_wire_ok; lia|exact I]). cbn [bind]. eexists. split; [reflexivity|]. now rewrite add_N.
  - exists (length data). split; [apply in_seq; lia|]. intros c _. now rewrite py_nth_big by lia.
Qed.

(** the angles used by the convolution *)
Definition angles (q : quanconv) : list R := map (fun x => x * qc_w_mul q)%R (qc_weight q).
Lemma qconv_circuit : forall q, length (qc_weight q) = 3 * qc_n q -> forall B (k : circuit -> res B),
  (do c <- mfold (fun c which_q =>
    do t <- py_nth (angles q) (Z.of_nat (3 * which_q + 0));
    do c <- method c (CG (gi_rx t which_q));
    do t <- py_nth (angles q) (Z.of_nat (3 * which_q + 1));
    do c <- method c (CG (gi_rz t which_q));
    do t <- py_nth (angles q) (Z.of_nat (3 * which_q + 2));
    method c (CG (gi_rx t which_q))) (seq 0 (qc_n q)) (Circuit (qc_n q)); k c) =
  k (circ (qc_n q) (map CG (flat_map (fun i => [gi_rx (nth (3 * i) (angles q) 0%R) i; gi_rz (nth (3 * i + 1) (angles q) 0%R) i; gi_rx (nth (3 * i + 2) (angles q) 0%R) i]) (seq 0 (qc_n q))))).
Proof.
  intros q L B k. set (n := qc_n q) in *. set (w := angles q). assert (LW : length w = 3 * n) by (unfold w, angles; now rewrite map_length).
  rewrite (mfold_ext _ _ _ (fun c i => mfold method (map CG [gi_rx (nth (3 * i) w 0%R) i; gi_rz (nth (3 * i + 1) w 0%R) i; gi_rx (nth (3 * i + 2) w 0%R) i]) c)).
  2:{ intros c i Hi. apply in_seq in Hi. rewrite !(py_nth_nat _ w _ 0%R) by lia. rewrite Nat.add_0_r. cbn [bind map mfold].
      destruct (method c _); cbn [bind]; [|reflexivity]. destruct (method _ _); cbn [bind]; [|reflexivity]. destruct (method _ _); reflexivity. }
  rewrite mfold_flat.
  assert (F : forall X Y T (g : X -> list Y) (h : Y -> T) l, flat_map (fun x => map h (g x)) l = map h (flat_map g l)).
  { intros. induction l as [|x l IH]; [reflexivity|]. cbn [flat_map]. now rewrite IH, map_app. }
  rewrite F. rewrite gates_circuit by apply rot_gates_ok. reflexivity.
Qed.
Lemma circ_app : forall n cs1 cs2, Forall (ci_ok n) cs2 -> mfold method cs2 (circ n cs1) = Ok (circ n (cs1 ++ cs2)).
Proof.
  intros n cs1 cs2. revert cs1. induction cs2 as [|c cs2 IH]; intros cs1 H; [now rewrite app_nil_r|]. inversion H as [|? ? H1 H2]; subst. cbn [mfold]. unfold method at 1.
  rewrite circ_N, obuild_ok by auto. cbn [bind]. replace (add (circ n cs1) (oobj n c)) with (circ n (cs1 ++ [c])) by (unfold circ; now rewrite map_app, fold_left_app).
  rewrite IH by auto. now rewrite <- app_assoc.
Qed.

Lemma qconv_ok : forall q A, 1 < qc_n q -> length (qc_weight q) = 3 * qc_n q ->
  let G := gs_op (qc_n q) (conv_gates (qc_n q) (angles q)) in
  qc_qconv q (op_tensor (qc_n q) A) = Ok (op_tensor (qc_n q) (mul_op (qc_n q) (mul_op (qc_n q) G A) (adj_op G))).
Proof.
  intros q A Hn L G. unfold qc_qconv. fold (angles q). rewrite (qconv_circuit q L). set (n := qc_n q) in *.
  rewrite <- (mfold_map _ _ _ method (fun i => CG (gi_cnot i ((i + 1) mod n)))).
  rewrite <- (map_map (fun i => gi_cnot i ((i + 1) mod n)) CG). rewrite circ_app by (rewrite Forall_map; now apply ring_gates_ok).
  cbn [bind]. rewrite <- map_app. fold (conv_gates n (angles q)). rewrite gates_U by (auto using conv_gates_ok; lia). cbn [bind]. fold G.
  rewrite dag_op. cbn [bind]. rewrite matmul_op. cbn [bind]. apply matmul_op.
Qed.

Lemma values_ok : forall q im b j k, 1 < qc_n q -> length (qc_weight q) = 3 * qc_n q -> 0 < im_channel im ->
  qc_n q <= length (qc_patch im (qc_kernel q) b j k) ->
  qc_values q im b j k = Ok (map (quanv_value (qc_n q) (angles q) (qc_patch im (qc_kernel q) b j k)) (seq 0 (qc_n q))).
Proof.
  intros q im b j k Hn L HC LP. unfold qc_values. replace (im_channel im =? 0) with false by lia. cbn [raise_if].
  rewrite input_ok by lia. cbn [bind]. set (n := qc_n q) in *. rewrite init_op, matmul_op. cbn [bind]. rewrite dag_op. cbn [bind]. rewrite matmul_op. cbn [bind].
  set (data := qc_patch im (qc_kernel q) b j k) in *. unfold n at 4. rewrite qconv_ok by auto. fold n. cbn [bind].
  set (psi := act n (gs_op n (quanv_gates n (angles q) data)) (ket (repeat 0 n))).
  assert (E : op_tensor n (mul_op n (mul_op n (gs_op n (conv_gates n (angles q)))
     (mul_op n (mul_op n (gs_op n (in_gates n data)) (outer (ket (repeat 0 n)))) (adj_op (gs_op n (in_gates n data))))) (adj_op (gs_op n (conv_gates n (angles q))))) = op_tensor n (outer psi)).
  { apply op_tensor_ext. rewrite outer_conj, outer_conj. unfold psi. rewrite quanv_split. intros r c Hr Hc. unfold outer.
    assert (X : st_eq n (act n (gs_op n (in_gates n data ++ conv_gates n (angles q))) (ket (repeat 0 n))) (act n (gs_op n (conv_gates n (angles q))) (act n (gs_op n (in_gates n data)) (ket (repeat 0 n)))))
      by (rewrite gs_op_app; apply act_mul).
    now rewrite (X r Hr), (X c Hc). }
  rewrite E. rewrite (measure_all_rho n _ (outer psi)); [| lia | apply op_tensor_is | ].
  - f_equal. apply map_ext. intros c. apply zmean_outer.
  - rewrite trace_outer. unfold psi. rewrite norm2_unitary by (apply gs_unitary; rewrite quanv_split; apply Forall_app; split; [apply in_gates_ok|apply conv_gates_ok; lia]).
    rewrite norm2_zero. replace (Csub (RtoC 1) (RtoC 1)) with (RtoC 0) by (ceq; ring). rewrite Cabs_0. lra.
Qed.
