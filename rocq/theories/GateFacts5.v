(** Gate objects built with arbitrary integers for the wires. *)
From Coq Require Import List ZArith Reals Lra Lia Bool Arith Ring Morphisms ZifyBool.
From Verif Require Import PyBase Scalar CInst BigSum Index Tensor TensorFacts Spec SpecFacts QMath QTN QOperator
  ExpandFacts ExpandFacts2 ContractFacts ContractFacts2 GateSpec QGates GateCalls GateFacts GateFacts2 GateFacts3 GateFacts4.
Import ListNotations.

Lemma u3_m_any : forall l m, u3_m l = Ok m -> exists t p q l', l = t :: p :: q :: l' /\ m = op_tensor 1 (u3_op t p q).
Proof.
  intros l m H. destruct l as [|t [|p [|q l]]]; try (cbn in H; discriminate).
  exists t, p, q, l. split; [reflexivity|].
  assert (E : u3_m (t :: p :: q :: l) = u3_m [t; p; q]).
  { unfold u3_m.
    assert (P : forall i x, nth_error [t; p; q] i = Some x -> py_nth (t :: p :: q :: l) (Z.of_nat i) = Ok x).
    { intros i x Hx. unfold py_nth. assert (i < 3) by (apply (nth_error_Some [t; p; q]); congruence).
      rewrite py_index_nat by (cbn [length]; lia). cbn [bind].
      destruct i as [|[|[|i]]]; cbn in Hx |- *; [congruence..|lia]. }
    change 0%Z with (Z.of_nat 0). change 1%Z with (Z.of_nat 1). change 2%Z with (Z.of_nat 2).
    rewrite (P 0 t), (P 1 p), (P 2 q) by reflexivity. reflexivity. }
  rewrite E, u3_m_ok in H. congruence.
Qed.

(** what the constructors put in the object *)
Lemma constructed_single : forall g, constructed g -> one_qubit_cls (g_cls g) = true ->
  exists A, unitary 1 A /\ g_matrix g = op_tensor 1 A.
Proof.
  intros g C S. destruct C as [N w g E|N w g E|N w g E|N w g E|t N w g E|t N w g E|t N w g E|t N w g E|l N w g E|t N w g E|t N w g E
     |t N w g E|N w g E|N w g E|t N w g E|l N w g E|N w g E|N w g E|N w g E].
  - injection E as <-. exists H_op. split; [apply H_unitary|apply H_m_ok].
  - injection E as <-. exists X_op. split; [apply X_unitary|apply PauliX_op].
  - injection E as <-. exists Y_op. split; [apply Y_unitary|apply PauliY_op].
  - injection E as <-. exists Z_op. split; [apply Z_unitary|apply PauliZ_op].
  - unfold rx in E. rewrite rx_m_ok in E. injection E as <-. exists (rx_op t). split; [apply rx_unitary|reflexivity].
  - unfold ry in E. rewrite ry_m_ok in E. injection E as <-. exists (ry_op t). split; [apply ry_unitary|reflexivity].
  - unfold rz in E. rewrite rz_m_ok in E. injection E as <-. exists (rz_op t). split; [apply rz_unitary|reflexivity].
  - unfold u1 in E. rewrite u1_m_ok in E. injection E as <-. exists (u1_op t). split; [apply u1_unitary|reflexivity].
  - unfold u3 in E. apply bind_inv in E. destruct E as (m & Em & E). apply u3_m_any in Em.
    destruct Em as (a & b & c & l' & _ & ->). injection E as <-. exists (u3_op a b c). split; [apply u3_unitary|reflexivity].
  - unfold rxx in E. apply bind_inv in E. destruct E as (m & Em & E). injection E as <-. discriminate S.
  - unfold ryy in E. apply bind_inv in E. destruct E as (m & Em & E). injection E as <-. discriminate S.
  - unfold rzz in E. apply bind_inv in E. destruct E as (m & Em & E). injection E as <-. discriminate S.
  - injection E as <-. discriminate S.
  - injection E as <-. discriminate S.
  - unfold cphase in E. apply bind_inv in E. destruct E as (m & Em & E). injection E as <-. discriminate S.
  - unfold cu3 in E. apply bind_inv in E. destruct E as (m & Em & E). apply bind_inv in E. destruct E as (m' & Em' & E).
    injection E as <-. discriminate S.
  - injection E as <-. discriminate S.
  - unfold toffoli in E. apply bind_inv in E. destruct E as (m & Em & E). injection E as <-. discriminate S.
  - unfold multi_control_cnot in E. apply bind_inv in E. destruct E as (m & Em & E). apply bind_inv in E. destruct E as (m' & Em' & E).
    injection E as <-. discriminate S.
Qed.

Lemma single_U_inv : forall A N w t, single_U_expand (op_tensor 1 A) N w = Ok t ->
  exists n i, N = Z.of_nat n /\ i < n /\ t = op_tensor n (lift A [i]).
Proof.
  intros A N w t H. unfold single_U_expand, raise_if in H.
  destruct (unset N w); [discriminate|]. destruct (N <? 1)%Z eqn:E1; [discriminate|].
  destruct w as [i|l]; [|discriminate]. cbn [wire_int bind] in H.
  destruct ((i <? 0)%Z || (N - 1 <? i)%Z) eqn:E2.
  - unfold gate_expand_1toN, raise_if in H. rewrite E1, E2 in H. discriminate.
  - exists (Z.to_nat N), (Z.to_nat i). repeat split; try lia.
    rewrite <- (Z2Nat.id N), <- (Z2Nat.id i) in H by lia. rewrite gate_expand_ok in H by lia. congruence.
Qed.

Lemma control_U_inv : forall U N c d t, two_qubit_control_gate (op_tensor 1 U) N c d = Ok t ->
  exists n c' d', N = Z.of_nat n /\ good_wires n [c'; d'] /\ t = op_tensor n (ctrl [c'] (lift U [d'])).
Proof.
  intros U N c d t H.
  destruct ((N <? 1)%Z || (N - 1 <? Z.max c d)%Z || (Z.min c d <? 0)%Z || (c =? d)%Z) eqn:E.
  - unfold two_qubit_control_gate, raise_if in H. destruct (N <? 1)%Z; [discriminate|].
    destruct (N - 1 <? Z.max c d)%Z; [discriminate|]. destruct (Z.min c d <? 0)%Z; [discriminate|].
    destruct (c =? d)%Z; discriminate.
  - exists (Z.to_nat N), (Z.to_nat c), (Z.to_nat d). split; [lia|]. split; [apply good_wires_2; lia|].
    rewrite <- (Z2Nat.id N), <- (Z2Nat.id c), <- (Z2Nat.id d) in H by lia.
    rewrite two_qubit_control_ok in H by lia. congruence.
Qed.

Lemma ctrl1_unitary : forall n c d U, good_wires n [c; d] -> unitary 1 U -> unitary n (ctrl [c] (lift U [d])).
Proof. intros n c d U W X. destruct (mcx_wires n [c] d W) as (W1 & W2 & W3). now apply ctrl_unitary. Qed.

Lemma rpp_U_inv : forall P N c s a b t, rpp_U (op_tensor 1 P) c s N a b = Ok t ->
  exists n a' b', N = Z.of_nat n /\ a' < n /\ b' < n /\ a' <> b' /\
    t = op_tensor n (add_op (scale_op c id_op) (scale_op s (mul_op n (lift P [a']) (lift P [b'])))).
Proof.
  intros P N c s a b t H.
  destruct ((N <? 1)%Z || (a <? 0)%Z || (N - 1 <? a)%Z || (b <? 0)%Z || (a =? b)%Z) eqn:E.
  - unfold rpp_U, raise_if in H. destruct (N <? 1)%Z; [discriminate|].
    destruct (a <? 0)%Z; [discriminate|]. destruct (N - 1 <? a)%Z; [discriminate|].
    destruct (b <? 0)%Z; [discriminate|]. destruct (a =? b)%Z; discriminate.
  - destruct (N - 1 <? b)%Z eqn:E2.
    + exfalso. unfold rpp_U, raise_if in H. replace (N <? 1)%Z with false in H by lia.
      replace ((a <? 0)%Z || (N - 1 <? a)%Z || (b <? 0)%Z || (N - 1 <? a)%Z) with false in H by lia.
      replace (a =? b)%Z with false in H by lia.
      apply bind_inv in H. destruct H as (l2 & H1 & H). apply bind_inv in H. destruct H as (l3 & H2 & _).
      unfold py_set in H1. apply bind_inv in H1. destruct H1 as (k & _ & H1). injection H1 as <-.
      unfold py_set in H2. rewrite set_nth_length in H2. unfold eyes in H2. rewrite repeat_length in H2.
      unfold py_index in H2.
      replace ((0 <=? b)%Z && (b <? Z.of_nat (Z.to_nat N))%Z) with false in H2 by lia.
      replace ((- Z.of_nat (Z.to_nat N) <=? b)%Z && (b <? 0)%Z) with false in H2 by lia. discriminate.
    + exists (Z.to_nat N), (Z.to_nat a), (Z.to_nat b). repeat split; try lia.
      rewrite <- (Z2Nat.id N), <- (Z2Nat.id a), <- (Z2Nat.id b) in H by lia. rewrite rpp_U_ok in H by lia. congruence.
Qed.

Lemma fold_max_in : forall l x z, (fold_left Z.max l x <= z)%Z <-> (x <= z)%Z /\ Forall (fun y => y <= z)%Z l.
Proof.
  induction l as [|a l IH]; intros x z; cbn.
  - split; [intros; split; auto|tauto].
  - rewrite IH. split; intros [H1 H2].
    + split; [lia|constructor; [lia|exact H2]].
    + inversion H2; subst. split; [lia|assumption].
Qed.
Lemma fold_min_in : forall l x z, (z <= fold_left Z.min l x)%Z <-> (z <= x)%Z /\ Forall (fun y => z <= y)%Z l.
Proof.
  induction l as [|a l IH]; intros x z; cbn.
  - split; [intros; split; auto|tauto].
  - rewrite IH. split; intros [H1 H2].
    + split; [lia|constructor; [lia|exact H2]].
    + inversion H2; subst. split; [lia|assumption].
Qed.

(** the only ways in which multi_control_gate does not succeed are rejections with ValueError *)
Lemma multi_control_cases : forall U N cs t,
  (exists n cs' t', N = Z.of_nat n /\ cs = map Z.of_nat cs' /\ t = Z.of_nat t' /\ cs' <> [] /\
     (forall w, In w cs' -> w < n) /\ t' < n /\ ~ In t' cs' /\
     multi_control_gate (op_tensor 1 U) N cs t = Ok (op_tensor n (ctrl cs' (lift U [t'])))) \/
  ((N <? 1)%Z = true \/ cs = [] \/ (exists w, In w (cs ++ [t]) /\ (w < 0 \/ N <= w)%Z) \/ In t cs) /\
    multi_control_gate (op_tensor 1 U) N cs t = Err ValueError.
Proof.
  intros U N cs t. unfold multi_control_gate at 2, raise_if.
  destruct (N <? 1)%Z eqn:E1; [right; auto|].
  destruct cs as [|c cs]; [right; split; [auto|reflexivity]|]. cbn [py_max py_min bind].
  destruct (N - 1 <? Z.max (fold_left Z.max cs c) t)%Z eqn:E2.
  { right. split; [|reflexivity]. right; right; left.
    assert (D : (N <= t \/ N <= fold_left Z.max cs c)%Z) by lia. destruct D as [D|D].
    - exists t. split; [apply in_or_app; right; now left|lia].
    - destruct (Exists_dec (fun y => N <= y)%Z (c :: cs) (fun y => Z_le_dec N y)) as [X|X].
      + apply Exists_exists in X. destruct X as (y & Hy & Ly). exists y. split; [apply in_or_app; now left|lia].
      + exfalso. assert (Y : (fold_left Z.max cs c <= N - 1)%Z).
        { apply fold_max_in. rewrite <- Forall_Exists_neg in X. inversion X; subst. split; [lia|].
          eapply Forall_impl; [|eassumption]. cbn. intros; lia. }
        lia. }
  destruct (Z.min (fold_left Z.min cs c) t <? 0)%Z eqn:E3.
  { right. split; [|reflexivity]. right; right; left.
    assert (D : (t < 0 \/ fold_left Z.min cs c < 0)%Z) by lia. destruct D as [D|D].
    - exists t. split; [apply in_or_app; right; now left|lia].
    - destruct (Exists_dec (fun y => y < 0)%Z (c :: cs) (fun y => Z_lt_dec y 0)) as [X|X].
      + apply Exists_exists in X. destruct X as (y & Hy & Ly). exists y. split; [apply in_or_app; now left|lia].
      + exfalso. assert (Y : (0 <= fold_left Z.min cs c)%Z).
        { apply fold_min_in. rewrite <- Forall_Exists_neg in X. inversion X; subst. split; [lia|].
          eapply Forall_impl; [|eassumption]. cbn. intros; lia. }
        lia. }
  destruct (existsb (fun each => (each =? t)%Z) (c :: cs)) eqn:E4.
  { right. split; [|reflexivity]. right; right; right. apply existsb_exists in E4. destruct E4 as (x & Hx & Ex).
    replace t with x by lia. exact Hx. }
  left.
  assert (H1 : (fold_left Z.max cs c <= N - 1)%Z) by lia. assert (H2 : (0 <= fold_left Z.min cs c)%Z) by lia.
  apply fold_max_in in H1. apply fold_min_in in H2. destruct H1 as [H1 F1], H2 as [H2 F2].
  assert (B : forall w, In w (c :: cs) -> (0 <= w < N)%Z).
  { intros w [<-|Hw]; [lia|]. rewrite Forall_forall in F1, F2. specialize (F1 w Hw). specialize (F2 w Hw). cbn in *. lia. }
  exists (Z.to_nat N), (map Z.to_nat (c :: cs)), (Z.to_nat t).
  assert (M : c :: cs = map Z.of_nat (map Z.to_nat (c :: cs))).
  { rewrite map_map. rewrite <- (map_id (c :: cs)) at 1. apply map_ext_in. intros w Hw. specialize (B w Hw). lia. }
  assert (NI : ~ In (Z.to_nat t) (map Z.to_nat (c :: cs))).
  { intros Hin. apply in_map_iff in Hin. destruct Hin as (x & Ex & Hx). specialize (B x Hx).
    assert (x = t) by lia. subst x.
    assert (existsb (fun each => (each =? t)%Z) (c :: cs) = true) by (apply existsb_exists; exists t; split; [exact Hx|lia]).
    congruence. }
  assert (BB : forall w, In w (map Z.to_nat (c :: cs)) -> w < Z.to_nat N).
  { intros w Hw. apply in_map_iff in Hw. destruct Hw as (x & <- & Hx). specialize (B x Hx). lia. }
  split; [lia|]. split; [exact M|]. split; [lia|]. split; [discriminate|]. split; [exact BB|].
  split; [lia|]. split; [exact NI|].
  rewrite <- (Z2Nat.id N) at 1 by lia. rewrite <- (Z2Nat.id t) at 1 by lia. rewrite M at 1.
  apply multi_control_ok; auto; [discriminate|lia].
Qed.

Lemma mcx_unitary : forall n cs t, (forall w, In w cs -> w < n) -> t < n -> ~ In t cs -> unitary n (ctrl cs (lift X_op [t])).
Proof.
  intros n cs t B T NI. apply ctrl_unitary; auto using X_unitary, good_wires_1. intros w Hw [<-|[]]. contradiction.
Qed.

Ltac inv_bind H := let x := fresh "x" in let E := fresh "E" in apply bind_inv in H; destruct H as (x & E & H).

Lemma U_expand_unitary : forall g t, constructed g -> g_cls g <> cSWAP -> U_expand g = Ok t ->
  exists n A, g_N g = Z.of_nat n /\ unitary n A /\ t = op_tensor n A.
Proof.
  intros g t C NS H. destruct (one_qubit_cls (g_cls g)) eqn:S.
  { destruct (constructed_single g C S) as (A & U & E).
    assert (X : single_U_expand (op_tensor 1 A) (g_N g) (g_wires g) = Ok t).
    { rewrite <- E. unfold U_expand in H. destruct (g_cls g); try discriminate S; exact H. }
    apply single_U_inv in X. destruct X as (n & i & En & Hi & ->). exists n, (lift A [i]).
    split; [exact En|]. split; [|reflexivity]. apply lift_unitary; [now apply good_wires_1|exact U]. }
  destruct C as [N w g E|N w g E|N w g E|N w g E|p N w g E|p N w g E|p N w g E|p N w g E|l N w g E|p N w g E|p N w g E
     |p N w g E|N w g E|N w g E|p N w g E|l N w g E|N w g E|N w g E|N w g E].
  1-4: injection E as <-; discriminate S.
  1-5: unfold rx, ry, rz, u1, u3 in E; inv_bind E; injection E as <-; discriminate S.
  - unfold rxx in E; inv_bind E; injection E as <-. unfold U_expand in H. cbn [g_cls] in H. unfold rpp_U_expand, raise_if in H. cbn [g_N g_wires] in *.
    destruct (unset N w); [discriminate|]. destruct (N <? 1)%Z; [discriminate|]. inv_bind H.
    destruct ((x0 <? 0)%Z || (N - 1 <? x0)%Z); [discriminate|]. inv_bind H. cbn [p_scalar g_params bind] in H. rewrite PauliX_op in H.
    apply rpp_U_inv in H. destruct H as (n & a & b & En & Ha & Hb & Hab & ->). eexists n, _. split; [exact En|]. split; [|reflexivity].
    apply (rot_unitary n (mul_op n (lift X_op [a]) (lift X_op [b])) p); apply pp_props; auto using X_adj, X_unitary.
  - unfold ryy in E; inv_bind E; injection E as <-. unfold U_expand in H. cbn [g_cls] in H. unfold rpp_U_expand, raise_if in H. cbn [g_N g_wires] in *.
    destruct (unset N w); [discriminate|]. destruct (N <? 1)%Z; [discriminate|]. inv_bind H.
    destruct ((x0 <? 0)%Z || (N - 1 <? x0)%Z); [discriminate|]. inv_bind H. cbn [p_scalar g_params bind] in H. rewrite PauliY_op in H.
    apply rpp_U_inv in H. destruct H as (n & a & b & En & Ha & Hb & Hab & ->). eexists n, _. split; [exact En|]. split; [|reflexivity].
    apply (rot_unitary n (mul_op n (lift Y_op [a]) (lift Y_op [b])) p); apply pp_props; auto using Y_adj, Y_unitary.
  - unfold rzz in E; inv_bind E; injection E as <-. unfold U_expand in H. cbn [g_cls] in H. unfold rpp_U_expand, raise_if in H. cbn [g_N g_wires] in *.
    destruct (unset N w); [discriminate|]. destruct (N <? 1)%Z; [discriminate|]. inv_bind H.
    destruct ((x0 <? 0)%Z || (N - 1 <? x0)%Z); [discriminate|]. inv_bind H. cbn [p_scalar g_params bind] in H. rewrite PauliZ_op in H.
    apply rpp_U_inv in H. destruct H as (n & a & b & En & Ha & Hb & Hab & ->). eexists n, _. split; [exact En|]. split; [|reflexivity].
    apply (rot_unitary n (mul_op n (lift Z_op [a]) (lift Z_op [b])) p); apply pp_props; auto using Z_adj, Z_unitary.
  - injection E as <-. unfold U_expand in H. cbn [g_cls] in H. unfold ctrl_U_expand, raise_if in H. cbn [g_N g_wires bind] in *.
    destruct (unset N w); [discriminate|]. inv_bind H. inv_bind H. rewrite sigma_x_op in H. apply control_U_inv in H.
    destruct H as (n & c & d & En & W & ->). eexists n, _. split; [exact En|]. split; [|reflexivity]. apply ctrl1_unitary; auto using X_unitary.
  - injection E as <-. unfold U_expand in H. cbn [g_cls] in H. unfold ctrl_U_expand, raise_if in H. cbn [g_N g_wires bind] in *.
    destruct (unset N w); [discriminate|]. inv_bind H. inv_bind H. rewrite sigma_z_op in H. apply control_U_inv in H.
    destruct H as (n & c & d & En & W & ->). eexists n, _. split; [exact En|]. split; [|reflexivity]. apply ctrl1_unitary; auto using Z_unitary.
  - unfold cphase in E; inv_bind E; injection E as <-.
    unfold U_expand in H. cbn [g_cls] in H. unfold ctrl_U_expand, raise_if in H. cbn [g_N g_wires bind p_scalar g_params] in *.
    destruct (unset N w); [discriminate|]. inv_bind H. inv_bind H. rewrite phase_m_ok in H. apply control_U_inv in H.
    destruct H as (n & c & d & En & W & ->). eexists n, _. split; [exact En|]. split; [|reflexivity]. apply ctrl1_unitary; auto using u1_unitary.
  - unfold cu3 in E; inv_bind E; inv_bind E; injection E as <-.
    apply u3_m_any in E0. destruct E0 as (a & b & c' & l' & _ & ->).
    unfold U_expand in H. cbn [g_cls] in H. unfold ctrl_U_expand, raise_if in H. cbn [g_N g_wires bind g_umatrix] in *.
    destruct (unset N w); [discriminate|]. inv_bind H. inv_bind H. apply control_U_inv in H.
    destruct H as (n & c & d & En & W & ->). eexists n, _. split; [exact En|]. split; [|reflexivity]. apply ctrl1_unitary; auto using u3_unitary.
  - injection E as <-. now contradiction NS.
  - unfold toffoli in E; inv_bind E; injection E as <-.
    unfold U_expand in H. cbn [g_cls] in H. unfold raise_if in H. cbn [g_N g_wires bind] in *.
    destruct (unset N w); [discriminate|]. inv_bind H. inv_bind H. inv_bind H. rewrite sigma_x_op in H.
    destruct (multi_control_cases X_op N [x0; x1] x2) as [(n & cs & d & En & _ & _ & _ & B & T & NI & R)|[_ R]]; rewrite R in H; [|discriminate].
    injection H as <-. eexists n, _. split; [exact En|]. split; [|reflexivity]. now apply mcx_unitary.
  - unfold multi_control_cnot in E; inv_bind E; inv_bind E; injection E as <-.
    unfold U_expand in H. cbn [g_cls] in H. unfold raise_if in H. cbn [g_N g_wires bind] in *.
    destruct (unset N w); [discriminate|]. inv_bind H. inv_bind H. rewrite sigma_x_op in H.
    destruct (multi_control_cases X_op N (firstn (length x1 - 1) x1) x2) as [(n & cs & d & En & _ & _ & _ & B & T & NI & R)|[_ R]]; rewrite R in H; [|discriminate].
    injection H as <-. eexists n, _. split; [exact En|]. split; [|reflexivity]. now apply mcx_unitary.
Qed.

(** ** rejections *)
Lemma single_rejects : forall g w, constructed g -> one_qubit_cls (g_cls g) = true -> g_wires g = WInt w ->
  (w < 0 \/ g_N g <= w)%Z -> U_expand g = Err ValueError.
Proof.
  intros g w C S W B. destruct (constructed_single g C S) as (A & _ & E).
  transitivity (single_U_expand (g_matrix g) (g_N g) (g_wires g)).
  { unfold U_expand. destruct (g_cls g); try discriminate S; reflexivity. }
  unfold single_U_expand, raise_if. rewrite W. destruct (unset _ _); [reflexivity|].
  destruct (g_N g <? 1)%Z; [reflexivity|]. cbn [wire_int bind]. unfold gate_expand_1toN, raise_if.
  destruct (g_N g <? 1)%Z; [reflexivity|]. replace ((w <? 0)%Z || (g_N g - 1 <? w)%Z) with true by lia. reflexivity.
Qed.

Lemma control_rejects : forall U N c d, (c < 0 \/ N <= c \/ d < 0 \/ N <= d \/ c = d)%Z ->
  two_qubit_control_gate U N c d = Err ValueError.
Proof.
  intros U N c d B. unfold two_qubit_control_gate, raise_if. destruct (N <? 1)%Z; [reflexivity|].
  destruct (N - 1 <? Z.max c d)%Z eqn:E2; [reflexivity|]. destruct (Z.min c d <? 0)%Z eqn:E3; [reflexivity|].
  replace (c =? d)%Z with true by lia. reflexivity.
Qed.

Lemma controlled_rejects : forall g c d, constructed g -> controlled_cls (g_cls g) = true -> g_wires g = WList [c; d] ->
  (c < 0 \/ g_N g <= c \/ d < 0 \/ g_N g <= d \/ c = d)%Z -> U_expand g = Err ValueError.
Proof.
  intros g c d C S W B.
  assert (X : exists u, U_expand g = ctrl_U_expand (Ok u) g).
  { destruct C as [N w g E|N w g E|N w g E|N w g E|p N w g E|p N w g E|p N w g E|p N w g E|l N w g E|p N w g E|p N w g E
     |p N w g E|N w g E|N w g E|p N w g E|l N w g E|N w g E|N w g E|N w g E].
    1-4: injection E as <-; discriminate S.
    1-8: unfold rx, ry, rz, u1, u3, rxx, ryy, rzz in E; inv_bind E; injection E as <-; discriminate S.
    - injection E as <-. eexists. reflexivity.
    - injection E as <-. eexists. reflexivity.
    - unfold cphase in E; inv_bind E; injection E as <-. exists (phase_m p). reflexivity.
    - unfold cu3 in E; inv_bind E; inv_bind E; injection E as <-. eexists. reflexivity.
    - injection E as <-; discriminate S.
    - unfold toffoli in E; inv_bind E; injection E as <-; discriminate S.
    - unfold multi_control_cnot in E; inv_bind E; inv_bind E; injection E as <-; discriminate S. }
  destruct X as (u & ->). unfold ctrl_U_expand, raise_if. rewrite W.
  destruct (unset _ _); [reflexivity|]. cbn [bind].
  change (wire_at (WList [c; d]) 0) with (Ok c). change (wire_at (WList [c; d]) 1) with (Ok d). cbn [bind].
  now apply control_rejects.
Qed.

Lemma multi_rejects : forall U N cs t, (exists w, In w (cs ++ [t]) /\ (w < 0 \/ N <= w)%Z) \/ In t cs ->
  multi_control_gate (op_tensor 1 U) N cs t = Err ValueError.
Proof.
  intros U N cs t H. destruct (multi_control_cases U N cs t) as [(n & cs' & t' & -> & -> & -> & _ & B & T & NI & _)|[_ R]]; [|exact R].
  exfalso. destruct H as [(w & Hw & Bw)|H].
  - apply in_app_or in Hw. destruct Hw as [Hw|[<-|[]]]; [|lia]. apply in_map_iff in Hw.
    destruct Hw as (x & <- & Hx). specialize (B x Hx). lia.
  - apply in_map_iff in H. destruct H as (x & Ex & Hx). assert (x = t') by lia. subst. contradiction.
Qed.

Lemma toffoli_rejects : forall N c1 c2 t g, toffoli N (WList [c1; c2; t]) = Ok g ->
  (exists w, In w [c1; c2; t] /\ (w < 0 \/ N <= w)%Z) \/ In t [c1; c2] -> U_expand g = Err ValueError.
Proof.
  intros N c1 c2 t g E H. unfold toffoli in E. inv_bind E. injection E as <-.
  unfold U_expand, raise_if. cbn [g_cls g_N g_wires].
  destruct (unset _ _); [reflexivity|].
  change (wire_at (WList [c1; c2; t]) 0) with (Ok c1). change (wire_at (WList [c1; c2; t]) 1) with (Ok c2).
  change (wire_at (WList [c1; c2; t]) 2) with (Ok t). cbn [bind]. rewrite sigma_x_op. now apply multi_rejects.
Qed.

Lemma mcx_rejects : forall N cs t g, multi_control_cnot N (WList (cs ++ [t])) = Ok g ->
  (exists w, In w (cs ++ [t]) /\ (w < 0 \/ N <= w)%Z) \/ In t cs -> U_expand g = Err ValueError.
Proof.
  intros N cs t g E H. unfold multi_control_cnot in E. inv_bind E. inv_bind E. injection E as <-.
  unfold U_expand, raise_if. cbn [g_cls g_N g_wires].
  destruct (unset _ _); [reflexivity|]. cbn [wire_list bind].
  assert (P : py_nth (cs ++ [t]) (-1) = Ok t).
  { unfold py_nth. rewrite app_length. cbn [length]. replace (-1)%Z with (- Z.of_nat 1)%Z by reflexivity.
    rewrite py_index_neg by lia. cbn [bind]. rewrite nth_error_app2 by lia.
    replace (_ - _) with 0 by lia. reflexivity. }
  rewrite P. cbn [bind]. rewrite app_length. cbn [length]. replace (length cs + 1 - 1) with (length cs) by lia.
  rewrite firstn_app, Nat.sub_diag, firstn_all. cbn [firstn]. rewrite app_nil_r. rewrite sigma_x_op. now apply multi_rejects.
Qed.
