(** Lemmas: TN_operation of the gate objects. *)
From Coq Require Import List ZArith Reals Lia ZifyBool Bool Arith Ring Morphisms Permutation.
From Verif Require Import PyBase Scalar CInst BigSum Index Tensor TensorFacts Spec SpecFacts QMath QTN QOperator
  ExpandFacts ExpandFacts2 ContractFacts ContractFacts2 GateSpec QGates GateCalls GateFacts GateFacts2 GateFacts4
  MPSSpec MPSFacts1 MPSFacts2 MPSFacts3 MPSFacts4 MPSFacts5.
Import ListNotations.
Local Open Scope nat_scope.

Section Gen.
  Context {SC : Scalar}.
  Add Ring KR : k_ring.
  Local Open Scope k_scope.

  Lemma act_zero : forall n A psi, st_eq n psi (fun _ => 0) -> st_eq n (act n A psi) (fun _ => 0).
  Proof. intros n A psi H b Hb. unfold act. apply bigsum_zero. intros c Hc. rewrite H by auto. ring. Qed.

  Lemma unitary_nonzero : forall n A psi, unitary n A -> nonzero n psi -> nonzero n (act n A psi).
  Proof.
    intros n A psi [HU _] Hnz HZ. apply Hnz. intros b Hb.
    rewrite <- (act_id n psi b Hb). rewrite <- (act_proper n _ _ HU psi psi (fun _ _ => eq_refl) b Hb).
    rewrite (act_mul n _ _ psi b Hb). now apply act_zero.
  Qed.

  Variable svd : tensor -> tensor * tensor * tensor.
  Hypothesis Hsvd : exact_svd svd.

  Lemma single_TN_ok : forall n A l psi w, is_mps n l psi -> (w < n)%nat ->
    exists l', single_TN_operation (op_tensor 1 A) (Z.of_nat n) (WInt (Z.of_nat w)) l = Ok l' /\ is_mps n l' (act n (lift A [w]) psi).
  Proof.
    intros n A l psi w H Hw. unfold single_TN_operation, unset, wires_unset. replace (Z.of_nat n =? -1)%Z with false by lia.
    replace (Z.of_nat w =? -1)%Z with false by lia. cbn [orb raise_if wire_int bind].
    destruct (single_site_ok n A l psi w H Hw) as (s & s' & E1 & E2 & l' & E & HM).
    rewrite E1. cbn [bind]. rewrite E2. cbn [bind].
    exists l'. split; [exact E|]. eapply is_mps_st; [exact HM|]. apply st_sym, act_lift. now apply good_wires_1.
  Qed.

  (** control and target in either order *)
  Lemma ctrl_order : forall n U c t psi, (c < n)%nat -> (t < n)%nat -> c <> t ->
    st_eq n (apply_on (ctrl [0%nat] (lift U [1%nat])) [c; t] psi) (act n (ctrl [c] (lift U [t])) psi) /\
    st_eq n (apply_on (ctrl [1%nat] (lift U [0%nat])) [t; c] psi) (act n (ctrl [c] (lift U [t])) psi).
  Proof.
    intros n U c t psi Hc Ht Hn. assert (W : good_wires n [c; t]) by now apply good_wires_2.
    assert (W' : good_wires n [t; c]) by (apply good_wires_2; auto). split.
    - eapply st_trans; [apply st_sym, act_lift, W|]. intros b Hb. apply act_proper; [|reflexivity|exact Hb].
      rewrite lift_ctrl by (auto; simpl; intuition). apply ctrl_ext. rewrite lift_lift by (auto; simpl; intuition). reflexivity.
    - eapply st_trans; [apply st_sym, act_lift, W'|]. intros b Hb. apply act_proper; [|reflexivity|exact Hb].
      rewrite lift_ctrl by (auto; simpl; intuition). apply ctrl_ext. rewrite lift_lift by (auto; simpl; intuition). reflexivity.
  Qed.

  Lemma ctrl_TN_ok : forall n U l psi c t, is_mps n l psi -> nonzero n psi -> (c < n)%nat -> (t < n)%nat -> c <> t ->
    nonzero n (act n (ctrl [c] (lift U [t])) psi) ->
    exists l', ctrl_TN_operation svd (op_tensor 2 (ctrl [0%nat] (lift U [1%nat]))) (Ok (op_tensor 2 (ctrl [1%nat] (lift U [0%nat]))))
        (Z.of_nat n) (WList [Z.of_nat c; Z.of_nat t]) l = Ok l' /\
      is_mps n l' (act n (ctrl [c] (lift U [t])) psi).
  Proof.
    intros n U l psi c t H Hnz Hc Ht Hn HnA. destruct (ctrl_order n U c t psi Hc Ht Hn) as [O1 O2].
    unfold ctrl_TN_operation, unset, wires_unset. replace (Z.of_nat n =? -1)%Z with false by lia.
    cbn [orb raise_if wire_list bind length Nat.eqb negb py_min py_max fold_left].
    change (py_nth [Z.of_nat c; Z.of_nat t] 0) with (Ok (Z.of_nat c)). cbn [bind].
    destruct (Nat.lt_ge_cases c t).
    - replace (Z.min (Z.of_nat c) (Z.of_nat t)) with (Z.of_nat c) by lia.
      replace (Z.max (Z.of_nat c) (Z.of_nat t)) with (Z.of_nat t) by lia. rewrite Z.eqb_refl.
      destruct (ladder2_ok svd Hsvd n (ctrl [0%nat] (lift U [1%nat])) l psi c t) as (l' & E & HM); auto.
      { eapply nonzero_st; [exact HnA|]. now apply st_sym. }
      exists l'. split; [exact E|]. now apply (is_mps_st n l' _ _ HM).
    - replace (Z.min (Z.of_nat c) (Z.of_nat t)) with (Z.of_nat t) by lia.
      replace (Z.max (Z.of_nat c) (Z.of_nat t)) with (Z.of_nat c) by lia. replace (Z.of_nat c =? Z.of_nat t)%Z with false by lia.
      destruct (ladder2_ok svd Hsvd n (ctrl [1%nat] (lift U [0%nat])) l psi t c) as (l' & E & HM); auto; try lia.
      { eapply nonzero_st; [exact HnA|]. now apply st_sym. }
      exists l'. split; [exact E|]. now apply (is_mps_st n l' _ _ HM).
  Qed.

  Lemma cnot_TN_ok : forall n U l psi c t, is_mps n l psi -> nonzero n psi -> (c < n)%nat -> (t < n)%nat -> c <> t ->
    nonzero n (act n (ctrl [c] (lift U [t])) psi) ->
    exists l', cnot_TN_operation svd (op_tensor 2 (ctrl [0%nat] (lift U [1%nat]))) (Ok (op_tensor 2 (ctrl [1%nat] (lift U [0%nat]))))
        (Z.of_nat n) (WList [Z.of_nat c; Z.of_nat t]) l = Ok l' /\
      is_mps n l' (act n (ctrl [c] (lift U [t])) psi).
  Proof.
    intros n U l psi c t H Hnz Hc Ht Hn HnA. destruct (ctrl_order n U c t psi Hc Ht Hn) as [O1 O2].
    pose proof (ctrl_TN_ok n U l psi c t H Hnz Hc Ht Hn HnA) as G.
    unfold cnot_TN_operation. unfold ctrl_TN_operation in G. unfold unset, wires_unset in *. replace (Z.of_nat n =? -1)%Z with false in * by lia.
    cbn [orb raise_if wire_list bind length Nat.eqb negb py_min py_max fold_left] in *.
    destruct (Z.min (Z.of_nat c) (Z.of_nat t) + 1 =? Z.max (Z.of_nat c) (Z.of_nat t))%Z eqn:E; [|exact G]. clear G.
    change (py_nth [Z.of_nat c; Z.of_nat t] 0) with (Ok (Z.of_nat c)). cbn [bind].
    destruct (Nat.lt_ge_cases c t).
    - replace t with (S c) in * by lia. replace (Z.min (Z.of_nat c) (Z.of_nat (S c))) with (Z.of_nat c) by lia.
      replace (Z.max (Z.of_nat c) (Z.of_nat (S c))) with (Z.of_nat (S c)) by lia. rewrite Z.eqb_refl. cbn [bind].
      destruct (two_site_ok svd Hsvd n (ctrl [0%nat] (lift U [1%nat])) l psi c) as (l' & E' & HM); auto.
      { eapply nonzero_st; [exact HnA|]. now apply st_sym. }
      exists l'. split; [exact E'|]. now apply (is_mps_st n l' _ _ HM).
    - replace c with (S t) in * by lia. replace (Z.min (Z.of_nat (S t)) (Z.of_nat t)) with (Z.of_nat t) by lia.
      replace (Z.max (Z.of_nat (S t)) (Z.of_nat t)) with (Z.of_nat (S t)) by lia.
      replace (Z.of_nat (S t) =? Z.of_nat t)%Z with false by lia. cbn [bind].
      destruct (two_site_ok svd Hsvd n (ctrl [1%nat] (lift U [0%nat])) l psi t) as (l' & E' & HM); auto; try lia.
      { eapply nonzero_st; [exact HnA|]. now apply st_sym. }
      exists l'. split; [exact E'|]. now apply (is_mps_st n l' _ _ HM).
  Qed.

  (** three wires *)
  Lemma ctrl_sym : forall n a b A, op_eq n (ctrl [a; b] A) (ctrl [b; a] A).
  Proof.
    intros n a b A r c _ _. unfold ctrl, all_one. cbn [forallb]. rewrite !andb_true_r, andb_comm. reflexivity.
  Qed.

  Lemma three_order : forall n U ws a b t x y z psi, good_wires n [x; y; z] -> ws = [x; y; z] ->
    (a < 3)%nat -> (b < 3)%nat -> (t < 3)%nat ->
    st_eq n (apply_on (ctrl [a; b] (lift U [t])) ws psi) (act n (ctrl [nth a ws 0%nat; nth b ws 0%nat] (lift U [nth t ws 0%nat])) psi).
  Proof.
    intros n U ws a b t x y z psi W -> Ha Hb Ht.
    eapply st_trans; [apply st_sym, act_lift, W|]. intros s Hs. apply act_proper; [|reflexivity|exact Hs].
    rewrite lift_ctrl by (auto; intros v [<-|[<-|[]]]; auto).
    apply ctrl_ext. rewrite (lift_lift n [x; y; z]) by (auto; intros v [<-|[]]; auto). reflexivity.
  Qed.

  Lemma st_act_ext : forall n A B psi, op_eq n A B -> st_eq n (act n A psi) (act n B psi).
  Proof. intros n A B psi H b Hb. apply act_proper; [exact H|reflexivity|exact Hb]. Qed.

  Lemma toffoli_TN_ok : forall n U l psi c1 c2 t, is_mps n l psi -> nonzero n psi -> good_wires n [c1; c2; t] ->
    nonzero n (act n (ctrl [c1; c2] (lift U [t])) psi) ->
    exists l', toffoli_TN_operation svd (op_tensor 3 (ctrl [0; 1]%nat (lift U [2%nat])))
        (Ok (op_tensor 3 (ctrl [0; 2]%nat (lift U [1%nat])))) (Ok (op_tensor 3 (ctrl [1; 2]%nat (lift U [0%nat]))))
        (Z.of_nat n) (WList [Z.of_nat c1; Z.of_nat c2; Z.of_nat t]) l = Ok l' /\
      is_mps n l' (act n (ctrl [c1; c2] (lift U [t])) psi).
  Proof.
    intros n U l psi c1 c2 t H Hnz W HnA. pose proof (gw3 _ _ _ _ W) as (H1 & H2 & H3 & H12 & H1t & H2t).
    unfold toffoli_TN_operation, unset, wires_unset. replace (Z.of_nat n =? -1)%Z with false by lia.
    cbn [orb raise_if wire_list bind zsort fold_right].
    change (py_nth [Z.of_nat c1; Z.of_nat c2; Z.of_nat t] 2) with (Ok (Z.of_nat t)). cbn [bind].
    assert (K : forall up mid d a b k, (up < mid)%nat -> (mid < d)%nat -> (d < n)%nat -> (a < 3)%nat -> (b < 3)%nat -> (k < 3)%nat ->
      st_eq n (act n (ctrl [nth a [up; mid; d] 0%nat; nth b [up; mid; d] 0%nat] (lift U [nth k [up; mid; d] 0%nat])) psi)
              (act n (ctrl [c1; c2] (lift U [t])) psi) ->
      exists l', ladder3 svd (Z.of_nat n) (Ok (op_tensor 3 (ctrl [a; b] (lift U [k])))) (Z.of_nat up) (Z.of_nat mid) (Z.of_nat d) l = Ok l' /\
        is_mps n l' (act n (ctrl [c1; c2] (lift U [t])) psi)).
    { intros up mid d a b k Hum Hmd Hd Ha Hb Hk HE.
      assert (HE' : st_eq n (apply_on (ctrl [a; b] (lift U [k])) [up; mid; d] psi) (act n (ctrl [c1; c2] (lift U [t])) psi)).
      { eapply st_trans; [|exact HE]. apply (three_order n U [up; mid; d] a b k up mid d); auto. apply good_wires_3; lia. }
      destruct (ladder3_ok svd Hsvd n (ctrl [a; b] (lift U [k])) l psi up mid d) as (l' & E & HM); auto.
      { eapply nonzero_st; [exact HnA|]. now apply st_sym. }
      exists l'. split; [exact E|]. now apply (is_mps_st n l' _ _ HM). }
    assert (R : st_eq n (act n (ctrl [c1; c2] (lift U [t])) psi) (act n (ctrl [c1; c2] (lift U [t])) psi)) by (intros b Hb; reflexivity).
    assert (R' : st_eq n (act n (ctrl [c2; c1] (lift U [t])) psi) (act n (ctrl [c1; c2] (lift U [t])) psi)) by (apply st_act_ext, ctrl_sym).
    cbn [zinsert].
    destruct (Nat.lt_ge_cases c1 c2), (Nat.lt_ge_cases c2 t), (Nat.lt_ge_cases c1 t); try lia;
      repeat match goal with |- context [(Z.of_nat ?x <=? Z.of_nat ?y)%Z] =>
        first [replace (Z.of_nat x <=? Z.of_nat y)%Z with true by lia|replace (Z.of_nat x <=? Z.of_nat y)%Z with false by lia]; cbn [zinsert] end;
      match goal with |- context [py_nth [?x; ?y; ?z] 0] =>
        change (py_nth [x; y; z] 0) with (Ok x); change (py_nth [x; y; z] 1) with (Ok y); change (py_nth [x; y; z] 2) with (Ok z) end; cbn [bind];
      repeat match goal with |- context [(Z.of_nat ?x =? Z.of_nat ?y)%Z] =>
        first [replace (Z.of_nat x =? Z.of_nat y)%Z with true by lia|replace (Z.of_nat x =? Z.of_nat y)%Z with false by lia] end.
    - apply (K c1 c2 t 0 1 2)%nat; auto; lia.
    - apply (K c1 t c2 0 2 1)%nat; auto; lia.
    - apply (K t c1 c2 1 2 0)%nat; auto; lia.
    - apply (K c2 c1 t 0 1 2)%nat; auto; lia.
    - apply (K c2 t c1 0 2 1)%nat; auto; lia.
    - apply (K t c2 c1 1 2 0)%nat; auto; lia.
  Qed.
End Gen.

(** ** the gate objects *)

Lemma rev_cnot_ok : rev_cnot = Ok (op_tensor 2 (ctrl [1] (lift X_op [0]))).
Proof.
  unfold rev_cnot. pose proof (build_ok 2 (gi_cnot 1 0)) as B. cbn [build] in B. change (Z.of_nat 2) with 2%Z in B.
  change (zl [1; 0]) with (WList [1%Z; 0%Z]) in B. rewrite B. cbn [bind]. apply (U_expand_obj 2 (gi_cnot 1 0)).
  split; [apply good_wires_2; lia|exact I].
Qed.
Lemma rev_cz_ok : rev_cz = Ok (op_tensor 2 (ctrl [1] (lift Z_op [0]))).
Proof.
  unfold rev_cz. pose proof (build_ok 2 (gi_cz 1 0)) as B. cbn [build] in B. change (Z.of_nat 2) with 2%Z in B.
  change (zl [1; 0]) with (WList [1%Z; 0%Z]) in B. rewrite B. cbn [bind]. apply (U_expand_obj 2 (gi_cz 1 0)).
  split; [apply good_wires_2; lia|exact I].
Qed.
Lemma rev_cphase_ok : forall n th c t, rev_cphase (obj n (gi_cphase th c t)) = Ok (op_tensor 2 (ctrl [1] (lift (u1_op th) [0]))).
Proof.
  intros n th c t. unfold rev_cphase. change (p_scalar (obj n (gi_cphase th c t))) with (Ok th). cbn [bind].
  pose proof (build_ok 2 (gi_cphase th 1 0)) as B. cbn [build] in B. change (Z.of_nat 2) with 2%Z in B.
  change (zl [1; 0]) with (WList [1%Z; 0%Z]) in B. rewrite B. cbn [bind]. apply (U_expand_obj 2 (gi_cphase th 1 0)).
  split; [apply good_wires_2; lia|exact I].
Qed.
Lemma rev_cu3_ok : forall n th p q c t, rev_cu3 (obj n (gi_cu3 th p q c t)) = Ok (op_tensor 2 (ctrl [1] (lift (u3_op th p q) [0]))).
Proof.
  intros. unfold rev_cu3. cbn [obj g_umatrix]. apply (two_qubit_control_ok 2 1 0); lia.
Qed.
Lemma mid_toffoli_ok : mid_toffoli = Ok (op_tensor 3 (ctrl [0; 2] (lift X_op [1]))).
Proof.
  unfold mid_toffoli. pose proof (build_ok 3 (gi_toffoli 0 2 1)) as B. cbn [build] in B. change (Z.of_nat 3) with 3%Z in B.
  change (zl [0; 2; 1]) with (WList [0%Z; 2%Z; 1%Z]) in B. rewrite B. cbn [bind]. apply (U_expand_obj 3 (gi_toffoli 0 2 1)).
  split; [apply good_wires_3; lia|exact I].
Qed.
Lemma up_toffoli_ok : up_toffoli = Ok (op_tensor 3 (ctrl [1; 2] (lift X_op [0]))).
Proof.
  unfold up_toffoli. pose proof (build_ok 3 (gi_toffoli 1 2 0)) as B. cbn [build] in B. change (Z.of_nat 3) with 3%Z in B.
  change (zl [1; 2; 0]) with (WList [1%Z; 2%Z; 0%Z]) in B. rewrite B. cbn [bind]. apply (U_expand_obj 3 (gi_toffoli 1 2 0)).
  split; [apply good_wires_3; lia|exact I].
Qed.

Lemma TN_operation_obj : forall svd n g l psi, exact_svd svd -> gi_ok n g -> has_TN g = true -> is_mps n l psi -> nonzero n psi ->
  exists l', TN_operation svd (obj n g) l = Ok l' /\ is_mps n l' (act n (gi_op n g) psi) /\ nonzero n (act n (gi_op n g) psi).
Proof.
  intros svd n g l psi Hs G HT HM Hnz.
  assert (N : nonzero n (act n (gi_op n g) psi)) by (apply unitary_nonzero; auto; now apply gi_unitary).
  assert (E : exists l', TN_operation svd (obj n g) l = Ok l' /\ is_mps n l' (act n (gi_op n g) psi)); [|destruct E as (l' & E1 & E2); eauto].
  destruct G as [W _]. destruct g; try discriminate HT; cbn [gi_wires gi_op] in *; unfold TN_operation; cbn [obj gi_cls g_cls g_N g_matrix g_wires gi_wires gi_loc length gi_pywires];
    try (apply gw1 in W; exact (single_TN_ok n _ l psi w HM W)).
  - apply gw2 in W. destruct W as (Wa & Wb & Wn). rewrite rev_cnot_ok. now apply cnot_TN_ok.
  - apply gw2 in W. destruct W as (Wa & Wb & Wn). rewrite rev_cz_ok. now apply ctrl_TN_ok.
  - apply gw2 in W. destruct W as (Wa & Wb & Wn). rewrite (rev_cphase_ok n th c t). now apply ctrl_TN_ok.
  - apply gw2 in W. destruct W as (Wa & Wb & Wn). rewrite (rev_cu3_ok n th p l0 c t). now apply ctrl_TN_ok.
  - apply gw2 in W. destruct W as (Wa & Wb & Wn). now apply swap_TN_ok.
  - rewrite mid_toffoli_ok, up_toffoli_ok. now apply toffoli_TN_ok.
Qed.
