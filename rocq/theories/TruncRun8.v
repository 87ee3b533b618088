(** Lemmas: layers and circuits over a relation kept by the one-, two- and three-site steps. *)
From Coq Require Import List ZArith QArith Reals Lra Lia ZifyBool Bool Arith Qreals Permutation Morphisms.
From Verif Require Import PyBase Scalar CInst BigSum Index Tensor TensorFacts Spec SpecFacts QMath QTN QOperator
  ExpandFacts ExpandFacts2 GateSpec QGates GateCalls GateFacts GateFacts2 GateFacts4 RunSpec LayerSpec QLayers LayerCalls LayerFacts1 LayerFacts3 LayerFacts4
  CircuitSpec QCircuit CircuitFacts1 TruncRunSpec MPSSpec MPSFacts1 MPSFacts2 MPSFacts3 MPSFacts4 MPSFacts5 MPSFacts6 MPSFacts9 TruncRun6.
Import ListNotations.
Local Close Scope Q_scope.
Local Open Scope nat_scope.

Lemma moves_app : forall a b, moves (a ++ b) = moves a + moves b.
Proof. intros. unfold moves. now rewrite map_app, list_sum_app. Qed.
Lemma moves_rev : forall a, moves (rev a) = moves a.
Proof. induction a as [|g a IH]; [reflexivity|]. cbn [rev]. rewrite moves_app, IH, !moves_cons. change (moves []) with 0. lia. Qed.
Lemma moves_near : forall (f : nat -> gi) s m, (forall i, gcost (f i) = 1) -> moves (map f (seq s m)) = m.
Proof. intros f s m H. revert s. induction m as [|m IH]; intros s; [reflexivity|]. cbn [seq map]. now rewrite moves_cons, H, IH. Qed.
Lemma gcost_near : forall i, gcost (gi_cnot i (S i)) = 1 /\ gcost (sw i) = 1.
Proof. intros i. unfold gcost, sw. cbn [gi_wires]. rewrite reach2. lia. Qed.
Lemma ring_moves : forall n, 2 <= n -> moves (ring_run n) = moves (ring_gates 1 (seq 0 n)).
Proof.
  intros n H. unfold ring_run. destruct (n =? 2) eqn:E.
  - assert (n = 2) by lia. subst n. reflexivity.
  - rewrite ring_gates_seq by lia. rewrite !moves_app. f_equal. unfold closing_gates. rewrite !moves_app, moves_rev, moves_cons, (moves_near sw) by (intros; apply gcost_near).
    rewrite (moves_cons (gi_cnot (n - 1) 0)). unfold gcost. cbn [gi_wires]. rewrite !reach2. change (moves []) with 0. lia.
Qed.
Lemma ring_dag_moves : forall n, 2 <= n -> moves (ring_dag_run n) = moves (rev (ring_gates 1 (seq 0 n))).
Proof.
  intros n H. rewrite moves_rev, <- ring_moves by auto. unfold ring_run, ring_dag_run. destruct (n =? 2); [reflexivity|]. rewrite !moves_app, moves_rev. lia.
Qed.
Lemma ci_moves_app : forall a b, ci_moves (a ++ b) = ci_moves a + ci_moves b.
Proof. intros. unfold ci_moves. now rewrite flat_map_app, moves_app. Qed.
Lemma axes_unitary : forall l, unitary 1 (axes_op l).
Proof.
  intros l. unfold axes_op. assert (X : forall A, unitary 1 A -> unitary 1 (fold_left (fun A ap => mul_op 1 (axis_op (fst ap) (snd ap)) A) l A)); [|apply X, unitary_id].
  induction l as [|[a p] l IH]; intros A HA; [exact HA|]. cbn [fold_left fst snd]. apply IH. apply unitary_mul; auto.
  destruct a; [apply rx_unitary|apply ry_unitary|apply rz_unitary].
Qed.

Section Objs.
  Variable svd : tensor (SC := C_scalar) -> tensor (SC := C_scalar) * tensor (SC := C_scalar) * tensor (SC := C_scalar).
  Variables n T : nat.
  Variable Rel : nat -> list (tensor (SC := C_scalar)) -> qstate (SC := C_scalar) -> Prop.
  Hypothesis Rel_st : forall t l f g, Rel t l f -> st_eq n f g -> Rel t l g.
  Hypothesis Rel_weak : forall t t' l f, (t <= t')%nat -> (t' <= T)%nat -> Rel t l f -> Rel t' l f.
  Hypothesis Rel_one : forall t A l psi i, unitary 1 A -> (t <= T)%nat -> Rel t l psi -> (i < n)%nat ->
    exists s s', py_nth l (Z.of_nat i) = Ok s /\ einsum_ab_bcd (op_tensor 1 A) s = Ok s' /\
      exists l', py_set l (Z.of_nat i) s' = Ok l' /\ Rel t l' (apply_on A [i] psi).
  Hypothesis Rel_two : forall t A l psi i, unitary 2 A -> (S t <= T)%nat -> Rel t l psi -> (S i < n)%nat ->
    exists l', two_site svd (op_tensor 2 A) l (Z.of_nat i) (Z.of_nat (S i)) = Ok l' /\ Rel (S t) l' (apply_on A [i; S i] psi).
  Hypothesis Rel_three : forall t A l psi i, unitary 3 A -> (S t <= T)%nat -> Rel t l psi -> (S (S i) < n)%nat ->
    exists l', three_site svd (Ok (op_tensor 3 A)) l (Z.of_nat (S i)) = Ok l' /\ Rel (S t) l' (apply_on A [i; S i; S (S i)] psi).
  Hypothesis Rel_length : forall t l psi, Rel t l psi -> length l = n.

  Lemma slayer_TN_rel : forall k ws ps Gs t l psi, good_wires n ws -> length Gs = length ws ->
    (forall i, i < length ws -> wire_matrix k ps i = Ok (op_tensor 1 (nth i Gs id_op))) -> (forall i, i < length ws -> unitary 1 (nth i Gs id_op)) ->
    (t <= T)%nat -> Rel t l psi -> exists l', slayer_TN_operation (mkSL k (Z.of_nat n) (map Z.of_nat ws) ps) l = Ok l' /\ Rel t l' (act n (obs_op n ws Gs) psi).
  Proof.
    intros k ws ps Gs t l psi W LG WM HU Ht HM. unfold slayer_TN_operation. rewrite (cal_ok k n ws ps Gs) by auto. cbn [bind sl_wires]. unfold base_TN_operation.
    apply (wires_fold n ws Gs LG (list tensor) _ (fun psi l => Rel t l psi)).
    - intros i a phi Hi HP. assert (Hw : nth i ws 0 < n) by (apply W, nth_In; auto). rewrite lst1_nth by auto. cbn [bind].
      destruct (Rel_one t (nth i Gs id_op) a phi (nth i ws 0) (HU i Hi) Ht HP Hw) as (x & x' & E1 & E2 & l' & E3 & M). exists l'. rewrite E1. cbn [bind]. rewrite E2. cbn [bind].
      split; [exact E3|]. eapply Rel_st; [exact M|]. apply st_sym, act_lift. now apply good_wires_1.
    - intros f g a E H. eapply Rel_st; eauto.
    - exact HM.
  Qed.

  Lemma layer_TN_rel : forall t l m psi, li_ok n l -> li_TN n l = true -> Rel t m psi -> (t + moves (li_gates l) <= T)%nat ->
    exists m', layer_TN_operation svd (lobj n l) m = Ok m' /\ Rel (t + moves (li_gates l)) m' (act n (li_op n l) psi).
  Proof.
    intros t [k ws ps|ws|ws|ws|ws|rep ws ps] m psi H HT HM Ht; cbn [li_ok layer_TN_operation lobj li_TN] in *; unfold li_op; cbn [li_gates] in *; try discriminate HT.
    - destruct (slayer_TN_rel (kind_cls k) ws ps (rot_ops k ps (length ws)) t m psi) as (m' & E & M); try tauto; auto using rot_ops_length.
      + intros i Hi. now apply wire_rot.
      + intros i Hi. unfold rot_ops. rewrite (nth_map' _ _ (fun i => axes_op (combine (kind_axes k) (skipn (length (kind_axes k) * i) ps))) (seq 0 (length ws)) i id_op 0) by (now rewrite seq_length).
        apply axes_unitary.
      + lia.
      + exists m'. split; [exact E|]. eapply Rel_weak; [| |eapply Rel_st; [exact M|]]; [lia|lia|]. now rewrite rot_obs.
    - destruct (slayer_TN_rel HLayer ws [] (map (fun _ => H_op) (seq 0 (length ws))) t m psi) as (m' & E & M); auto.
      + now rewrite map_length, seq_length.
      + intros i Hi. now apply wire_H.
      + intros i Hi. rewrite (nth_map' _ _ (fun _ => H_op) (seq 0 (length ws)) i id_op 0) by (now rewrite seq_length). apply H_unitary.
      + lia.
      + exists m'. split; [exact E|]. eapply Rel_weak; [| |eapply Rel_st; [exact M|]]; [lia|lia|]. now rewrite H_gates_obs.
    - apply li_TN_ring in HT. subst ws. rewrite seq_length in H. rewrite ring_TN_gs by tauto. rewrite <- ring_moves in * by tauto.
      destruct (run_rel svd n T Rel Rel_st Rel_weak Rel_one Rel_two Rel_three (ring_run n) t m psi) as (m' & E & M); auto.
      + apply ring_run_ok. tauto.
      + apply ring_run_TN.
      + rewrite mfold_map in E. exists m'. split; [exact E|]. eapply Rel_st; [exact M|]. now rewrite ring_run_op by tauto.
    - apply li_TN_ring in HT. subst ws. rewrite seq_length in H. rewrite ring_dag_TN_gs by tauto. rewrite <- ring_dag_moves in * by tauto.
      destruct (run_rel svd n T Rel Rel_st Rel_weak Rel_one Rel_two Rel_three (ring_dag_run n) t m psi) as (m' & E & M); auto.
      + apply ring_dag_run_ok. tauto.
      + apply ring_dag_run_TN.
      + rewrite mfold_map in E. exists m'. split; [exact E|]. eapply Rel_st; [exact M|]. now rewrite ring_dag_run_op by tauto.
  Qed.

  Lemma evolution_rel : forall cs t l psi, Forall (ci_ok n) cs -> forallb (ci_TN n) cs = true -> Rel t l psi -> (t + ci_moves cs <= T)%nat ->
    exists l', TN_evolution svd (circ n cs) l = Ok l' /\ Rel (t + ci_moves cs) l' (act n (cs_op n cs) psi).
  Proof.
    intros cs t l psi H HT HM Ht. unfold TN_evolution. rewrite circ_gate, circ_N.
    rewrite (Rel_length t l psi HM), Nat.eqb_refl. cbn [negb raise_if]. revert H HT Ht.
    induction cs as [|c cs IH] using rev_ind; intros H HT Ht.
    - exists l. split; [reflexivity|]. change (ci_moves []) with 0. rewrite Nat.add_0_r. eapply Rel_st; [exact HM|]. symmetry. apply act_id.
    - apply Forall_app in H. destruct H as [H1 H2]. rewrite forallb_app in HT. apply andb_true_iff in HT. destruct HT as [T1 T2].
      rewrite ci_moves_app in *. destruct (IH H1 T1 ltac:(lia)) as (l1 & E1 & M1). rewrite map_app, mfold_app, E1. cbn [bind map mfold].
      inversion H2 as [|? ? Hc _]; subst. cbn in T2. rewrite andb_true_r in T2.
      rewrite ci_con_support by (now apply ci_TN_con).
      assert (E : exists l', o_TN_operation svd (oobj n c) l1 = Ok l' /\ Rel (t + (ci_moves cs + ci_moves [c])) l' (act n (ci_op n c) (act n (cs_op n cs) psi))).
      { replace (t + (ci_moves cs + ci_moves [c])) with (t + ci_moves cs + moves (ci_gates c)) in *.
        2:{ assert (X : ci_moves [c] = moves (ci_gates c)) by (unfold ci_moves; cbn [flat_map]; now rewrite app_nil_r). lia. }
        destruct c as [g|y]; cbn [o_TN_operation oobj ci_op ci_TN ci_gates] in *.
        - rewrite moves_cons in *. change (moves []) with 0 in *. rewrite Nat.add_0_r in *.
          apply (TN_operation_rel svd n T Rel); auto.
        - apply layer_TN_rel; auto. }
      destruct E as (l2 & E2 & M2). exists l2. rewrite E2. cbn [bind]. split; [reflexivity|]. eapply Rel_st; [exact M2|]. symmetry. apply act_snoc.
  Qed.
End Objs.
