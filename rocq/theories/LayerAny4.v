(** Lemmas: the inverse layer undoes a layer of one-qubit gates on any list of wires, in every form. *)
From Coq Require Import List ZArith QArith Reals Lra Lia ZifyBool Bool Arith Ring Setoid Morphisms Permutation.
From Verif Require Import PyBase Scalar CInst BigSum Index Tensor TensorFacts Spec SpecFacts QMath QTN QOperator
  ExpandFacts ExpandFacts2 ContractFacts ContractFacts2 GateSpec QGates GateCalls GateFacts GateFacts2 GateFacts3 GateFacts4 GateFacts6 RunSpec
  MPSSpec MPSFacts1 MPSFacts2 MPSFacts4 MPSFacts5 MPSFacts6 MPSFacts8 MPSFacts9 LayerSpec QLayers LayerCalls LayerFacts1 LayerFacts4 LayerAnySpec LayerAnyCalls LayerAny LayerAny2 GateProofs.
Import ListNotations.
Local Close Scope Q_scope.
Local Close Scope R_scope.
Local Open Scope nat_scope.

Definition sg_inv (s : sg) (L : nat) : sg := match s with sg_rot k ps => sg_rot (kind_inv k) (inv_params (length (kind_axes k)) L ps) | sg_H => sg_H end.
Lemma sg_inv_angles : forall s L, sg_angles (sg_inv s L) L.
Proof. intros [k ps|] L; [|exact I]. cbn [sg_inv sg_angles]. now rewrite inv_params_length, kind_inv_len. Qed.
Lemma sg_dagger : forall n s zs, sg_angles s (length zs) -> length zs <= n ->
  layer_dagger (LS (sg_obj n s zs)) = Ok (Some (LS (sg_obj n (sg_inv s (length zs)) zs))).
Proof.
  intros n [k ps|] zs HA HL; [|reflexivity]. cbn [layer_dagger]. unfold sg_obj. cbn [sg_inv sg_cls sg_params sg_angles] in *.
  assert (X : exists w, w = length (kind_axes k) /\ (w = 2 \/ w = 3)) by (exists (length (kind_axes k)); destruct k; cbn; auto).
  destruct X as (w & Ew & Hw).
  assert (D : dagger_params w (mkSL (kind_cls k) (Z.of_nat n) zs ps) = Ok (inv_params w (length zs) ps)).
  { apply dagger_params_ok; auto. now rewrite Ew. }
  assert (N : new_slayer (kind_cls (kind_inv k)) (Z.of_nat n) zs (inv_params w (length zs) ps)
    = Ok (mkSL (kind_cls (kind_inv k)) (Z.of_nat n) zs (inv_params w (length zs) ps))).
  { unfold new_slayer, raise_if. rewrite inv_params_length, per_wire_axes, kind_inv_len, Ew, Nat.eqb_refl. cbn [negb].
    now replace (Z.of_nat n <? Z.of_nat (length zs))%Z with false by lia. }
  rewrite <- Ew. unfold slayer_dagger. cbn [sl_N sl_wires sl_kind]. destruct k; cbn [kind_axes length kind_cls kind_inv] in *; subst w; rewrite D; cbn [bind]; rewrite N; reflexivity.
Qed.
Lemma sg_gate_inv : forall s L i, sg_angles s L -> i < L -> op_eq 1 (nth i (sg_gates (sg_inv s L) L) id_op) (adj_op (nth i (sg_gates s L) id_op)).
Proof.
  intros [k ps|] L i HA Hi.
  - exact (rot_ops_inv k ps L i HA Hi).
  - unfold sg_gates. rewrite !nth_map_seq by auto. cbn [sg_inv sg_gate]. symmetry. apply H_adj.
Qed.
Lemma last_gate_inv : forall ws Gs Hs w, length Gs = length ws -> length Hs = length ws -> (forall i, i < length ws -> op_eq 1 (nth i Hs id_op) (adj_op (nth i Gs id_op))) ->
  op_eq 1 (last_gate ws Hs w) (adj_op (last_gate ws Gs w)).
Proof.
  intros ws Gs Hs w. unfold last_gate.
  assert (X : forall A B, op_eq 1 B (adj_op A) -> length Gs = length ws -> length Hs = length ws -> (forall i, i < length ws -> op_eq 1 (nth i Hs id_op) (adj_op (nth i Gs id_op))) ->
    op_eq 1 (fold_left (fun A (wg : nat * qop) => if fst wg =? w then snd wg else A) (combine ws Hs) B)
      (adj_op (fold_left (fun A (wg : nat * qop) => if fst wg =? w then snd wg else A) (combine ws Gs) A))).
  { revert Gs Hs. induction ws as [|v ws IH]; intros [|G Gs] [|H Hs] A B E0 LG LH E; try discriminate; [exact E0|]. cbn [combine fold_left fst snd]. apply IH.
    - destruct (v =? w); [|exact E0]. apply (E 0). cbn [length]. lia.
    - cbn [length] in LG. lia.
    - cbn [length] in LH. lia.
    - intros i Hi. apply (E (S i)). cbn [length]. lia. }
  apply X. symmetry. apply adj_id.
Qed.
Lemma axes_unitary : forall l, unitary 1 (axes_op l).
Proof.
  intros l. unfold axes_op. assert (X : forall A, unitary 1 A -> unitary 1 (fold_left (fun A ap => mul_op 1 (axis_op (fst ap) (snd ap)) A) l A)).
  { induction l as [|[a t] l IH]; intros A U; [exact U|]. cbn [fold_left fst snd]. apply IH. apply unitary_mul; [|exact U]. destruct a; cbn [axis_op]; [apply rx_unitary|apply ry_unitary|apply rz_unitary]. }
  apply X, unitary_id.
Qed.
Lemma sg_gate_unitary : forall s i, unitary 1 (sg_gate s i).
Proof. intros [k ps|] i; [apply axes_unitary|apply H_unitary]. Qed.
Lemma last_gate_unitary : forall ws Gs w, Forall (unitary 1) Gs -> unitary 1 (last_gate ws Gs w).
Proof.
  intros ws Gs w. unfold last_gate. assert (X : forall A, unitary 1 A -> Forall (unitary 1) Gs -> unitary 1 (fold_left (fun A (wg : nat * qop) => if fst wg =? w then snd wg else A) (combine ws Gs) A)).
  { revert Gs. induction ws as [|v ws IH]; intros Gs A U F; [exact U|]. inversion F as [|G Gs' UG F']; [exact U|]. cbn [combine fold_left fst snd]. apply IH; [|exact F']. now destruct (v =? w). }
  apply X, unitary_id.
Qed.
Lemma sg_gates_unitary : forall s L, Forall (unitary 1) (sg_gates s L).
Proof. intros s L. unfold sg_gates. apply Forall_forall. intros A HA. apply in_map_iff in HA. destruct HA as (i & <- & _). apply sg_gate_unitary. Qed.
Lemma pow_ext : forall m A B, op_eq 1 A B -> op_eq 1 (pow_op m A) (pow_op m B).
Proof. induction m as [|m IH]; intros A B E; cbn [pow_op]; [reflexivity|]. now rewrite (IH A B E), E. Qed.
Lemma pow_comm : forall m A, op_eq 1 (mul_op 1 (pow_op m A) A) (mul_op 1 A (pow_op m A)).
Proof.
  induction m as [|m IH]; intros A; cbn [pow_op]; [now rewrite mul_op_id_l, mul_op_id_r|]. rewrite (IH A) at 1. now rewrite mul_op_assoc.
Qed.
Lemma pow_adj : forall m A, op_eq 1 (pow_op m (adj_op A)) (adj_op (pow_op m A)).
Proof.
  induction m as [|m IH]; intros A; cbn [pow_op]; [symmetry; apply adj_id|]. rewrite adj_mul, <- IH. apply pow_comm.
Qed.
Lemma pow_unitary : forall m A, unitary 1 A -> unitary 1 (pow_op m A).
Proof. induction m as [|m IH]; intros A U; cbn [pow_op]; [apply unitary_id|]. apply unitary_mul; auto. Qed.
Lemma each_adj : forall n F, op_eq n (adj_op (each_qubit n F)) (each_qubit n (fun w => adj_op (F w))).
Proof. intros n F. rewrite <- !each_prod. apply prod_adj. Qed.
Lemma each_unitary : forall n F, (forall w, w < n -> unitary 1 (F w)) -> unitary n (each_qubit n F).
Proof.
  intros n F U. split; rewrite each_adj, <- !each_prod, prod_mul, <- (prod_of_id n (fun _ => id_op)) by auto; apply prod_of_ext; intros i Hi; apply (U i Hi).
Qed.

Lemma undo_any : forall n s zs, 0 < n -> sg_angles s (length zs) -> length zs <= n -> (forall z, In z zs -> in_register n z) ->
  exists o od u ud, sg_build n s zs = Ok o /\ layer_dagger o = Ok (Some od) /\ layer_U o = Ok u /\ layer_U od = Ok ud /\ is_op n ud (adj_op (op_of u)) /\
    (forall t, shape t = repeat 2 n -> wf t -> exists t1 t2, layer_TN_contract o t false = Ok t1 /\ layer_TN_contract od t1 false = Ok t2 /\ is_state n (repeat 2 n) t2 (amp t)) /\
    (forall svd m psi, is_mps n m psi -> exists m1 m2, layer_TN_operation svd o m = Ok m1 /\ layer_TN_operation svd od m1 = Ok m2 /\ is_mps n m2 psi).
Proof.
  intros n s zs Hn HA HL HI. set (ws := map (qubit n) zs). set (Gs := sg_gates s (length zs)). set (Hs := sg_gates (sg_inv s (length zs)) (length zs)).
  destruct (layer_any_wires n s zs HA HL Hn HI) as (o & u & E1 & E2 & M & C & P). fold ws Gs in M, C, P.
  destruct (layer_any_wires n (sg_inv s (length zs)) zs (sg_inv_angles s _) HL Hn HI) as (od & ud & F1 & F2 & M' & C' & P'). fold ws Hs in M', C', P'.
  rewrite sg_build_ok in E1 by auto. injection E1 as <-. rewrite sg_build_ok in F1 by (auto; apply sg_inv_angles). injection F1 as <-.
  assert (LW : length ws = length zs) by apply map_length.
  assert (V : forall w, op_eq 1 (last_gate ws Hs w) (adj_op (last_gate ws Gs w))).
  { intros w. apply last_gate_inv; rewrite ?LW; try apply sg_gates_length. intros i Hi. now apply sg_gate_inv. }
  assert (U : forall w, unitary 1 (last_gate ws Gs w)) by (intros; apply last_gate_unitary, sg_gates_unitary).
  set (T := each_qubit n (fun w => pow_op (count_occ Nat.eq_dec ws w) (last_gate ws Gs w))) in *.
  set (T' := each_qubit n (fun w => pow_op (count_occ Nat.eq_dec ws w) (last_gate ws Hs w))) in *.
  assert (TT : op_eq n T' (adj_op T)).
  { unfold T, T'. rewrite each_adj. apply each_ext. intros i _. rewrite (pow_ext _ _ _ (V i)). apply pow_adj. }
  assert (UT : op_eq n (mul_op n T' T) id_op).
  { rewrite TT. apply (each_unitary n _ (fun w _ => pow_unitary (count_occ Nat.eq_dec ws w) _ (U w))). }
  assert (R : forall f, st_eq n (act n T' (act n T f)) f). { intros f. rewrite <- act_mul, UT. apply act_id. }
  exists (LS (sg_obj n s zs)), (LS (sg_obj n (sg_inv s (length zs)) zs)), u, ud. split; [now apply sg_build_ok|]. split; [now apply sg_dagger|].
  split; [exact E2|]. split; [exact F2|]. split; [|split].
  - eapply is_op_ext; [exact M'|]. destruct M as (_ & _ & M). rewrite M, each_adj. apply each_ext. intros i _. apply V.
  - intros t S F. destruct (C t S F) as (t1 & G1 & S1 & L1 & A1). assert (W1 : wf t1) by (unfold wf; rewrite L1, S1; symmetry; apply prodn_repeat).
    destruct (C' t1 S1 W1) as (t2 & G2 & S2 & L2 & A2). exists t1, t2. split; [exact G1|]. split; [exact G2|]. split; [exact S2|]. split; [exact L2|].
    rewrite A2, A1. apply R.
  - intros svd m psi Mm. destruct (P svd m psi Mm) as (m1 & G1 & M1). destruct (P' svd m1 _ M1) as (m2 & G2 & M2). exists m1, m2. split; [exact G1|]. split; [exact G2|].
    eapply is_mps_st; [exact M2|]. apply R.
Qed.
