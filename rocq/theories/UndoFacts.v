(** Lemmas: undoing a circuit; objects that are not gates in a circuit. *)
From Coq Require Import List ZArith Reals Lia Bool Arith Setoid Morphisms.
From Verif Require Import PyBase Scalar CInst BigSum Index Tensor TensorFacts Spec SpecFacts QMath QTN QOperator ExpandFacts ExpandFacts2 ContractFacts ContractFacts2 GateSpec QGates GateCalls
  GateFacts GateFacts2 GateFacts4 GateProofs RunSpec MPSSpec MPSFacts1 MPSFacts2 MPSFacts4 MPSFacts5 MPSFacts6 LayerSpec QLayers LayerCalls LayerFacts1 LayerFacts4 LayerProofs CircuitSpec QCircuit
  CircuitFacts1 CircuitProofs QEmbedding EmbedSpec EmbedFacts QCircuitX UndoSpec StateFacts.
Import ListNotations.
Local Close Scope R_scope.
Local Open Scope nat_scope.

Lemma add_as_x : forall c o, x_add (as_x c) (IOper o) = (as_x (add c o), None).
Proof.
  intros c o. unfold x_add, add, as_x. cbn [x_gate x_N x_params x_num]. rewrite !app_length, map_length.
  destruct (o_num_params o =? 0); cbn [c_N c_gate c_params c_num]; now rewrite map_app.
Qed.
Lemma adds_as_x : forall os c, x_adds (as_x c) (map IOper os) = (as_x (fold_left add os c), None).
Proof. induction os as [|o os IH]; intros c; [reflexivity|]. cbn [map x_adds fold_left]. rewrite add_as_x. apply IH. Qed.
Lemma xU_as_x : forall c b, xU (as_x c) b = cU c b.
Proof.
  intros c b. unfold xU, cU, as_x. cbn [x_gate x_N]. generalize (eye (2 ^ c_N c)). induction (c_gate c) as [|o os IH]; intros t; [reflexivity|].
  cbn [map mfold item_U]. destruct (o_U o) as [u|e]; [|reflexivity]. cbn [bind]. destruct (if b then matmul u t else matmul t u); [apply IH|reflexivity].
Qed.
Lemma evolution_as_x : forall svd c m, x_TN_evolution svd (as_x c) m = TN_evolution svd c m.
Proof.
  intros svd c m. unfold x_TN_evolution, TN_evolution, as_x. cbn [x_gate x_N]. unfold raise_if. destruct (negb _); [reflexivity|].
  revert m. induction (c_gate c) as [|o os IH]; intros m; [reflexivity|]. cbn [map mfold item_supportTN item_TN_operation bind].
  destruct (if o_supportTN o then o_TN_operation svd o m else Err ValueError); [apply IH|reflexivity].
Qed.
Lemma contract_as_x : forall c m b, x_TN_contract_evolution (as_x c) m b = TN_contract_evolution c m b.
Proof.
  intros c m b. unfold x_TN_contract_evolution, TN_contract_evolution, as_x. cbn [x_gate x_N]. unfold raise_if. destruct (negb _); [reflexivity|].
  revert m. induction (c_gate c) as [|o os IH]; intros m; [reflexivity|]. cbn [map mfold item_supportTN item_TN_contract bind].
  destruct (if o_supportTN o then o_TN_contract o m b else Err ValueError); [apply IH|reflexivity].
Qed.
Lemma check_as_x : forall c, x_TN_check (as_x c) = Ok (TN_check c).
Proof.
  intros c. unfold x_TN_check, TN_check, as_x. cbn [x_gate]. induction (c_gate c) as [|o os IH]; [reflexivity|].
  cbn [map items_check item_supportTN bind forallb]. destruct (o_supportTN o); [exact IH|reflexivity].
Qed.

(** * The inverse of each operation *)
Definition ci_inv (c : ci) : ci := match c with CG g => CG (gi_inv g) | CL l => CL (match li_inv l with Some l' => l' | None => l end) end.
Lemma li_inv_some : forall l, has_inverse l = true -> exists l', li_inv l = Some l'.
Proof. intros l H. destruct l; cbn in *; eauto; discriminate. Qed.
Lemma gi_inv_valid : forall n g, gi_ok n g -> gi_ok n (gi_inv g).
Proof. intros n g H. destruct g; exact H. Qed.
Lemma ci_inv_valid : forall n c, ci_ok n c -> invertible c = true -> ci_ok n (ci_inv c).
Proof.
  intros n [g|l] H I; cbn [ci_ok ci_inv invertible] in *; [now apply gi_inv_valid|]. destruct (li_inv_some l I) as (l' & E). rewrite E. eapply li_inv_ok; eauto.
Qed.
Lemma ci_inv_adj : forall n c, ci_ok n c -> invertible c = true -> op_eq n (ci_op n (ci_inv c)) (adj_op (ci_op n c)).
Proof.
  intros n [g|l] H I; cbn [ci_ok ci_inv invertible ci_op] in *; [now apply gi_inv_ok|]. destruct (li_inv_some l I) as (l' & E). rewrite E. eapply li_inv_op; eauto.
Qed.
Lemma o_dagger_ok : forall n c, ci_ok n c -> invertible c = true -> o_dagger (oobj n c) = Ok (IOper (oobj n (ci_inv c))).
Proof.
  intros n [g|l] H I; cbn [ci_ok ci_inv invertible oobj o_dagger] in *; [now rewrite operation_dagger_obj|].
  destruct (li_inv_some l I) as (l' & E). rewrite layer_dagger_ok by auto. now rewrite E.
Qed.
Lemma ci_inv_con : forall n c, ci_con n c = true -> ci_con n (ci_inv c) = true.
Proof. intros n [[]|[]] H; cbn in *; auto. Qed.
Lemma ci_inv_TN : forall n c, ci_TN n c = true -> ci_TN n (ci_inv c) = true.
Proof. intros n [[]|[]] H; cbn in *; auto. Qed.

Definition undo (cs : list ci) : list ci := map ci_inv (rev cs).
Lemma undo_valid : forall n cs, Forall (ci_ok n) cs -> forallb invertible cs = true -> Forall (ci_ok n) (undo cs).
Proof.
  intros n cs H I. unfold undo. rewrite Forall_map. apply Forall_rev. rewrite forallb_forall in I. rewrite Forall_forall in *. intros c Hc. apply ci_inv_valid; auto.
Qed.
Lemma undo_daggers : forall n cs, Forall (ci_ok n) cs -> forallb invertible cs = true ->
  mmap o_dagger (rev (map (oobj n) cs)) = Ok (map IOper (map (oobj n) (undo cs))).
Proof.
  intros n cs H I. unfold undo. rewrite <- map_rev, mmap_map, !map_map. apply mmap_Ok_ext. intros c Hc. apply in_rev in Hc.
  rewrite Forall_forall in H. rewrite forallb_forall in I. apply o_dagger_ok; auto.
Qed.
Lemma undo_op : forall n cs, Forall (ci_ok n) cs -> forallb invertible cs = true -> op_eq n (cs_op n (undo cs)) (adj_op (cs_op n cs)).
Proof.
  intros n cs. induction cs as [|c cs IH] using rev_ind; intros H I.
  - unfold undo, cs_op. cbn [rev map fold_left]. symmetry. apply adj_id.
  - apply Forall_app in H. destruct H as [H1 H2]. inversion_clear H2 as [|? ? Hc _]. rewrite forallb_app in I. apply andb_true_iff in I. destruct I as [I1 I2].
    cbn in I2. rewrite andb_true_r in I2. unfold undo. rewrite rev_app_distr. cbn [rev app map].
    change (ci_inv c :: map ci_inv (rev cs)) with ([ci_inv c] ++ undo cs). rewrite cs_op_app, cs_op_snoc, adj_mul, IH by auto.
    apply mul_op_proper; [reflexivity|]. unfold cs_op. cbn [fold_left]. rewrite mul_op_id_r. now apply ci_inv_adj.
Qed.
Lemma undo_identity : forall n cs, Forall (ci_ok n) cs -> forallb invertible cs = true -> op_eq n (cs_op n (cs ++ undo cs)) id_op.
Proof. intros n cs H I. rewrite cs_op_app, undo_op by auto. apply cs_unitary. exact H. Qed.
Lemma undo_circ : forall n cs, fold_left add (map (oobj n) (undo cs)) (circ n cs) = circ n (cs ++ undo cs).
Proof. intros n cs. unfold circ. now rewrite map_app, fold_left_app. Qed.

(** * Undoing *)
Lemma cs_rev_app : forall n cs1 cs2, op_eq n (cs_op_rev n (cs1 ++ cs2)) (mul_op n (cs_op_rev n cs1) (cs_op_rev n cs2)).
Proof.
  intros n cs1 cs2. induction cs2 as [|c cs2 IH] using rev_ind.
  - rewrite app_nil_r. symmetry. apply mul_op_id_r.
  - rewrite app_assoc, !cs_rev_snoc, IH. apply mul_op_assoc.
Qed.
Lemma undo_snoc : forall cs c, undo (cs ++ [c]) = ci_inv c :: undo cs.
Proof. intros. unfold undo. now rewrite rev_app_distr. Qed.
Lemma undo_identity_rev : forall n cs, Forall (ci_ok n) cs -> forallb invertible cs = true -> op_eq n (cs_op_rev n (cs ++ undo cs)) id_op.
Proof.
  intros n cs. induction cs as [|c cs IH] using rev_ind; intros H I; [reflexivity|].
  apply Forall_app in H. destruct H as [H1 H2]. inversion_clear H2 as [|? ? Hc _]. rewrite forallb_app in I. apply andb_true_iff in I. destruct I as [I1 I2].
  cbn in I2. rewrite andb_true_r in I2. rewrite undo_snoc.
  change (ci_inv c :: undo cs) with ([ci_inv c] ++ undo cs). rewrite cs_rev_app, cs_rev_snoc, cs_rev_app.
  assert (E : op_eq n (cs_op_rev n [ci_inv c]) (adj_op (ci_op n c))) by (unfold cs_op_rev; cbn [fold_left]; rewrite mul_op_id_l; now apply ci_inv_adj).
  rewrite E, mul_op_assoc. rewrite <- (mul_op_assoc n (ci_op n c)). destruct (ci_unitary n c Hc) as [_ U]. rewrite U, mul_op_id_l, <- cs_rev_app. now apply IH.
Qed.
Lemma undo_con : forall n cs, forallb (ci_con n) cs = true -> forallb (ci_con n) (cs ++ undo cs) = true.
Proof.
  intros n cs H. rewrite forallb_app, H. cbn [andb]. rewrite forallb_forall in *. unfold undo. intros x Hx. apply in_map_iff in Hx. destruct Hx as (c & <- & Hc).
  apply ci_inv_con, H. now apply in_rev.
Qed.
Lemma undo_TN : forall n cs, forallb (ci_TN n) cs = true -> forallb (ci_TN n) (cs ++ undo cs) = true.
Proof.
  intros n cs H. rewrite forallb_app, H. cbn [andb]. rewrite forallb_forall in *. unfold undo. intros x Hx. apply in_map_iff in Hx. destruct Hx as (c & <- & Hc).
  apply ci_inv_TN, H. now apply in_rev.
Qed.
Lemma undo_all_valid : forall n cs, Forall (ci_ok n) cs -> forallb invertible cs = true -> Forall (ci_ok n) (cs ++ undo cs).
Proof. intros. apply Forall_app. split; [assumption|now apply undo_valid]. Qed.
Lemma con_invertible : forall n cs, forallb (ci_con n) cs = true -> forallb invertible cs = true.
Proof. intros n cs H. rewrite forallb_forall in *. intros c Hc. specialize (H c Hc). destruct c as [g|[]]; cbn in *; auto. Qed.
Lemma TN_invertible : forall n cs, forallb (ci_TN n) cs = true -> forallb invertible cs = true.
Proof. intros n cs H. rewrite forallb_forall in *. intros c Hc. specialize (H c Hc). destruct c as [g|[]]; cbn in *; auto. Qed.

Lemma undo_setup : forall n cs, Forall (ci_ok n) cs -> forallb invertible cs = true ->
  circuit_of n cs = Ok (circ n cs) /\ mmap o_dagger (rev (c_gate (circ n cs))) = Ok (map IOper (map (oobj n) (undo cs))) /\
  x_adds (as_x (circ n cs)) (map IOper (map (oobj n) (undo cs))) = (as_x (circ n (cs ++ undo cs)), None).
Proof.
  intros n cs H I. split; [now apply circuit_of_ok|]. split; [rewrite circ_gate; now apply undo_daggers|]. now rewrite adds_as_x, undo_circ.
Qed.
Lemma undo_matrix : forall n cs, 0 < n -> Forall (ci_ok n) cs -> forallb invertible cs = true -> exists c ds c',
  circuit_of n cs = Ok c /\ mmap o_dagger (rev (c_gate c)) = Ok ds /\ x_adds (as_x c) ds = (c', None) /\
  xU c' true = Ok (eye (2 ^ n)) /\ xU c' false = Ok (eye (2 ^ n)).
Proof.
  intros n cs Hn H I. destruct (undo_setup n cs H I) as (E1 & E2 & E3). do 3 eexists. split; [exact E1|]. split; [exact E2|]. split; [exact E3|].
  rewrite !xU_as_x, cU_ok, cU_rev_ok by (auto; now apply undo_all_valid). rewrite eye_op. split; f_equal; apply op_tensor_ext; [now apply undo_identity|now apply undo_identity_rev].
Qed.
Lemma gi_inv_params : forall g, length (gi_angles (gi_inv g)) = length (gi_angles g).
Proof. now intros []. Qed.
Lemma ci_inv_params : forall n c, ci_ok n c -> invertible c = true -> length (ci_angles (ci_inv c)) = length (ci_angles c).
Proof.
  intros n [g|l] H I; cbn [ci_inv ci_angles invertible ci_ok] in *; [apply gi_inv_params|].
  destruct (li_inv_some l I) as (l' & E). rewrite E. pose proof (li_inv_ok n l l' H E) as H'.
  destruct l; cbn [li_inv] in E; try discriminate; injection E as <-; cbn [li_angles li_ok] in *; auto.
  destruct H as [_ ->], H' as [_ ->]. destruct k; reflexivity.
Qed.
Lemma undo_angles : forall n cs, Forall (ci_ok n) cs -> forallb invertible cs = true -> length (cs_angles (undo cs)) = length (cs_angles cs).
Proof.
  intros n cs. unfold cs_angles. induction cs as [|c cs IH] using rev_ind; intros H I; [reflexivity|].
  apply Forall_app in H. destruct H as [H1 H2]. inversion_clear H2 as [|? ? Hc _]. rewrite forallb_app in I. apply andb_true_iff in I. destruct I as [I1 I2].
  cbn in I2. rewrite andb_true_r in I2. rewrite undo_snoc. cbn [flat_map]. rewrite flat_map_app. cbn [flat_map]. rewrite app_nil_r, !app_length, (ci_inv_params n), IH by auto. lia.
Qed.
Lemma undo_count : forall n cs, Forall (ci_ok n) cs -> forallb invertible cs = true -> exists c ds c',
  circuit_of n cs = Ok c /\ mmap o_dagger (rev (c_gate c)) = Ok ds /\ x_adds (as_x c) ds = (c', None) /\
  length (x_gate c') = 2 * length cs /\ x_num c' = 2 * length (cs_angles cs) /\ length (x_params c') = 2 * length cs.
Proof.
  intros n cs H I. destruct (undo_setup n cs H I) as (E1 & E2 & E3). do 3 eexists. split; [exact E1|]. split; [exact E2|]. split; [exact E3|].
  destruct (bookkeeping_values n (cs ++ undo cs) (undo_all_valid n cs H I)) as (c & E & A & B & _). rewrite circuit_of_ok in E by now apply undo_all_valid.
  injection E as <-. cbn [as_x x_gate x_num x_params]. rewrite A, B, map_length, circ_gate, map_length, app_length. unfold cs_angles at 1. rewrite flat_map_app, app_length.
  fold (cs_angles cs) (cs_angles (undo cs)). rewrite (undo_angles n) by auto. unfold undo. rewrite map_length, rev_length. lia.
Qed.
Lemma undo_act : forall n cs psi, Forall (ci_ok n) cs -> forallb invertible cs = true -> st_eq (SC := C_scalar) n (act n (cs_op n (cs ++ undo cs)) psi) psi.
Proof. intros n cs psi H I. rewrite (undo_identity n cs H I). apply act_id. Qed.
Lemma undo_contract : forall n cs s, Forall (ci_ok n) cs -> forallb (ci_con n) cs = true -> shape s = repeat 2 n -> wf s -> exists c ds c',
  circuit_of n cs = Ok c /\ mmap o_dagger (rev (c_gate c)) = Ok ds /\ x_adds (as_x c) ds = (c', None) /\
  x_TN_contract_evolution c' s false = Ok s.
Proof.
  intros n cs s H HC S W. pose proof (con_invertible n cs HC) as I. destruct (undo_setup n cs H I) as (E1 & E2 & E3).
  do 3 eexists. split; [exact E1|]. split; [exact E2|]. split; [exact E3|]. rewrite contract_as_x, (state_self n s S W).
  rewrite contract_evolution_ok by (auto using undo_con, undo_all_valid). f_equal. apply tbuild_st_ext. now apply undo_act.
Qed.
Lemma undo_batch : forall B n cs t, Forall (ci_ok n) cs -> forallb (ci_con n) cs = true -> shape t = B :: repeat 2 n -> wf t -> exists c ds c',
  circuit_of n cs = Ok c /\ mmap o_dagger (rev (c_gate c)) = Ok ds /\ x_adds (as_x c) ds = (c', None) /\
  x_TN_contract_evolution c' t true = Ok t.
Proof.
  intros B n cs t H HC S W. pose proof (con_invertible n cs HC) as I. destruct (undo_setup n cs H I) as (E1 & E2 & E3).
  do 3 eexists. split; [exact E1|]. split; [exact E2|]. split; [exact E3|]. rewrite contract_as_x.
  assert (E : t = tbuild (B :: repeat 2 n) (tget t)) by (rewrite <- S; now apply tensor_eta). rewrite E.
  rewrite contract_evolution_batch_ok by (auto using undo_con, undo_all_valid). f_equal. apply tbuild_ext. intros ix Hb. inversion_clear Hb as [|i ? b ? Hi Hb'].
  unfold batched. apply (undo_act n cs (fun b => tget t (i :: b)) H I). now apply bits_valid.
Qed.
Lemma undo_mps : forall svd n cs l psi, exact_svd svd -> Forall (ci_ok n) cs -> forallb (ci_TN n) cs = true -> is_mps n l psi -> nonzero n psi -> exists c ds c' l',
  circuit_of n cs = Ok c /\ mmap o_dagger (rev (c_gate c)) = Ok ds /\ x_adds (as_x c) ds = (c', None) /\
  x_TN_evolution svd c' l = Ok l' /\ is_mps n l' psi.
Proof.
  intros svd n cs l psi Hs H HT HM HZ. pose proof (TN_invertible n cs HT) as I. destruct (undo_setup n cs H I) as (E1 & E2 & E3).
  destruct (evolution_ok svd n (cs ++ undo cs) l psi Hs (undo_all_valid n cs H I) (undo_TN n cs HT) HM HZ) as (l' & E & M).
  do 4 eexists. split; [exact E1|]. split; [exact E2|]. split; [exact E3|]. rewrite evolution_as_x. split; [exact E|]. eapply is_mps_st; [exact M|]. now apply undo_act.
Qed.

(** * Operations without an inverse; objects that are not operations *)
Definition undo_item (n : nat) (c : ci) : item := if invertible c then IOper (oobj n (ci_inv c)) else INone.
Lemma o_dagger_item : forall n c, ci_ok n c -> o_dagger (oobj n c) = Ok (undo_item n c).
Proof.
  intros n c H. unfold undo_item. destruct (invertible c) eqn:E; [now apply o_dagger_ok|]. destruct c as [g|l]; [discriminate|]. cbn [ci_ok oobj o_dagger invertible] in *.
  rewrite layer_dagger_ok by auto. now destruct l.
Qed.
Lemma xU_app : forall c i os b u, xU c b = Ok u ->
  xU (mkX (x_N c) (x_gate c ++ i :: os) (x_params c) (x_num c)) b =
  do v <- item_U i; do u' <- (if b then matmul v u else matmul u v);
  mfold (fun U_overall i => do u_matrix <- item_U i; if b then matmul u_matrix U_overall else matmul U_overall u_matrix) os u'.
Proof.
  intros c i os b u E. unfold xU in *. cbn [x_gate x_N]. rewrite mfold_app, E. cbn [bind mfold]. destruct (item_U i); reflexivity.
Qed.
Lemma first_stuck : forall cs, forallb invertible cs = false -> exists a c b, cs = a ++ c :: b /\ forallb invertible a = true /\ invertible c = false.
Proof.
  induction cs as [|x cs IH]; intros H; [discriminate|]. cbn in H. destruct (invertible x) eqn:E.
  - destruct (IH H) as (a & c & b & -> & A & B). exists (x :: a), c, b. cbn. now rewrite E.
  - exists [], x, cs. auto.
Qed.
Lemma x_adds_app : forall a b c c', x_adds c a = (c', None) -> x_adds c (a ++ b) = x_adds c' b.
Proof.
  induction a as [|i a IH]; intros b c c' H; cbn in *; [now injection H as <-|]. destruct (x_add c i) as [c1 [e|]]; [discriminate|]. now apply IH.
Qed.
Lemma undo_stuck : forall n cs, 0 < n -> Forall (ci_ok n) cs -> forallb invertible cs = false -> exists c ds c',
  circuit_of n cs = Ok c /\ mmap o_dagger (rev (c_gate c)) = Ok ds /\ x_adds (as_x c) ds = (c', Some AttributeError) /\
  forall b, xU c' b = Err AttributeError.
Proof.
  intros n cs Hn H I. exists (circ n cs), (map (undo_item n) (rev cs)).
  assert (I' : forallb invertible (rev cs) = false).
  { destruct (forallb invertible (rev cs)) eqn:E; [|reflexivity]. rewrite <- I. symmetry. rewrite forallb_forall in *. intros x Hx. apply E. now apply -> in_rev. }
  destruct (first_stuck (rev cs) I') as (a & c & b & E & A & B). pose proof (Forall_rev H) as HR. rewrite E in HR. apply Forall_app in HR. destruct HR as [Ha _].
  assert (D : x_adds (as_x (circ n cs)) (map (undo_item n) (rev cs)) =
    (mkX n (map IOper (map (oobj n) (cs ++ map ci_inv a)) ++ [INone]) (c_params (circ n (cs ++ map ci_inv a))) (c_num (circ n (cs ++ map ci_inv a))), Some AttributeError)).
  { rewrite E, map_app. cbn [map].
    replace (map (undo_item n) a) with (map IOper (map (oobj n) (map ci_inv a))).
    - rewrite (x_adds_app _ _ _ _ (adds_as_x _ _)). replace (fold_left add (map (oobj n) (map ci_inv a)) (circ n cs)) with (circ n (cs ++ map ci_inv a)).
      + cbn [x_adds]. unfold undo_item at 1. rewrite B. unfold x_add. unfold as_x. cbn [x_gate x_N x_params x_num]. now rewrite circ_gate, circ_N.
      + unfold circ. now rewrite map_app, fold_left_app.
    - rewrite !map_map. apply map_ext_in. intros x Hx. unfold undo_item. rewrite forallb_forall in A. now rewrite A. }
  eexists. split; [now apply circuit_of_ok|]. split.
  { rewrite circ_gate, <- map_rev, mmap_map. apply mmap_Ok_ext. intros x Hx. apply o_dagger_item. rewrite Forall_forall in H. apply H. now apply in_rev. }
  split; [exact D|]. intros bb. assert (V : Forall (ci_ok n) (cs ++ map ci_inv a)).
  { apply Forall_app. split; [exact H|]. rewrite Forall_map. rewrite forallb_forall in A. rewrite Forall_forall in *. intros x Hx. apply ci_inv_valid; auto. }
  set (C := as_x (circ n (cs ++ map ci_inv a))). assert (U : exists u, xU C bb = Ok u).
  { unfold C. rewrite xU_as_x. destruct bb; eexists; [now apply cU_ok|now apply cU_rev_ok]. }
  destruct U as (u & U). assert (X := xU_app C INone [] bb u U). unfold C in X. unfold as_x in X. cbn [x_N x_gate x_params x_num] in X. rewrite circ_gate, circ_N in X. exact X.
Qed.

(** after an add that raises *)
Lemma x_after : forall n cs1 i cs2, Forall (ci_ok n) cs1 -> Forall (ci_ok n) cs2 -> (forall o, i <> IOper o) ->
  exists c c1 c2, circuit_of n cs1 = Ok c /\ x_add (as_x c) i = (c1, Some AttributeError) /\ x_adds c1 (map IOper (map (oobj n) cs2)) = (c2, None) /\
    x_N c1 = n /\ x_gate c1 = map IOper (map (oobj n) cs1) ++ [i] /\ x_params c1 = c_params c /\ x_num c1 = c_num c /\
    x_N c2 = n /\ x_gate c2 = map IOper (map (oobj n) cs1) ++ i :: map IOper (map (oobj n) cs2).
Proof.
  intros n cs1 i cs2 H1 H2 Hi. exists (circ n cs1), (mkX n (map IOper (map (oobj n) cs1) ++ [i]) (c_params (circ n cs1)) (c_num (circ n cs1))).
  assert (G : forall os c, exists c2, x_adds c (map IOper os) = (c2, None) /\ x_N c2 = x_N c /\ x_gate c2 = x_gate c ++ map IOper os).
  { induction os as [|o os IH]; intros c; [exists c; cbn; now rewrite app_nil_r|]. cbn [map x_adds]. unfold x_add at 1.
    destruct (o_num_params o =? 0); match goal with |- context [x_adds ?c' _] => destruct (IH c') as (c2 & A & B & D) end; exists c2;
      (split; [exact A|]; split; [exact B|]; rewrite D; cbn [x_gate]; now rewrite <- app_assoc). }
  destruct (G (map (oobj n) cs2) (mkX n (map IOper (map (oobj n) cs1) ++ [i]) (c_params (circ n cs1)) (c_num (circ n cs1)))) as (c2 & A & B & D).
  exists c2. split; [now apply circuit_of_ok|]. split.
  { destruct i as [o|e|]; [exfalso; now apply (Hi o)| |]; unfold x_add, as_x; cbn [x_gate x_N x_params x_num]; now rewrite circ_gate, circ_N. }
  split; [exact A|]. cbn [x_N x_gate x_params x_num] in *. repeat (split; [reflexivity|]). split; [exact B|]. rewrite D. now rewrite <- app_assoc.
Qed.

Lemma mfold_ops_U : forall n cs b A, 0 < n -> Forall (ci_ok n) cs ->
  mfold (fun U_overall i => do u_matrix <- item_U i; if b : bool then matmul u_matrix U_overall else matmul U_overall u_matrix)
    (map IOper (map (oobj n) cs)) (op_tensor n A) = Ok (op_tensor n (if b then mul_op n (cs_op n cs) A else mul_op n A (cs_op_rev n cs))).
Proof.
  intros n cs b A Hn. induction cs as [|c cs IH] using rev_ind; intros H.
  - cbn [map mfold]. f_equal. apply op_tensor_ext. destruct b; symmetry; [apply mul_op_id_l|apply mul_op_id_r].
  - apply Forall_app in H. destruct H as [H1 H2]. inversion_clear H2 as [|? ? Hc _]. rewrite !map_app, mfold_app, IH by auto. cbn [bind map mfold item_U].
    rewrite o_U_ok by auto. cbn [bind]. destruct b; rewrite matmul_op; cbn [bind]; f_equal; apply op_tensor_ext.
    + rewrite cs_op_snoc. symmetry. apply mul_op_assoc.
    + rewrite cs_rev_snoc. apply mul_op_assoc.
Qed.
Lemma enc_in_circuit : forall n cs1 cs2 a xs ws, 0 < n -> Forall (ci_ok n) cs1 -> Forall (ci_ok n) cs2 -> xs <> [] -> length xs <= n -> good_wires n ws ->
  exists c e os c1 c2 u, circuit_of n cs1 = Ok c /\ PauliEncoding (Z.of_nat n) xs (map Z.of_nat ws) (axis_name a) = Ok e /\ mmap (obuild n) cs2 = Ok os /\
    x_add (as_x c) (IEnc e) = (c1, Some AttributeError) /\ x_adds c1 (map IOper os) = (c2, None) /\
    xU c2 true = Ok u /\ is_op n u (mul_op n (cs_op n cs2) (mul_op n (gs_op n (enc_gates a ws xs)) (cs_op n cs1))).
Proof.
  intros n cs1 cs2 a xs ws Hn H1 H2 Hx HL W. set (e := mkPE (Z.of_nat n) xs (axis_name a) (map Z.of_nat ws)).
  destruct (x_after n cs1 (IEnc e) cs2 H1 H2 ltac:(discriminate)) as (c & c1 & c2 & E0 & E1 & E2 & _ & _ & _ & _ & N2 & G2).
  exists c, e, (map (oobj n) cs2), c1, c2. eexists. split; [exact E0|]. split; [now apply pe_build|].
  split; [apply mmap_Ok_ext; intros x Hx'; apply obuild_ok; rewrite Forall_forall in H2; auto|]. split; [exact E1|]. split; [exact E2|]. split.
  - unfold xU. rewrite N2, G2, mfold_app, eye_op, (mfold_ops_U n cs1 true id_op Hn H1). cbn [bind mfold item_U]. unfold e. rewrite pe_U_ok by auto. cbn [bind].
    rewrite matmul_op. cbn [bind]. exact (mfold_ops_U n cs2 true _ Hn H2).
  - eapply is_op_ext; [apply is_op_tensor|]. now rewrite mul_op_id_r.
Qed.
Lemma stray_bookkeeping : forall c i, (forall o, i <> IOper o) -> exists c1, x_add (as_x c) i = (c1, Some AttributeError) /\
  length (x_gate c1) = S (length (c_gate c)) /\ x_params c1 = c_params c /\ x_num c1 = c_num c /\
  x_gate (x_clear c1) = [] /\ forall b, xU (x_clear c1) b = Ok (eye (2 ^ c_N c)).
Proof.
  intros c i Hi. destruct i as [o|e|]; [exfalso; now apply (Hi o)| |]; (eexists; split; [reflexivity|]; split; [cbn; rewrite app_length, map_length; cbn; lia|]; repeat split).
Qed.
Lemma none_in_circuit : forall n cs1 cs2, 0 < n -> Forall (ci_ok n) cs1 -> Forall (ci_ok n) cs2 ->
  exists c os c1 c2, circuit_of n cs1 = Ok c /\ mmap (obuild n) cs2 = Ok os /\
    x_add (as_x c) INone = (c1, Some AttributeError) /\ x_adds c1 (map IOper os) = (c2, None) /\ forall b, xU c2 b = Err AttributeError.
Proof.
  intros n cs1 cs2 Hn H1 H2. destruct (x_after n cs1 INone cs2 H1 H2 ltac:(discriminate)) as (c & c1 & c2 & E0 & E1 & E2 & _ & _ & _ & _ & N2 & G2).
  exists c, (map (oobj n) cs2), c1, c2. split; [exact E0|].
  split; [apply mmap_Ok_ext; intros x Hx'; apply obuild_ok; rewrite Forall_forall in H2; auto|]. split; [exact E1|]. split; [exact E2|].
  intros b. unfold xU. rewrite N2, G2, mfold_app, eye_op, (mfold_ops_U n cs1 b id_op Hn H1). reflexivity.
Qed.
Lemma stray_networks : forall n cs1 cs2 i s, Forall (ci_ok n) cs1 -> Forall (ci_ok n) cs2 -> forallb (ci_con n) cs1 = true -> (forall o, i <> IOper o) ->
  shape s = repeat 2 n -> wf s ->
  exists c os c1 c2, circuit_of n cs1 = Ok c /\ mmap (obuild n) cs2 = Ok os /\
    x_add (as_x c) i = (c1, Some AttributeError) /\ x_adds c1 (map IOper os) = (c2, None) /\
    x_TN_contract_evolution c2 s false = Err AttributeError.
Proof.
  intros n cs1 cs2 i s H1 H2 HC Hi S W. destruct (x_after n cs1 i cs2 H1 H2 Hi) as (c & c1 & c2 & E0 & E1 & E2 & _ & _ & _ & _ & N2 & G2).
  exists c, (map (oobj n) cs2), c1, c2. split; [exact E0|].
  split; [apply mmap_Ok_ext; intros x Hx'; apply obuild_ok; rewrite Forall_forall in H2; auto|]. split; [exact E1|]. split; [exact E2|].
  pose proof (contract_evolution_ok n cs1 (amp s) H1 HC) as E. rewrite <- (state_self n s S W), <- contract_as_x in E.
  unfold x_TN_contract_evolution, raise_if, as_x in *. cbn [x_N x_gate] in *. rewrite circ_N, circ_gate in E. rewrite N2, G2. destruct (negb _); [discriminate|].
  rewrite mfold_app, E. cbn [bind mfold]. destruct i as [o|e|]; [exfalso; now apply (Hi o)|reflexivity|reflexivity].
Qed.
Lemma stray_mps : forall svd n cs1 cs2 i l psi, exact_svd svd -> Forall (ci_ok n) cs1 -> Forall (ci_ok n) cs2 -> forallb (ci_TN n) cs1 = true -> (forall o, i <> IOper o) ->
  is_mps n l psi -> nonzero n psi ->
  exists c os c1 c2, circuit_of n cs1 = Ok c /\ mmap (obuild n) cs2 = Ok os /\
    x_add (as_x c) i = (c1, Some AttributeError) /\ x_adds c1 (map IOper os) = (c2, None) /\
    x_TN_evolution svd c2 l = Err AttributeError.
Proof.
  intros svd n cs1 cs2 i l psi Hs H1 H2 HT Hi M Z. destruct (x_after n cs1 i cs2 H1 H2 Hi) as (c & c1 & c2 & E0 & E1 & E2 & _ & _ & _ & _ & N2 & G2).
  exists c, (map (oobj n) cs2), c1, c2. split; [exact E0|].
  split; [apply mmap_Ok_ext; intros x Hx'; apply obuild_ok; rewrite Forall_forall in H2; auto|]. split; [exact E1|]. split; [exact E2|].
  destruct (evolution_ok svd n cs1 l psi Hs H1 HT M Z) as (l' & E & _). rewrite <- evolution_as_x in E.
  unfold x_TN_evolution, raise_if, as_x in *. cbn [x_N x_gate] in *. rewrite circ_N, circ_gate in E. rewrite N2, G2. destruct (negb _); [discriminate|].
  rewrite mfold_app, E. cbn [bind mfold]. destruct i as [o|e|]; [exfalso; now apply (Hi o)|reflexivity|reflexivity].
Qed.
Lemma items_check_app : forall os l, items_check (map IOper os ++ l) = if forallb o_supportTN os then items_check l else Ok false.
Proof. induction os as [|o os IH]; intros l; [reflexivity|]. cbn [map app items_check item_supportTN bind forallb]. destruct (o_supportTN o); [apply IH|reflexivity]. Qed.
Lemma stray_check : forall n cs1 cs2 i, Forall (ci_ok n) cs1 -> Forall (ci_ok n) cs2 -> (forall o, i <> IOper o) ->
  exists c os c1 c2, circuit_of n cs1 = Ok c /\ mmap (obuild n) cs2 = Ok os /\
    x_add (as_x c) i = (c1, Some AttributeError) /\ x_adds c1 (map IOper os) = (c2, None) /\
    x_TN_check c2 = if existsb matrix_only cs1 then Ok false else Err AttributeError.
Proof.
  intros n cs1 cs2 i H1 H2 Hi. destruct (x_after n cs1 i cs2 H1 H2 Hi) as (c & c1 & c2 & E0 & E1 & E2 & _ & _ & _ & _ & N2 & G2).
  exists c, (map (oobj n) cs2), c1, c2. split; [exact E0|].
  split; [apply mmap_Ok_ext; intros x Hx'; apply obuild_ok; rewrite Forall_forall in H2; auto|]. split; [exact E1|]. split; [exact E2|].
  unfold x_TN_check. rewrite G2, items_check_app.
  assert (X : forallb o_supportTN (map (oobj n) cs1) = negb (existsb matrix_only cs1)).
  { clear. induction cs1 as [|x cs IH]; [reflexivity|]. cbn [map forallb existsb]. rewrite IH, negb_orb. f_equal. destruct x as [[]|[]]; reflexivity. }
  rewrite X. destruct (existsb matrix_only cs1); [reflexivity|]. cbn [negb]. destruct i as [o|e|]; [exfalso; now apply (Hi o)|reflexivity|reflexivity].
Qed.
