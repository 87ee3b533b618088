(** Lemmas: what [info()] of a placed gate, layer and circuit reads as. *)
From Coq Require Import List ZArith Reals Lia Bool Arith String DecimalString.
From Verif Require Import PyBase Scalar CInst Tensor TensorFacts Spec SpecFacts QMath QTN QOperator ExpandFacts ExpandFacts2 GateSpec QGates GateCalls GateFacts GateFacts2 GateFacts4 GateProofs RunSpec
  LayerSpec QLayers LayerCalls LayerFacts1 LayerFacts3 LayerFacts4 LayerProofs CircuitSpec QCircuit CircuitFacts1 CircuitProofs QInfo InfoSpec.
Import ListNotations.
Local Close Scope R_scope.
Local Open Scope nat_scope.
Local Notation len := List.length.

Lemma wire_nats_ok : forall ws, wire_nats (map WInt (map Z.of_nat ws)) = Some ws.
Proof.
  induction ws as [|w ws IH]; [reflexivity|]. cbn [map wire_nats]. rewrite IH. cbn [wire_nat].
  destruct (Z.leb_spec 0 (Z.of_nat w)) as [_|H]; [|lia]. now rewrite Nat2Z.id.
Qed.

Lemma read_ok : forall lab cs ts ps, read_info (mkInfo lab (map WInt (map Z.of_nat cs)) (map WInt (map Z.of_nat ts)) ps) = read_label lab cs ts ps.
Proof. intros. unfold read_info. cbn [i_contral i_target i_label i_params]. now rewrite !wire_nats_ok. Qed.

(** a numeral begins with a digit, the labels of the list do not *)
Lemma find_numeral : forall k s, find_label (String.append (numeral k) s) labels = None.
Proof.
  intros k s. unfold numeral. generalize (Nat.to_uint k). intros d.
  unfold NilZero.string_of_uint. destruct d; reflexivity.
Qed.

Lemma last_nth : forall l t, py_nth (map Z.of_nat (l ++ [t])) (-1) = Ok (Z.of_nat t).
Proof.
  intros l t. unfold py_nth, py_index. rewrite map_length, app_length. cbn [List.length Z.leb Z.compare andb].
  destruct (Z.leb_spec (- Z.of_nat (len l + 1)) (-1)) as [_|H]; [|lia]. cbn [Z.ltb Z.compare andb bind].
  replace (Z.to_nat (-1 + Z.of_nat (len l + 1))) with (len l) by lia.
  rewrite nth_error_map, nth_error_app2, Nat.sub_diag by lia. reflexivity.
Qed.

Lemma gate_info_ok : forall n g, exists i, gate_info (obj n g) = Ok i /\ read_info i = Some [g].
Proof.
  intros n g.
  destruct g as [w|w|w|w|t w|t w|t w|t w|t p l w|t a b|t a b|t a b|c t|c t|th c t|th p l c t|a b|c1 c2 t|cs t];
    [eexists; split; [reflexivity|]..|].
  1-9: (change (WInt (Z.of_nat w) :: nil) with (map WInt (map Z.of_nat [w])) || idtac);
       unfold obj; cbn [g_wires gi_pywires gi_wires]; unfold zi;
       change [WInt (Z.of_nat w)] with (map WInt (map Z.of_nat [w])); change (@nil pywires) with (map WInt (map Z.of_nat [])); rewrite read_ok; reflexivity.
  1-3: change (@nil pywires) with (map WInt (map Z.of_nat [])); change [Z.of_nat a; Z.of_nat b] with (map Z.of_nat [a; b]); rewrite read_ok; reflexivity.
  1-4: change [WInt (Z.of_nat c)] with (map WInt (map Z.of_nat [c])); change [WInt (Z.of_nat t)] with (map WInt (map Z.of_nat [t])); rewrite read_ok; reflexivity.
  1: change (@nil pywires) with (map WInt (map Z.of_nat [])); change [Z.of_nat a; Z.of_nat b] with (map Z.of_nat [a; b]); rewrite read_ok; reflexivity.
  1: change [WInt (Z.of_nat c1); WInt (Z.of_nat c2)] with (map WInt (map Z.of_nat [c1; c2])); change [WInt (Z.of_nat t)] with (map WInt (map Z.of_nat [t]));
     rewrite read_ok; reflexivity.
  eexists. split.
  - unfold gate_info, obj. cbn [gi_cls g_cls g_wires gi_pywires]. unfold zl. cbn [wire_list bind]. rewrite last_nth. cbn [bind]. reflexivity.
  - rewrite map_length, app_length. cbn [len].
    replace (len cs + 1 - 1) with (len cs) by lia.
    assert (F : firstn (len cs) (map Z.of_nat (cs ++ [t])) = map Z.of_nat cs).
    { rewrite map_app, firstn_app, map_length, Nat.sub_diag. cbn [firstn]. rewrite app_nil_r. apply firstn_all2. rewrite map_length. lia. }
    rewrite F.
    change [WInt (Z.of_nat t)] with (map WInt (map Z.of_nat [t])). rewrite read_ok.
    unfold g_label. cbn [g_cls g_wires gi_cls gi_pywires]. unfold zl. rewrite map_length, app_length. cbn [len].
    replace (len cs + 1 - 1) with (len cs) by lia.
    unfold read_label. change (str_nat (len cs)) with (numeral (len cs)). rewrite find_numeral. now rewrite String.eqb_refl.
Qed.

(** * Layers *)
Lemma ring_targets : forall ws d, 0 < len ws ->
  mmap (fun i => py_nth (map Z.of_nat ws) ((i + Z.of_nat d) mod Z.of_nat (len ws))%Z) (zrange (len ws)) =
  Ok (map Z.of_nat (map (fun i => nth ((i + d) mod len ws) ws 0) (seq 0 (len ws)))).
Proof.
  intros ws d H. unfold zrange. rewrite mmap_map, map_map. apply mmap_Ok_ext. intros i Hi.
  rewrite <- Nat2Z.inj_add, <- Nat2Z.inj_mod.
  rewrite (py_nth_nat _ _ _ (Z.of_nat 0)) by (rewrite map_length; apply Nat.mod_upper_bound; lia).
  now rewrite map_nth.
Qed.

Lemma combine_map_r : forall (A B : Type) (f g : nat -> A) (h : A * A -> B) l, map h (combine (map f l) (map g l)) = map (fun i => h (f i, g i)) l.
Proof. intros A B f g h l. induction l as [|x l IH]; [reflexivity|]. cbn [map combine]. now rewrite IH. Qed.
Lemma self_nth : forall ws, map (fun i => nth i ws 0) (seq 0 (len ws)) = ws.
Proof.
  induction ws as [|w ws IH]; [reflexivity|]. cbn [len seq map nth]. f_equal. rewrite <- seq_shift, map_map. exact IH.
Qed.

Lemma cnots_ring : forall d ws, len ws <> 2 ->
  map (fun ct => gi_cnot (fst ct) (snd ct)) (combine ws (map (fun i => nth ((i + d) mod len ws) ws 0) (seq 0 (len ws)))) = ring_gates d ws.
Proof.
  intros d ws H. rewrite <- (self_nth ws) at 1. rewrite combine_map_r. cbn [fst snd].
  destruct ws as [|a [|b [|c ws]]]; try reflexivity. cbn in H. lia.
Qed.

Lemma ring_info_ok : forall n lab d ws, 2 <= len ws -> exists cs ts,
  ring_info lab d (mkR (Z.of_nat n) (map Z.of_nat ws)) = Ok (mkInfo lab (map WInt (map Z.of_nat cs)) (map WInt (map Z.of_nat ts)) None) /\
  map (fun ct => gi_cnot (fst ct) (snd ct)) (combine cs ts) = ring_gates d ws.
Proof.
  intros n lab d ws H. unfold ring_info. cbn [r_wires]. rewrite map_length, ring_targets by lia. cbn [bind].
  destruct (Nat.eqb_spec (len ws) 2) as [E|E].
  - destruct ws as [|a [|b [|c ws]]]; cbn [len] in E; try lia. exists [a], [b]. split; reflexivity.
  - eexists ws, _. split; [reflexivity|]. now apply cnots_ring.
Qed.

Lemma layer_info_ok : forall n l, li_ok n l -> exists i, layer_info (lobj n l) = Ok i /\ read_info i = Some (li_gates l).
Proof.
  intros n [k ws ps|ws|ws|ws|ws|rep ws ps] H; cbn [li_ok lobj layer_info li_gates] in *.
  - eexists. split; [reflexivity|]. unfold slayer_info. cbn [sl_wires sl_kind sl_params].
    change (@nil pywires) with (map WInt (map Z.of_nat [])). rewrite read_ok. destruct k; reflexivity.
  - eexists. split; [reflexivity|]. unfold slayer_info. cbn [sl_wires sl_kind sl_params].
    change (@nil pywires) with (map WInt (map Z.of_nat [])). rewrite read_ok. reflexivity.
  - destruct (ring_info_ok n "ring_of_cnot_Layer" 1 ws) as (cs & ts & E & G); [tauto|]. eexists. split; [exact E|]. rewrite read_ok.
    change (Some (map (fun ct => gi_cnot (fst ct) (snd ct)) (combine cs ts)) = Some (ring_gates 1 ws)). now rewrite G.
  - destruct (ring_info_ok n "ring_of_cnot_dagger" 1 ws) as (cs & ts & E & G); [tauto|]. eexists. split; [exact E|]. rewrite read_ok.
    change (Some (rev (map (fun ct => gi_cnot (fst ct) (snd ct)) (combine cs ts))) = Some (rev (ring_gates 1 ws))). now rewrite G.
  - destruct (ring_info_ok n "ring_of_cnot2_Layer" 2 ws) as (cs & ts & E & G); [tauto|]. eexists. split; [exact E|]. rewrite read_ok.
    change (Some (map (fun ct => gi_cnot (fst ct) (snd ct)) (combine cs ts)) = Some (ring_gates 2 ws)). now rewrite G.
  - eexists. split; [reflexivity|]. cbn [b_wires b_params basic_obj].
    change (@nil pywires) with (map WInt (map Z.of_nat [])). rewrite read_ok.
    change (Some (basic_gates (len ps / (3 * len ws)) ws ps) = Some (basic_gates rep ws ps)).
    destruct H as (W & L & R & E). rewrite E, (Nat.mul_comm (3 * len ws) rep), Nat.div_mul by lia. reflexivity.
Qed.

Lemma oper_info_ok : forall n c, ci_ok n c -> exists i, oper_info (oobj n c) = Ok i /\ read_info i = Some (ci_gates c).
Proof. intros n [g|l] H; cbn [oper_info oobj ci_gates]; [apply gate_info_ok|now apply layer_info_ok]. Qed.

Lemma infos_ok : forall n cs, Forall (ci_ok n) cs ->
  exists is, mmap oper_info (map (oobj n) cs) = Ok is /\ read_infos is = Some (flat_map ci_gates cs).
Proof.
  intros n cs H. induction H as [|c cs Hc Hcs (is & E & G)]; [exists []; split; reflexivity|].
  destruct (oper_info_ok n c Hc) as (i & Ei & Gi). exists (i :: is). cbn [map mmap read_infos flat_map]. rewrite Ei, E, Gi, G. split; reflexivity.
Qed.

(** * The theorems *)
Lemma info_gates : forall n g, gi_ok n g ->
  exists o i u, build n g = Ok o /\ gate_info o = Ok i /\ read_info i = Some [g] /\ U_expand o = Ok u /\ is_op n u (gi_op n g).
Proof.
  intros n g H. destruct (gate_info_ok n g) as (i & Ei & Gi). destruct (gate_matrix n g H) as (o & u & B & U & I).
  rewrite build_ok in B. exists o, i, u. assert (o = obj n g) as -> by congruence. rewrite build_ok. auto.
Qed.
Lemma info_layers : forall n l, 0 < n -> li_ok n l ->
  exists o i u, lbuild n l = Ok o /\ layer_info o = Ok i /\ read_info i = Some (li_gates l) /\ layer_U o = Ok u /\ is_op n u (gs_op n (li_gates l)).
Proof.
  intros n l Hn H. destruct (layer_info_ok n l H) as (i & Ei & Gi). destruct (layer_matrix n l Hn H) as (o & u & B & U & I).
  exists o, i, u. rewrite lbuild_ok in B by auto. assert (o = lobj n l) as -> by congruence. rewrite lbuild_ok by auto. auto.
Qed.
Lemma info_circuit : forall n cs, 0 < n -> Forall (ci_ok n) cs ->
  exists c is gs u, circuit_of n cs = Ok c /\ mmap oper_info (c_gate c) = Ok is /\ read_infos is = Some gs /\ cU c true = Ok u /\ is_op n u (gs_op n gs).
Proof.
  intros n cs Hn H. destruct (infos_ok n cs H) as (is & E & G). destruct (circuit_matrix n cs Hn H) as (c & u & u' & B & U & I & _).
  exists c, is, (flat_map ci_gates cs), u. rewrite circuit_of_ok in B by auto. assert (c = circ n cs) as -> by congruence.
  rewrite circuit_of_ok, circ_gate by auto. split; [reflexivity|]. split; [exact E|]. split; [exact G|]. split; [exact U|]. eapply is_op_ext; [exact I|apply cs_op_gates].
Qed.
Lemma info_same : forall n a b oa ob, 0 < n -> ci_ok n a -> ci_ok n b -> obuild n a = Ok oa -> obuild n b = Ok ob ->
  oper_info oa = oper_info ob -> exists u, o_U oa = Ok u /\ o_U ob = Ok u.
Proof.
  intros n a b oa ob Hn Ha Hb Ba Bb E. rewrite obuild_ok in Ba, Bb by auto.
  assert (oa = oobj n a) as -> by congruence. assert (ob = oobj n b) as -> by congruence.
  destruct (oper_info_ok n a Ha) as (i & Ei & Gi). destruct (oper_info_ok n b Hb) as (j & Ej & Gj).
  assert (ci_gates a = ci_gates b) as G by congruence.
  eexists. rewrite !o_U_ok by auto. split; [reflexivity|]. f_equal. apply op_tensor_ext.
  transitivity (gs_op n (ci_gates b)); [|rewrite <- G].
  - destruct b as [g|l]; cbn [ci_op ci_gates]; [symmetry; apply gs_op_1|reflexivity].
  - destruct a as [g|l]; cbn [ci_op ci_gates]; [apply gs_op_1|reflexivity].
Qed.

(** after params_update *)
Lemma info_update : forall n ps g g' o, gi_sets g ps = Some g' -> build n g = Ok o ->
  exists o' i, mfold params_update ps o = Ok o' /\ gate_info o' = Ok i /\ read_info i = Some [g'].
Proof.
  intros n ps g g' o S B. rewrite (gate_update n ps g g' o S B), build_ok. destruct (gate_info_ok n g') as (i & E & G).
  exists (obj n g'), i. auto.
Qed.
Lemma fold_set_ok : forall n pss l, li_ok n l -> Forall (fun ps => li_ok n (li_set l ps)) pss -> li_ok n (fold_left li_set pss l).
Proof.
  intros n pss. induction pss as [|p pss IH]; intros l H F; [exact H|]. cbn [fold_left]. inversion_clear F as [|? ? Hp Fp]. apply IH; [exact Hp|].
  eapply Forall_impl; [|exact Fp]. intros q Hq. destruct l; exact Hq.
Qed.
Lemma info_layer_update : forall n l pss o, li_ok n l -> Forall (fun ps => li_ok n (li_set l ps)) pss -> lbuild n l = Ok o ->
  exists o' i, mfold layer_params_update pss o = Ok o' /\ layer_info o' = Ok i /\ read_info i = Some (li_gates (fold_left li_set pss l)).
Proof.
  intros n l pss o H F B. pose proof (fold_set_ok n pss l H F) as K. rewrite (layer_updates n l pss o H F B), lbuild_ok by exact K.
  destruct (layer_info_ok n _ K) as (i & E & G). exists (lobj n (fold_left li_set pss l)), i. auto.
Qed.

(** a gate that has not been placed *)
Lemma info_unplaced : forall g, constructed g -> g_wires g = WInt (-1) ->
  if one_qubit_cls (g_cls g) then exists i, gate_info g = Ok i /\ i_contral i = [] /\ i_target i = [WInt (-1)] /\ read_info i = None
  else gate_info g = Err (match g_cls g with ctoffoli => AttributeError | _ => TypeError end).
Proof.
  intros g _ W. unfold gate_info. destruct (g_cls g) eqn:E; cbn [one_qubit_cls]; rewrite W; try reflexivity;
    (eexists; split; [reflexivity|]; split; [reflexivity|]; split; reflexivity).
Qed.

(** the inverse operations *)
Lemma info_gate_dagger : forall n g, gi_ok n g ->
  exists o od i gs, build n g = Ok o /\ operation_dagger o = Ok od /\ gate_info od = Ok i /\ read_info i = Some gs /\
    op_eq n (gs_op n gs) (adj_op (gi_op n g)).
Proof.
  intros n g H. destruct (gate_info_ok n (gi_inv g)) as (i & E & G). exists (obj n g), (obj n (gi_inv g)), i, [gi_inv g].
  split; [apply build_ok|]. split; [apply operation_dagger_obj|]. split; [exact E|]. split; [exact G|]. rewrite gs_op_1. now apply gi_inv_ok.
Qed.
Lemma info_layer_dagger : forall n l, 0 < n -> li_ok n l -> has_inverse l = true ->
  exists o od i gs, lbuild n l = Ok o /\ layer_dagger o = Ok (Some od) /\ layer_info od = Ok i /\ read_info i = Some gs /\
    op_eq n (gs_op n gs) (adj_op (li_op n l)).
Proof.
  intros n l Hn H I. assert (X : exists l', li_inv l = Some l') by (destruct l; cbn in *; eauto; discriminate). destruct X as (l' & E).
  assert (K : li_ok n l') by (eapply li_inv_ok; eauto).
  destruct (layer_info_ok n l' K) as (i & Ei & Gi). exists (lobj n l), (lobj n l'), i, (li_gates l').
  split; [now apply lbuild_ok|]. split; [rewrite layer_dagger_ok, E by auto; reflexivity|]. split; [exact Ei|]. split; [exact Gi|].
  change (op_eq n (li_op n l') (adj_op (li_op n l))). eapply li_inv_op; eauto.
Qed.
