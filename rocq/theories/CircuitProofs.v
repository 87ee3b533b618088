(** Proofs of the circuit properties in the form in which Prop_Circuit.v states them. *)
From Coq Require Import List ZArith QArith Reals Lra Lia ZifyBool Bool Arith Setoid Morphisms.
From Verif Require Import PyBase Scalar CInst BigSum Index Tensor TensorFacts Spec SpecFacts QMath QTN QOperator
  ExpandFacts ExpandFacts2 ContractFacts ContractFacts2 GateSpec QGates GateCalls GateFacts GateFacts2 GateFacts3 GateFacts4 GateFacts5 GateFacts6 GateProofs RunSpec
  MPSSpec MPSFacts1 MPSFacts2 MPSFacts4 MPSFacts5 MPSFacts6 MPSFacts8 MPSFacts9 LayerSpec QLayers LayerCalls LayerFacts1 LayerFacts2 LayerFacts3 LayerFacts4 LayerProofs
  CircuitSpec QCircuit StateFacts CircuitFacts1.
Import ListNotations.
Local Close Scope Q_scope.
Local Close Scope R_scope.
Local Open Scope nat_scope.

Lemma op_tensor_is : forall n A, is_op n (op_tensor n A) A.
Proof. intros. now apply is_op_eq. Qed.

Lemma circuit_matrix : forall n cs, 0 < n -> Forall (ci_ok n) cs ->
  exists c u u', circuit_of n cs = Ok c /\ cU c true = Ok u /\ is_op n u (cs_op n cs) /\ cU c false = Ok u' /\ is_op n u' (cs_op_rev n cs).
Proof.
  intros n cs Hn H. exists (circ n cs). eexists _, _. split; [now apply circuit_of_ok|]. split; [now apply cU_ok|]. split; [apply op_tensor_is|].
  split; [now apply cU_rev_ok|apply op_tensor_is].
Qed.
Lemma empty_matrix : forall n b, exists u, cU (Circuit n) b = Ok u /\ is_op n u id_op.
Proof. intros. exists (eye (2 ^ n)). split; [reflexivity|]. rewrite eye_op. apply op_tensor_is. Qed.

(** the matrix of a circuit is the product of the matrices its operations return, whatever the operations are *)
Lemma cU_snoc : forall c o u v, cU c true = Ok u -> o_U o = Ok v -> cU (add c o) true = matmul v u.
Proof. intros c o u v E F. unfold cU in *. rewrite add_gate, add_N, mfold_app, E. cbn [bind mfold]. rewrite F. cbn [bind]. destruct matmul; reflexivity. Qed.
Lemma cU_rev_snoc : forall c o u v, cU c false = Ok u -> o_U o = Ok v -> cU (add c o) false = matmul u v.
Proof. intros c o u v E F. unfold cU in *. rewrite add_gate, add_N, mfold_app, E. cbn [bind mfold]. rewrite F. cbn [bind]. destruct matmul; reflexivity. Qed.

Lemma cs_op_app : forall n cs1 cs2, op_eq n (cs_op n (cs1 ++ cs2)) (mul_op n (cs_op n cs2) (cs_op n cs1)).
Proof.
  intros n cs1 cs2. induction cs2 as [|c cs2 IH] using rev_ind.
  - rewrite app_nil_r. symmetry. apply mul_op_id_l.
  - rewrite app_assoc, !cs_op_snoc, IH. symmetry. apply mul_op_assoc.
Qed.
Lemma cs_op_gates : forall n cs, op_eq n (cs_op n cs) (gs_op n (flat_map ci_gates cs)).
Proof.
  intros n cs. induction cs as [|c cs IH] using rev_ind; [reflexivity|].
  rewrite cs_op_snoc, flat_map_app, gs_op_app, IH. cbn [flat_map]. rewrite app_nil_r. apply mul_op_proper; [|reflexivity].
  destruct c as [g|l]; cbn [ci_op ci_gates]; [symmetry; apply gs_op_1|reflexivity].
Qed.

Lemma split_circuit : forall n cs1 cs2, 0 < n -> Forall (ci_ok n) cs1 -> Forall (ci_ok n) cs2 ->
  exists c c1 c2 u u1 u2, circuit_of n (cs1 ++ cs2) = Ok c /\ circuit_of n cs1 = Ok c1 /\ circuit_of n cs2 = Ok c2 /\
    cU c true = Ok u /\ cU c1 true = Ok u1 /\ cU c2 true = Ok u2 /\ matmul u2 u1 = Ok u.
Proof.
  intros n cs1 cs2 Hn H1 H2. assert (H : Forall (ci_ok n) (cs1 ++ cs2)) by (now apply Forall_app).
  eexists _, _, _, _, _, _. split; [now apply circuit_of_ok|]. split; [now apply circuit_of_ok|]. split; [now apply circuit_of_ok|].
  split; [now apply cU_ok|]. split; [now apply cU_ok|]. split; [now apply cU_ok|]. rewrite matmul_op. f_equal. apply op_tensor_ext. symmetry. apply cs_op_app.
Qed.

Lemma repeat2Z : forall n, map Z.of_nat (repeat 2 n) = repeat 2%Z n.
Proof. induction n; cbn; congruence. Qed.
Lemma forall_TN_con : forall n cs, forallb (ci_TN n) cs = true -> forallb (ci_con n) cs = true.
Proof. intros n cs H. rewrite forallb_forall in *. intros c Hc. now apply ci_TN_con, H. Qed.

Lemma backends : forall svd n cs t psi, exact_svd svd -> 0 < n -> Forall (ci_ok n) cs -> forallb (ci_TN n) cs = true ->
  is_state n [1; 2 ^ n] t psi -> nonzero n psi ->
  exists c u col v s s' l l' w phi, circuit_of n cs = Ok c /\
    cU c true = Ok u /\ view t [-1; 1]%Z = Ok col /\ matmul u col = Ok v /\ is_state n [2 ^ n; 1] v phi /\
    view t (repeat 2%Z n) = Ok s /\ TN_contract_evolution c s false = Ok s' /\ is_state n (repeat 2 n) s' phi /\
    StateVec2MPS svd t n = Ok l /\ TN_evolution svd c l = Ok l' /\ MPS2StateVec l' = Ok w /\ is_state n [1; 2 ^ n] w phi.
Proof.
  intros svd n cs t psi Hs Hn H HT Ht HZ.
  assert (W : wf t) by (unfold wf; destruct Ht as (S & L & _); rewrite S; cbn [prodn]; lia).
  destruct (round_trip svd n t psi Hs Hn Ht HZ) as (l & t' & E1 & M1 & _).
  destruct (evolution_ok svd n cs l psi Hs H HT M1 HZ) as (l' & E2 & M2).
  destruct (mps_amplitudes n l' _ Hn M2) as (w & w' & E3 & Sw & _).
  assert (V : view t (repeat 2%Z n) = Ok (tbuild (repeat 2 n) psi)).
  { rewrite <- repeat2Z.
    rewrite view_nat by (rewrite prodn_repeat, <- W; apply Ht).
    f_equal. apply state_eta. split; [reflexivity|]. destruct Ht as (S & L & E). split; [exact L|]. intros b Hb. exact (E b Hb). }
  exists (circ n cs). eexists _, _, _, _, _, _, _, _, _. split; [now apply circuit_of_ok|]. split; [now apply cU_ok|].
  split; [exact (view_col n _ t psi Ht W)|]. split; [apply op_col|]. split; [apply col_state|]. split; [exact V|].
  split; [apply contract_evolution_ok; auto; now apply forall_TN_con|].
  split; [now apply state_eta|]. split; [exact E1|]. split; [exact E2|]. split; [exact E3|exact Sw].
Qed.

Lemma circuit_unitary : forall n cs, 0 < n -> Forall (ci_ok n) cs ->
  exists c u, circuit_of n cs = Ok c /\ cU c true = Ok u /\ shape u = [2 ^ n; 2 ^ n] /\ wf u /\ unitary n (op_of u) /\
    forall f g, inner n (act n (op_of u) f) (act n (op_of u) g) = inner n f g.
Proof.
  intros n cs Hn H. eexists _, _. split; [now apply circuit_of_ok|]. split; [now apply cU_ok|]. split; [reflexivity|]. split; [apply tbuild_wf|].
  assert (U : unitary n (op_of (op_tensor n (cs_op n cs)))) by (rewrite op_of_tensor; now apply cs_unitary).
  split; [exact U|]. intros. now apply unitary_inner.
Qed.
Lemma state_self : forall n s, shape s = repeat 2 n -> wf s -> s = tbuild (repeat 2 n) (amp s).
Proof. intros n s S W. apply state_eta. split; [exact S|]. split; [|reflexivity]. unfold wf in W. now rewrite W, S, prodn_repeat. Qed.
Lemma contract_inner : forall n cs s t, Forall (ci_ok n) cs -> forallb (ci_con n) cs = true ->
  shape s = repeat 2 n -> wf s -> shape t = repeat 2 n -> wf t ->
  exists c s' t', circuit_of n cs = Ok c /\ TN_contract_evolution c s false = Ok s' /\ TN_contract_evolution c t false = Ok t' /\
    inner n (amp s') (amp t') = inner n (amp s) (amp t).
Proof.
  intros n cs s t H HC S1 W1 S2 W2. assert (E1 : s = tbuild (repeat 2 n) (amp s)) by (now apply state_self).
  assert (E2 : t = tbuild (repeat 2 n) (amp t)) by (now apply state_self).
  exists (circ n cs), (tbuild (repeat 2 n) (act n (cs_op n cs) (amp s))), (tbuild (repeat 2 n) (act n (cs_op n cs) (amp t))). split; [now apply circuit_of_ok|].
  split; [rewrite E1 at 1; now apply contract_evolution_ok|]. split; [rewrite E2 at 1; now apply contract_evolution_ok|].
  rewrite <- (unitary_inner n (cs_op n cs) (amp s) (amp t)) by (now apply cs_unitary).
  assert (X : forall psi, st_eq n (amp (tbuild (repeat 2 n) psi)) psi) by (intros psi; apply (proj2 (state_eta n _ _) eq_refl)).
  apply inner_proper; apply X.
Qed.

(** * bookkeeping *)
Lemma dict_get_set_same : forall A (d : list (nat * A)) k v, dict_get (dict_set d k v) k = Ok v.
Proof. intros A d k v. induction d as [|[k' v'] d IH]; cbn; [now rewrite Nat.eqb_refl|]. destruct (k' =? k) eqn:E; cbn; [now rewrite Nat.eqb_refl|]. now rewrite E. Qed.
Lemma dict_get_set_other : forall A (d : list (nat * A)) k k' v, k <> k' -> dict_get (dict_set d k v) k' = dict_get d k'.
Proof.
  intros A d k k' v Hk. induction d as [|[i x] d IH]; cbn; [now rewrite (proj2 (Nat.eqb_neq k k') Hk)|].
  destruct (i =? k) eqn:E; cbn; [apply Nat.eqb_eq in E; subst i; now rewrite (proj2 (Nat.eqb_neq k k') Hk)|]. destruct (i =? k'); [reflexivity|exact IH].
Qed.
Lemma dict_set_new : forall A (d : list (nat * A)) k v, ~ In k (map fst d) -> dict_set d k v = d ++ [(k, v)].
Proof.
  intros A d k v. induction d as [|[i x] d IH]; cbn; intros H; [reflexivity|]. destruct (i =? k) eqn:E; [apply Nat.eqb_eq in E; tauto|]. rewrite IH; tauto.
Qed.
Lemma map_fst_combine : forall A (l : list nat) (m : list A), length l = length m -> map fst (combine l m) = l.
Proof. intros A l. induction l as [|x l IH]; intros [|y m] H; try discriminate; [reflexivity|]. cbn. f_equal. apply IH. now injection H. Qed.
Lemma combine_app' : forall A (l l' : list nat) (m m' : list A), length l = length m -> combine (l ++ l') (m ++ m') = combine l m ++ combine l' m'.
Proof. intros A l l'. induction l as [|x l IH]; intros [|y m] m' H; try discriminate; [reflexivity|]. cbn. f_equal. apply IH. now injection H. Qed.
Definition o_shown (o : oper) : option pval := if o_num_params o =? 0 then None else o_params o.
Lemma add_params : forall c o, c_params (add c o) = dict_set (c_params c) (length (c_gate c)) (o_shown o).
Proof. intros. unfold add, o_shown. rewrite app_length, Nat.add_sub. destruct (o_num_params o =? 0); reflexivity. Qed.
Lemma add_num : forall c o, c_num (add c o) = c_num c + o_num_params o.
Proof. intros. unfold add. destruct (o_num_params o =? 0) eqn:E; cbn [c_num]; lia. Qed.
Lemma adds_bookkeeping : forall n os, let c := fold_left add os (Circuit n) in
  c_num c = list_sum (map o_num_params os) /\ c_params c = combine (seq 0 (length os)) (map o_shown os).
Proof.
  intros n os. cbv zeta. induction os as [|o os IH] using rev_ind; [now split|]. rewrite fold_left_app. cbn [fold_left].
  destruct IH as [I1 I2]. rewrite add_num, add_params, I1, I2, adds_gate. cbn [c_gate Circuit app]. split.
  - rewrite map_app, list_sum_app. cbn. lia.
  - assert (L : length (seq 0 (length os)) = length (map o_shown os)) by (now rewrite seq_length, map_length).
    rewrite dict_set_new.
    + rewrite app_length, Nat.add_1_r, seq_S, map_app, combine_app' by exact L. reflexivity.
    + rewrite map_fst_combine by exact L. rewrite in_seq. lia.
Qed.
Lemma bookkeeping : forall n os c, c = fold_left add os (Circuit n) ->
  c_N c = n /\ c_gate c = os /\ c_num c = list_sum (map o_num_params os) /\ map fst (c_params c) = seq 0 (length os) /\
  forall k o, nth_error os k = Some o -> dict_get (c_params c) k = Ok (if o_num_params o =? 0 then None else o_params o).
Proof.
  intros n os c ->. pose proof (adds_bookkeeping n os) as [H1 H2]. cbv zeta in H1, H2. rewrite H1, H2, adds_N, adds_gate. cbn [Circuit c_N c_gate app].
  repeat (split; [reflexivity|]). split; [apply map_fst_combine; now rewrite seq_length, map_length|].
  intros k o Hk. fold (o_shown o). change k with (0 + k) at 1. clear - Hk. revert Hk. generalize 0 as b. revert k.
  induction os as [|x os IH]; intros k b Hk; [destruct k; discriminate|]. cbn [length seq map combine dict_get].
  destruct k as [|k]; cbn [nth_error] in Hk.
  - injection Hk as ->. now rewrite Nat.add_0_r, Nat.eqb_refl.
  - rewrite (proj2 (Nat.eqb_neq b (b + S k))) by lia. replace (b + S k) with (S b + k) by lia. now apply IH.
Qed.

Lemma o_angles : forall n c, ci_ok n c -> o_num_params (oobj n c) = length (ci_angles c) /\
  match o_shown (oobj n c) with None => ci_angles c = [] | Some p => ci_angles c <> [] /\ p = match c with CL _ | CG (gi_u3 _ _ _ _ | gi_cu3 _ _ _ _ _) => PV (ci_angles c) | _ => PS (hd 0%R (ci_angles c)) end end.
Proof.
  intros n [g|l] H.
  - destruct g; cbn; (split; [reflexivity|]); try reflexivity; (split; [discriminate|reflexivity]).
  - destruct l as [k ws ps|ws|ws|ws|ws|rep ws ps]; cbn; (split; [reflexivity|]); try reflexivity; unfold o_shown; cbn; destruct ps; cbn; [reflexivity| |reflexivity|]; (split; [discriminate|reflexivity]).
Qed.
Lemma bookkeeping_values : forall n cs, Forall (ci_ok n) cs ->
  exists c, circuit_of n cs = Ok c /\ c_num c = length (cs_angles cs) /\ length (c_params c) = length cs /\
    forall k x, nth_error cs k = Some x -> exists v, dict_get (c_params c) k = Ok v /\
      match v with None => ci_angles x = [] | Some (PS t) => ci_angles x = [t] | Some (PV l) => ci_angles x = l /\ l <> [] end.
Proof.
  intros n cs H. exists (circ n cs). split; [now apply circuit_of_ok|].
  destruct (bookkeeping n (map (oobj n) cs) (circ n cs) eq_refl) as (_ & _ & H1 & H2 & H3). rewrite H1. split; [|split].
  - clear H1 H2 H3. unfold cs_angles. induction H as [|c cs Hc H IH]; [reflexivity|]. cbn [map list_sum flat_map fold_right]. rewrite app_length.
    unfold list_sum in IH. cbn [list_sum fold_right]. rewrite IH. f_equal. now apply o_angles.
  - rewrite <- (map_length fst), H2, seq_length, map_length. reflexivity.
  - intros k x Hk. exists (o_shown (oobj n x)). split.
    + apply H3. now rewrite nth_error_map, Hk.
    + assert (Hx : ci_ok n x) by (rewrite Forall_forall in H; eapply H, nth_error_In; eauto).
      destruct (o_angles n x Hx) as [_ O]. destruct (o_shown (oobj n x)) as [p|]; [|exact O]. destruct O as [O1 O2].
      destruct x as [[]|l]; subst p; cbn in *; try (exfalso; now apply O1); try (split; [reflexivity|assumption]); reflexivity.
Qed.

(** * clear *)
Lemma clear_reuse : forall c os d e, d = fold_left add os (clear c) -> e = fold_left add os (Circuit (c_N c)) ->
  (forall b, cU d b = cU e b) /\ (forall s b, TN_contract_evolution d s b = TN_contract_evolution e s b) /\
  (forall svd m, TN_evolution svd d m = TN_evolution svd e m) /\ TN_check d = TN_check e /\
  (forall svd psi m b, cir_expectation svd d psi m b = cir_expectation svd e psi m b) /\ state_init d = state_init e.
Proof.
  intros c os d e -> ->.
  assert (N : c_N (fold_left add os (clear c)) = c_N (fold_left add os (Circuit (c_N c)))) by (now rewrite !adds_N).
  assert (G : c_gate (fold_left add os (clear c)) = c_gate (fold_left add os (Circuit (c_N c)))) by (now rewrite !adds_gate).
  unfold cir_expectation, TN_evolution, TN_contract_evolution, TN_check, state_init, cU. now rewrite N, G.
Qed.
Lemma clear_empty : forall c b, exists u, cU (clear c) b = Ok u /\ is_op (c_N c) u id_op.
Proof. intros c b. destruct (clear_reuse c [] (clear c) (Circuit (c_N c)) eq_refl eq_refl) as [H _]. rewrite H. apply empty_matrix. Qed.
Lemma clear_bookkeeping : forall n cs, Forall (ci_ok n) cs -> cs_angles cs <> [] ->
  exists c, circuit_of n cs = Ok c /\ c_num (clear c) <> c_num (Circuit n) /\ c_params (clear c) <> c_params (Circuit n).
Proof.
  intros n cs H A. destruct (bookkeeping_values n cs H) as (c & E & N & L & _). exists c. split; [exact E|]. cbn [clear Circuit c_num c_params]. split.
  - rewrite N. destruct (cs_angles cs); [congruence|discriminate].
  - intros X. rewrite X in L. destruct cs; [now apply A|discriminate].
Qed.

(** * TN_check *)
Lemma TN_check_sound : forall svd n cs, exact_svd svd -> Forall (ci_ok n) cs -> forallb (ci_TN n) cs = true ->
  exists c, circuit_of n cs = Ok c /\ TN_check c = true /\
    (forall l psi, is_mps n l psi -> nonzero n psi -> exists l', TN_evolution svd c l = Ok l') /\
    (forall s, shape s = repeat 2 n -> wf s -> exists s', TN_contract_evolution c s false = Ok s').
Proof.
  intros svd n cs Hs H HT. exists (circ n cs). split; [now apply circuit_of_ok|]. split.
  - rewrite TN_check_circ, forallb_forall. intros c Hc. rewrite forallb_forall in HT. now apply ci_con_support, ci_TN_con, HT.
  - split.
    + intros l psi HM HZ. destruct (evolution_ok svd n cs l psi Hs H HT HM HZ) as (l' & E & _). eauto.
    + intros s S W. rewrite (state_self n s S W). rewrite contract_evolution_ok by (auto; now apply forall_TN_con). eauto.
Qed.
Lemma unsupported_fails : forall A (f : oper -> A -> res A) (os : list oper) (e : exn) (m m' : A), forallb o_supportTN os = false ->
  mfold (fun m o => if o_supportTN o then f o m else Err e) os m <> Ok m'.
Proof.
  intros A f os e m m'. revert m. induction os as [|o os IH]; intros m H; [discriminate|]. cbn [forallb mfold] in *. destruct (o_supportTN o).
  - destruct (f o m) as [m1|e1]; cbn [bind]; [now apply IH|discriminate].
  - discriminate.
Qed.
Lemma TN_check_false : forall svd c, TN_check c = false ->
  (forall m m', TN_evolution svd c m <> Ok m') /\ (forall s b s', TN_contract_evolution c s b <> Ok s').
Proof.
  intros svd c H. unfold TN_check in H. split.
  - intros m m'. unfold TN_evolution. destruct negb; [discriminate|]. cbn [raise_if]. now apply (unsupported_fails _ (o_TN_operation svd)).
  - intros s b s'. unfold TN_contract_evolution. destruct negb; [discriminate|]. cbn [raise_if]. now apply (unsupported_fails _ (fun o m => o_TN_contract o m b)).
Qed.
Lemma support_matrix_only : forall n c, o_supportTN (oobj n c) = negb (matrix_only c).
Proof. intros n [g|l]; [now destruct g|now destruct l]. Qed.
Lemma TN_check_value : forall n cs, Forall (ci_ok n) cs -> exists c, circuit_of n cs = Ok c /\ TN_check c = negb (existsb matrix_only cs).
Proof.
  intros n cs H. exists (circ n cs). split; [now apply circuit_of_ok|]. rewrite TN_check_circ. clear H. induction cs as [|x cs IH]; [reflexivity|].
  cbn [forallb existsb]. now rewrite IH, support_matrix_only, negb_orb.
Qed.
Lemma unsupported_value_error : forall svd n cs1 x cs2, exact_svd svd -> Forall (ci_ok n) (cs1 ++ x :: cs2) -> forallb (ci_TN n) cs1 = true ->
  matrix_only x = true ->
  exists c, circuit_of n (cs1 ++ x :: cs2) = Ok c /\ TN_check c = false /\
    (forall l psi, is_mps n l psi -> nonzero n psi -> TN_evolution svd c l = Err ValueError) /\
    (forall s, shape s = repeat 2 n -> wf s -> TN_contract_evolution c s false = Err ValueError).
Proof.
  intros svd n cs1 x cs2 Hs H HT HX. assert (So : o_supportTN (oobj n x) = false) by (now rewrite support_matrix_only, HX). exists (circ n (cs1 ++ x :: cs2)). split; [now apply circuit_of_ok|].
  apply Forall_app in H. destruct H as [H1 H2]. inversion H2 as [|? ? Hx H3]; subst. split; [|split].
  - rewrite TN_check_circ, forallb_app. cbn [forallb]. rewrite So. now rewrite andb_false_r.
  - intros l psi HM HZ. destruct (evolution_ok svd n cs1 l psi Hs H1 HT HM HZ) as (l' & E & _). unfold TN_evolution in *. rewrite circ_gate, circ_N in *.
    destruct negb; [discriminate|]. cbn [raise_if] in *. rewrite map_app, mfold_app, E. cbn [bind map mfold]. rewrite So. reflexivity.
  - intros s S W. rewrite (state_self n s S W).
    pose proof (contract_evolution_ok n cs1 (amp s) H1 (forall_TN_con _ _ HT)) as E. unfold TN_contract_evolution in *. rewrite circ_gate, circ_N in *.
    destruct negb; [discriminate|]. cbn [raise_if] in *. rewrite map_app, mfold_app, E. cbn [bind map mfold]. rewrite So. reflexivity.
Qed.
Lemma rxx_passes_check : forall svd n t a b g, In g [gi_rxx t a b; gi_ryy t a b; gi_rzz t a b] ->
  exists c, circuit_of n [CG g] = Ok c /\ TN_check c = true /\ forall l, length l = n -> TN_evolution svd c l = Err AttributeError.
Proof.
  intros svd n t a b g Hg. eexists. split; [unfold circuit_of; cbn [mfold]; unfold method, obuild; rewrite build_ok; reflexivity|].
  cbn in Hg. destruct Hg as [<-|[<-|[<-|[]]]]; (split; [reflexivity|]); intros l Hl; unfold TN_evolution; cbn [c_N add Circuit o_num_params oobj]; rewrite <- Hl; cbn; now rewrite Nat.eqb_refl.
Qed.
Lemma ring_passes_check : forall svd n ws, good_wires n ws -> 2 <= length ws -> ws <> seq 0 n ->
  exists c, circuit_of n [CL (li_ring ws)] = Ok c /\ TN_check c = true /\ (forall l, length l = n -> TN_evolution svd c l = Err ValueError) /\
    (forall s, shape s = repeat 2 n -> TN_contract_evolution c s false = Err ValueError).
Proof.
  intros svd n ws Hw L Hn. assert (Hc : ci_ok n (CL (li_ring ws))) by (split; auto).
  exists (circ n [CL (li_ring ws)]). split; [apply circuit_of_ok; auto|]. split; [reflexivity|].
  assert (R := fun s m => ring_TN_rejects svd n ws (lobj n (li_ring ws)) s m Hw L Hn (or_introl (lbuild_ok n (li_ring ws) Hc))). split.
  - intros l Hl. unfold TN_evolution. rewrite circ_gate, circ_N, Hl, Nat.eqb_refl. cbn [negb raise_if map mfold oobj o_supportTN lobj layer_supportTN o_TN_operation].
    destruct (R (eye 1) l) as (_ & _ & E). cbn [lobj] in E. now rewrite E.
  - intros s S. unfold TN_contract_evolution. rewrite circ_gate, circ_N, S, repeat_length, Nat.eqb_refl. cbn [negb raise_if map mfold oobj o_supportTN lobj layer_supportTN o_TN_contract].
    destruct (R s []) as (_ & E & _). cbn [lobj] in E. now rewrite E.
Qed.

(** * expectation *)
Lemma expectation_value : forall svd n cs t psi m M TN, exact_svd svd -> 0 < n -> Forall (ci_ok n) cs ->
  is_state n [1; 2 ^ n] t psi -> is_op n m M ->
  (TN = true -> nonzero n psi /\ forallb (ci_TN n) cs = true) ->
  exists c, circuit_of n cs = Ok c /\ cir_expectation svd c t m TN = Ok (expect n cs psi M).
Proof.
  intros svd n cs t psi m M TN Hs Hn H Ht Hm HT. exists (circ n cs). split; [now apply circuit_of_ok|]. apply expectation_ok; auto.
  - unfold exp_ok. destruct TN; [|reflexivity]. destruct (HT eq_refl) as [_ T]. rewrite T. now rewrite orb_true_r.
  - intros X. now apply HT.
Qed.
(** a circuit with an operation that announces no support: TN=True is ignored *)
Lemma expectation_fallback : forall svd c t m, TN_check c = false -> cir_expectation svd c t m true = cir_expectation svd c t m false.
Proof. intros svd c t m H. unfold cir_expectation. rewrite H. reflexivity. Qed.
Lemma expectation_bad_state : forall svd c t m TN a b r, shape t = a :: b :: r -> (a <> 1 \/ b <> 2 ^ c_N c) -> cir_expectation svd c t m TN = Err ValueError.
Proof.
  intros svd c t m TN a b r S H. unfold cir_expectation, shape_at. rewrite S. cbn [nth_error bind]. destruct (a =? 1) eqn:E; [|reflexivity]. cbn [negb raise_if].
  apply Nat.eqb_eq in E. destruct H as [H|H]; [congruence|]. apply Nat.eqb_neq in H. now rewrite H.
Qed.
Lemma expectation_bad_op : forall svd c t m TN a b r, shape t = [1; 2 ^ c_N c] -> shape m = a :: b :: r -> a <> b -> cir_expectation svd c t m TN = Err ValueError.
Proof.
  intros svd c t m TN a b r S S' H. unfold cir_expectation, shape_at. rewrite S, S'. cbn [nth_error bind]. rewrite !Nat.eqb_refl. cbn [negb raise_if].
  apply Nat.eqb_neq in H. now rewrite H.
Qed.
Lemma quad_form_wrong : forall n s t psi m k, is_state n s t psi -> wf t -> shape m = [k; k] -> k <> 2 ^ n -> quad_form t m = Err TorchError.
Proof.
  intros n s t psi m k H W S K. unfold quad_form. rewrite (view_row n s t psi H W), (view_col n s t psi H W). cbn [bind].
  unfold matmul at 1. rewrite S. cbn [row tconj tmap tbuild shape rev app]. destruct (2 ^ n =? k) eqn:E; [apply Nat.eqb_eq in E; congruence|reflexivity].
Qed.
Lemma expectation_wrong_size : forall svd n cs t psi m k TN, exact_svd svd -> 0 < n -> Forall (ci_ok n) cs ->
  is_state n [1; 2 ^ n] t psi -> shape m = [k; k] -> k <> 2 ^ n ->
  (TN = true -> nonzero n psi /\ forallb (ci_TN n) cs = true) ->
  exists c, circuit_of n cs = Ok c /\ cir_expectation svd c t m TN = Err TorchError.
Proof.
  intros svd n cs t psi m k TN Hs Hn H Ht Sm K HT. exists (circ n cs). split; [now apply circuit_of_ok|].
  assert (W : wf t) by (unfold wf; destruct Ht as (S & L & _); rewrite S; cbn [prodn]; lia).
  unfold cir_expectation. destruct (Ht) as (S & _ & _). unfold shape_at. rewrite S, Sm, circ_N. cbn [nth_error bind].
  rewrite !Nat.eqb_refl. cbn [negb raise_if]. destruct (TN_check (circ n cs) && TN) eqn:T.
  - apply andb_true_iff in T. destruct T as [_ ->]. destruct (HT eq_refl) as [HZ T].
    rewrite (view_row n _ t psi Ht W). cbn [bind]. pose proof (row_state n psi) as R.
    destruct (round_trip svd n (row n psi) psi Hs Hn R HZ) as (l & t' & E1 & M1 & _). rewrite E1. cbn [bind].
    destruct (evolution_ok svd n cs l psi Hs H T M1 HZ) as (l' & E2 & M2). rewrite E2. cbn [bind].
    destruct (mps_amplitudes n l' _ Hn M2) as (v & v' & E3 & Sv & _). rewrite E3. cbn [bind].
    apply (quad_form_wrong n [1; 2 ^ n] v _ m k Sv); auto. apply state_row in Sv. subst v. apply tbuild_wf.
  - rewrite cU_ok by auto. cbn [bind]. rewrite (view_col n _ t psi Ht W). cbn [bind]. rewrite op_col. cbn [bind].
    apply (quad_form_wrong n [2 ^ n; 1] _ _ m k (col_state n _)); auto. apply col_wf.
Qed.
(** rxx, ryy, rzz: the default TN=True raises where TN=False works *)
Lemma expectation_rxx : forall svd n t a b psi v m M g, exact_svd svd -> In g [gi_rxx t a b; gi_ryy t a b; gi_rzz t a b] -> gi_ok n g ->
  is_state n [1; 2 ^ n] v psi -> nonzero n psi -> is_op n m M ->
  exists c, circuit_of n [CG g] = Ok c /\ cir_expectation svd c v m true = Err AttributeError /\
    cir_expectation svd c v m false = Ok (expect n [CG g] psi M).
Proof.
  intros svd n t a b psi v m M g Hs Hg Ok Hv HZ Hm.
  assert (Hn : 0 < n). { destruct Ok as [[_ G] _]. assert (W : a < n) by (apply G; cbn in Hg; destruct Hg as [<-|[<-|[<-|[]]]]; left; reflexivity). lia. }
  destruct (rxx_passes_check svd n t a b g Hg) as (c & E & T & A). exists c. split; [exact E|].
  assert (Ec : c = circ n [CG g]). { rewrite circuit_of_ok in E by (constructor; auto). now injection E. }
  split.
  - destruct (is_op_eq n m M) as [X _]. specialize (X Hm). subst m.
    assert (W : wf v) by (unfold wf; destruct Hv as (S & L & _); rewrite S; cbn [prodn]; lia).
    unfold cir_expectation. destruct (Hv) as (S & _ & _). unfold shape_at. rewrite S. assert (c_N c = n) as -> by (subst c; apply circ_N). cbn [nth_error bind].
    rewrite !Nat.eqb_refl. cbn [negb raise_if op_tensor tbuild shape nth_error bind]. rewrite Nat.eqb_refl. cbn [negb raise_if]. rewrite T. cbn [andb].
    rewrite (view_row n _ v psi Hv W). cbn [bind]. pose proof (row_state n psi) as R.
    destruct (round_trip svd n (row n psi) psi Hs Hn R HZ) as (l & t' & E1 & M1 & _). rewrite E1. cbn [bind]. rewrite A by apply M1. reflexivity.
  - subst c. destruct (expectation_value svd n [CG g] v psi m M false Hs Hn) as (c & E' & F); auto; [discriminate|]. rewrite E in E'. injection E' as <-. exact F.
Qed.

(** * state_init *)
Lemma bval_zero : forall n b, In b (bits n) -> bval b = 0 <-> b = repeat 0 n.
Proof.
  induction n as [|n IH]; intros b Hb.
  - cbn in Hb. destruct Hb as [<-|[]]. split; reflexivity.
  - pose proof (bits_length _ _ Hb) as L. destruct b as [|x b]; [discriminate|]. assert (Hb' : x < 2 /\ In b (bits n)) by (now apply bits_cons).
    injection L as L. rewrite bval_cons, L. cbn [repeat]. destruct Hb' as [H2 H1]. specialize (IH b H1). pose proof (pow2_pos n).
    split; [intros E; assert (x = 0) by nia; subst x; f_equal; apply IH; lia|]. intros E. injection E as -> E. apply IH in E. lia.
Qed.
Lemma state_init_ok : forall c, is_state (c_N c) [2 ^ c_N c] (state_init c) (zero_state (c_N c)) /\
  inner (c_N c) (zero_state (c_N c)) (zero_state (c_N c)) = RtoC 1.
Proof.
  intros c. set (n := c_N c). split.
  - split; [reflexivity|]. split; [unfold state_init; fold n; rewrite (tbuild_wf [2 ^ n]), tbuild_shape; cbn [prodn fold_right]; lia|]. intros b Hb. unfold amp, zero_state, state_init. fold n.
    pose proof (tget_tbuild [2 ^ n] (fun idx => if nth 0 idx 0 =? 0 then cR 1 else cR 0) [bval b]) as X.
    unfold tget in X. rewrite tbuild_shape in X. replace (flat [2 ^ n] [bval b]) with (bval b) in X by (cbn [flat prodn]; lia).
    rewrite X by (constructor; [now apply bval_lt|constructor]). cbn [nth]. pose proof (bval_zero n b Hb) as Z.
    destruct list_eq_dec as [e|ne]; [apply Z in e; now rewrite e|]. destruct (bval b =? 0) eqn:B; [apply Nat.eqb_eq in B; tauto|reflexivity].
  - unfold inner. rewrite (bigsum_single _ (bits n) (repeat 0 n)).
    + unfold zero_state. destruct list_eq_dec; [|congruence]. ceq; ring.
    + apply bits_NoDup.
    + apply in_bits. split; [apply repeat_length|]. intros i Hi. rewrite nth_repeat. lia.
    + intros b Hb Hn. unfold zero_state. destruct list_eq_dec; [congruence|]. ceq; ring.
Qed.

(** * further forms *)
Lemma contraction_product : forall n cs s, Forall (ci_ok n) cs -> forallb (ci_con n) cs = true -> shape s = repeat 2 n -> wf s ->
  exists c s', circuit_of n cs = Ok c /\ TN_contract_evolution c s false = Ok s' /\ is_state n (repeat 2 n) s' (act n (cs_op n cs) (amp s)).
Proof.
  intros n cs s H HC S W. exists (circ n cs), (tbuild (repeat 2 n) (act n (cs_op n cs) (amp s))). split; [now apply circuit_of_ok|].
  split; [rewrite (state_self n s S W) at 1; now apply contract_evolution_ok|now apply state_eta].
Qed.
Lemma mps_product : forall svd n cs l psi, exact_svd svd -> Forall (ci_ok n) cs -> forallb (ci_TN n) cs = true ->
  is_mps n l psi -> nonzero n psi ->
  exists c l', circuit_of n cs = Ok c /\ TN_evolution svd c l = Ok l' /\ is_mps n l' (act n (cs_op n cs) psi).
Proof. intros svd n cs l psi Hs H HT HM HZ. destruct (evolution_ok svd n cs l psi Hs H HT HM HZ) as (l' & E & M). exists (circ n cs), l'. split; [now apply circuit_of_ok|auto]. Qed.
Lemma circuit_shape : forall svd n cs c l l', svd_shapes svd -> Forall (ci_ok n) cs -> circuit_of n cs = Ok c ->
  mps_shape n l -> TN_evolution svd c l = Ok l' -> mps_shape n l'.
Proof. intros svd n cs c l l' Hs H E. rewrite circuit_of_ok in E by auto. injection E as <-. now apply evolution_shape. Qed.
Lemma mps_inner : forall svd n cs l m f g, exact_svd svd -> Forall (ci_ok n) cs -> forallb (ci_TN n) cs = true ->
  is_mps n l f -> nonzero n f -> is_mps n m g -> nonzero n g ->
  exists c l' m' f' g', circuit_of n cs = Ok c /\ TN_evolution svd c l = Ok l' /\ is_mps n l' f' /\ TN_evolution svd c m = Ok m' /\ is_mps n m' g' /\
    inner n f' g' = inner n f g.
Proof.
  intros svd n cs l m f g Hs H HT M1 Z1 M2 Z2. destruct (evolution_ok svd n cs l f Hs H HT M1 Z1) as (l' & E1 & L1).
  destruct (evolution_ok svd n cs m g Hs H HT M2 Z2) as (m' & E2 & L2). eexists (circ n cs), l', m', _, _. split; [now apply circuit_of_ok|].
  split; [exact E1|]. split; [exact L1|]. split; [exact E2|]. split; [exact L2|]. apply unitary_inner. now apply cs_unitary.
Qed.
Lemma circuit_batch : forall B n cs t, Forall (ci_ok n) cs -> forallb (ci_con n) cs = true -> shape t = B :: repeat 2 n -> wf t ->
  exists c t', circuit_of n cs = Ok c /\ TN_contract_evolution c t true = Ok t' /\ shape t' = B :: repeat 2 n /\ wf t' /\
    forall i u, i < B -> sample n i t u -> exists u', TN_contract_evolution c u false = Ok u' /\ sample n i t' u'.
Proof.
  intros B n cs t H HC S W. assert (E : t = tbuild (B :: repeat 2 n) (tget t)) by (rewrite <- S; now apply tensor_eta).
  exists (circ n cs), (tbuild (B :: repeat 2 n) (batched (act n (cs_op n cs)) (tget t))). split; [now apply circuit_of_ok|].
  split; [rewrite E at 1; now apply contract_evolution_batch_ok|]. split; [reflexivity|]. split; [apply tbuild_wf|].
  intros i u Hi Hu. unfold sample in *. apply state_eta in Hu. subst u. eexists. split; [now apply contract_evolution_ok|].
  apply state_eta. apply tbuild_ext. intros b Hb. rewrite tget_tbuild by (constructor; auto). unfold batched. reflexivity.
Qed.
