(** Lemmas: the error of parameter-shift gradients computed from truncated matrix product states, and gradients that use no decomposition. *)
From Coq Require Import List ZArith QArith Reals Lra Lia Bool Arith.
From Verif Require Import PyBase Scalar CInst BigSum Index Tensor Spec SpecFacts GateSpec RunSpec LayerSpec MPSSpec CircuitSpec GradSpec MeasSpec TruncSpec TruncRunSpec
  QMath QTN QOperator QGates GateCalls QLayers LayerCalls GateFacts2 GateFacts4 LayerFacts4 StateFacts QCircuit QGradient CircuitFacts1 CircuitProofs GradFacts1 GradFacts2 GradFacts3 GradProofs GradCases GradRunV TruncRun10.
Import ListNotations.
Local Close Scope Q_scope.
Local Close Scope R_scope.
Local Open Scope nat_scope.

(** ** the angles do not change the number of moves *)
Lemma moves_app : forall a b, moves (a ++ b) = moves a + moves b.
Proof. intros. unfold moves. now rewrite map_app, list_sum_app. Qed.
Lemma rot_moves : forall axes ws ps, moves (rot_gates axes ws ps) = 0.
Proof.
  intros axes. induction ws as [|w ws IH]; intros ps; [reflexivity|]. cbn [rot_gates]. rewrite moves_app, IH, Nat.add_0_r.
  induction (combine axes ps) as [|[a p] l IHl]; [reflexivity|]. cbn [map]. unfold moves in *. cbn [map list_sum fold_right]. fold (list_sum (map (fun g => 2 * reach (gi_wires g) - 1) (map (fun ap => axis_gate (fst ap) (snd ap) w) l))).
  rewrite IHl, Nat.add_0_r. destruct a; cbn [fst snd axis_gate gi_wires]; unfold reach; cbn [fold_right hd]; lia.
Qed.
Lemma basic_moves : forall rep ws ps qs, moves (basic_gates rep ws ps) = moves (basic_gates rep ws qs).
Proof. induction rep as [|r IH]; intros ws ps qs; [reflexivity|]. cbn [basic_gates]. rewrite !moves_app, !rot_moves. f_equal. f_equal. apply IH. Qed.
Lemma with_moves : forall x u, moves (ci_gates (ci_with x u)) = moves (ci_gates x).
Proof.
  intros [g|l] u.
  - destruct g; cbn [ci_with gi_with]; try reflexivity; destruct u as [|? [|? [|? [|]]]]; reflexivity.
  - destruct l; cbn [ci_with li_set ci_gates li_gates]; try reflexivity; [now rewrite !rot_moves|apply basic_moves].
Qed.
Lemma ci_moves_with : forall pre post x0 u v, ci_moves (pre ++ ci_with x0 u :: post) = ci_moves (pre ++ ci_with x0 v :: post).
Proof. intros. unfold ci_moves. rewrite !flat_map_app. cbn [flat_map]. now rewrite !moves_app, !with_moves. Qed.

(** ** the gradient in terms of the values returned *)
Lemma v_run : forall svd n t m V (can : list ci -> Prop),
  (forall pre post x0 u v, can (pre ++ ci_with x0 u :: post) -> can (pre ++ ci_with x0 v :: post)) ->
  (forall cs ps k, Forall (ci_ok n) cs -> can cs -> cir_expectation svd (cobj n cs ps k) t m true = Ok (V cs)) ->
  forall cs, Forall (ci_ok n) cs -> can cs ->
  exists c g, circuit_of n cs = Ok c /\ cal_params_grad svd t m c = Ok (g, c) /\ length g = length (cs_angles cs) /\
    forall k, k < length (cs_angles cs) ->
      exists A B, A = cs_with cs (set_at k (nth k (cs_angles cs) 0 + / 2 * PI)%R (cs_angles cs)) /\ B = cs_with cs (set_at k (nth k (cs_angles cs) 0 - / 2 * PI)%R (cs_angles cs)) /\
        Forall (ci_ok n) A /\ Forall (ci_ok n) B /\ can A /\ can B /\ nth k g 0%R = (/ 2 * (V A - V B))%R.
Proof.
  intros svd n t m V can CW HV cs H HC. exists (circ n cs), (v_all_grad V [] cs cs). split; [now apply circuit_of_ok|]. split; [|split].
  - rewrite (circ_cobj n cs), (v_grad_run svd n t m V can CW HV cs) by (auto using form_all, circ_recorded). rewrite circ_num, Nat.eqb_refl by auto. reflexivity.
  - apply v_all_grad_length, form_all.
  - intros k Hk. eexists _, _. split; [reflexivity|]. split; [reflexivity|].
    destruct (cs_split cs k Hk) as (cs1 & x & cs2 & i & E1 & E2 & E3 & E4). rewrite !E4. clear E4. subst cs k.
    rewrite v_all_grad_nth by assumption. cbn [app]. rewrite cs_angles_app. cbn [cs_angles flat_map]. fold (cs_angles cs2). rewrite app_nth2 by lia.
    replace (length (cs_angles cs1) + i - length (cs_angles cs1)) with i by lia. rewrite app_nth1 by exact E3.
    assert (L : forall y, length (set_at i y (ci_angles x)) = length (ci_angles x)) by (intros y; now apply set_at_length).
    rewrite <- (ci_with_self x) in H at 1. rewrite <- (ci_with_self x) in HC at 1.
    split; [eapply v_ok_with; eauto|]. split; [eapply v_ok_with; eauto|]. split; [eapply CW; eauto|]. split; [eapply CW; eauto|].
    unfold v_local_grad. rewrite nth_map_seq0 by exact E3. reflexivity.
Qed.
Lemma cobj_same : forall svd n cs ps k t m TN, cir_expectation svd (cobj n cs ps k) t m TN = cir_expectation svd (circ n cs) t m TN.
Proof. intros. unfold cir_expectation, TN_evolution, TN_check, cU, cobj. cbn [c_N c_gate]. now rewrite circ_N, circ_gate. Qed.

Section True.
  Variables (svd : @tensor C_scalar -> @tensor C_scalar * @tensor C_scalar * @tensor C_scalar) (n : nat) (t : @tensor C_scalar) (psi : @qstate C_scalar) (m : @tensor C_scalar) (M : @qop C_scalar) (B : R).
  Hypotheses (HT : true_svd svd) (Hn : 0 < n) (Ht : is_state n [1; 2 ^ n] t psi) (HN : norm2 n psi = 1%R) (HC : (INR (cut_count n (n - 1)) <= 10 ^ 14)%R)
    (Hm : is_op n m M) (HB : (0 <= B)%R) (HM : forall h, (norm2 n (act n M h) <= B * B * norm2 n h)%R).
  Lemma shift_true : forall cs, Forall (ci_ok n) cs -> forallb (ci_TN n) cs = true -> (INR (ci_moves cs) <= 2 * 10 ^ 6)%R ->
    exists c g, circuit_of n cs = Ok c /\ cal_params_grad svd t m c = Ok (g, c) /\ length g = length (cs_angles cs) /\
      forall k, k < length (cs_angles cs) -> let E y := expect n (cs_with cs (set_at k y (cs_angles cs))) psi M in
        let e := ((sqrt (INR (cut_count n (n - 1))) + 8 * INR (ci_moves cs)) * / 10 ^ 8)%R in
        (Rabs (nth k g 0 - / 2 * (E (nth k (cs_angles cs) 0 + / 2 * PI) - E (nth k (cs_angles cs) 0 - / 2 * PI))) <= B * (e * (2 + e)))%R.
  Proof.
    intros cs HF HG HW.
    set (V := fun cs => match cir_expectation svd (circ n cs) t m true with Ok v => v | Err _ => 0%R end).
    set (can := fun cs' => forallb (ci_TN n) cs' = true /\ ci_moves cs' = ci_moves cs).
    set (e := ((sqrt (INR (cut_count n (n - 1))) + 8 * INR (ci_moves cs)) * / 10 ^ 8)%R).
    assert (X : forall cs', Forall (ci_ok n) cs' -> can cs' -> cir_expectation svd (circ n cs') t m true = Ok (V cs') /\ (Rabs (V cs' - expect n cs' psi M) <= B * (e * (2 + e)))%R).
    { intros cs' F [G W]. destruct (expectation_true svd n cs' t psi m M B HT Hn F G Ht HN HC) as (c & v & E0 & E1 & D); auto; [rewrite W; exact HW|].
      rewrite circuit_of_ok in E0 by auto. injection E0 as <-. unfold V. rewrite E1. split; [reflexivity|]. cbv zeta in D. rewrite W in D. exact D. }
    destruct (v_run svd n t m V can) with (cs := cs) as (c & g & E0 & E1 & L & K); auto.
    - intros pre post x0 u v [G W]. split; [|now rewrite <- W; apply ci_moves_with]. rewrite forallb_app in *. cbn [forallb] in *. now rewrite ci_with_TN in *.
    - intros cs' ps k F C. rewrite cobj_same. now apply X.
    - now split.
    - exists c, g. split; [exact E0|]. split; [exact E1|]. split; [exact L|]. intros k Hk. cbv zeta. fold e.
      destruct (K k Hk) as (P & Q & -> & -> & F1 & F2 & C1 & C2 & ->).
      destruct (X _ F1 C1) as [_ D1]. destruct (X _ F2 C2) as [_ D2].
      revert D1 D2. generalize (cs_with cs (set_at k (nth k (cs_angles cs) 0 + / 2 * PI)%R (cs_angles cs))), (cs_with cs (set_at k (nth k (cs_angles cs) 0 - / 2 * PI)%R (cs_angles cs))).
      intros P Q. generalize (V P), (V Q), (expect n P psi M), (expect n Q psi M), (B * (e * (2 + e)))%R. intros a b c' d' z D1 D2.
      unfold Rabs in *. repeat destruct Rcase_abs; lra.
  Qed.
  Lemma gradient_true : forall cs, Forall (ci_ok n) cs -> forallb (ci_TN n) cs = true -> forallb two_term cs = true -> (INR (ci_moves cs) <= 2 * 10 ^ 6)%R ->
    exists c g d, circuit_of n cs = Ok c /\ cal_params_grad svd t m c = Ok (g, c) /\ is_gradient n cs psi M d /\ length g = length d /\
      let e := ((sqrt (INR (cut_count n (n - 1))) + 8 * INR (ci_moves cs)) * / 10 ^ 8)%R in
      forall k, k < length d -> (Rabs (nth k g 0 - nth k d 0) <= B * (e * (2 + e)))%R.
  Proof.
    intros cs HF HG H2 HW. destruct (shift_true cs HF HG HW) as (c & g & E0 & E1 & L & K). cbv zeta in K.
    set (f := fun k => (/ 2 * (expect n (cs_with cs (set_at k (nth k (cs_angles cs) 0 + / 2 * PI)%R (cs_angles cs))) psi M - expect n (cs_with cs (set_at k (nth k (cs_angles cs) 0 - / 2 * PI)%R (cs_angles cs))) psi M))%R).
    exists c, g, (map f (seq 0 (length (cs_angles cs)))).
    assert (Lf : length (map f (seq 0 (length (cs_angles cs)))) = length (cs_angles cs)) by (now rewrite map_length, seq_length).
    split; [exact E0|]. split; [exact E1|]. split; [split; [exact Lf|]|].
    - intros k Hk. rewrite nth_map_seq0 by exact Hk. unfold f. clear K f Lf.
      destruct (cs_split cs k Hk) as (cs1 & x & cs2 & i & F1 & F2 & F3 & F4).
      apply (ext_lim _ (fun y => expect n (cs1 ++ ci_with x (set_at i y (ci_angles x)) :: cs2) psi M)); [intros y; now rewrite F4|]. rewrite !F4. clear F4. subst cs k.
      rewrite cs_angles_app. cbn [cs_angles flat_map]. fold (cs_angles cs2). rewrite app_nth2 by lia.
      replace (length (cs_angles cs1) + i - length (cs_angles cs1)) with i by lia. rewrite app_nth1 by exact F3.
      apply (shift_derivative n cs1 cs2 x i psi M); auto.
      + apply Forall_app in HF. destruct HF as [_ H]. now inversion H.
      + apply two_term_cu3 in H2. rewrite forallb_app in H2. cbn [forallb] in H2. destruct (ci_cu3 x); [|reflexivity]. cbn in H2. rewrite andb_false_r in H2. discriminate.
    - split; [now rewrite Lf|]. cbv zeta. rewrite Lf. intros k Hk. rewrite nth_map_seq0 by exact Hk. apply K. exact Hk.
  Qed.
End True.

(** ** without matrix product states nothing is decomposed *)
Lemma expectation_matrix : forall svd n cs t psi m M, 0 < n -> Forall (ci_ok n) cs -> is_state n [1; 2 ^ n] t psi -> is_op n m M ->
  cir_expectation svd (circ n cs) t m false = Ok (expect n cs psi M).
Proof.
  intros svd n cs t psi m M Hn H Ht Hm. apply is_op_eq in Hm. subst m.
  assert (W : wf t) by (unfold wf; destruct Ht as (S & L & _); rewrite S; cbn [prodn]; lia).
  unfold cir_expectation. destruct (Ht) as (S & _ & _). unfold shape_at. rewrite S, circ_N. cbn [nth_error bind].
  change (1 =? 1) with true. rewrite Nat.eqb_refl. cbn [negb raise_if op_tensor tbuild shape nth_error bind]. rewrite Nat.eqb_refl. cbn [negb raise_if].
  fold (op_tensor n M). rewrite andb_false_r. rewrite cU_ok by auto. cbn [bind]. rewrite (view_col n _ t psi Ht W). cbn [bind]. rewrite op_col. cbn [bind].
  apply (quad_form_ok n [2 ^ n; 1]); [apply col_state|apply col_wf].
Qed.
Lemma expectation_any : forall svd n cs t psi m M TN, 0 < n -> Forall (ci_ok n) cs -> is_state n [1; 2 ^ n] t psi -> is_op n m M ->
  TN = false \/ existsb matrix_only cs = true ->
  exists c, circuit_of n cs = Ok c /\ cir_expectation svd c t m TN = Ok (expect n cs psi M).
Proof.
  intros svd n cs t psi m M TN Hn H Ht Hm HT. exists (circ n cs). split; [now apply circuit_of_ok|].
  assert (E := expectation_matrix svd n cs t psi m M Hn H Ht Hm). destruct HT as [->|HT]; [exact E|]. destruct TN; [|exact E].
  rewrite expectation_fallback; [exact E|]. rewrite TN_check_circ. destruct forallb eqn:F; [|reflexivity].
  apply existsb_exists in HT. destruct HT as (x & Hx & Sx). rewrite forallb_forall in F. specialize (F x Hx). cbv beta in F. rewrite support_matrix_only, Sx in F. discriminate.
Qed.
Lemma matrix_only_with : forall x u, matrix_only (ci_with x u) = matrix_only x.
Proof. intros [[]|[]] u; cbn; try reflexivity; destruct u as [|? [|? [|? [|]]]]; reflexivity. Qed.
Lemma shift_any : forall svd n cs t psi m M, 0 < n -> Forall (ci_ok n) cs -> existsb matrix_only cs = true -> is_state n [1; 2 ^ n] t psi -> is_op n m M ->
  exists c g, circuit_of n cs = Ok c /\ cal_params_grad svd t m c = Ok (g, c) /\ length g = length (cs_angles cs) /\
    forall k, k < length (cs_angles cs) -> let E y := expect n (cs_with cs (set_at k y (cs_angles cs))) psi M in
      nth k g 0%R = (/ 2 * (E (nth k (cs_angles cs) 0 + / 2 * PI) - E (nth k (cs_angles cs) 0 - / 2 * PI)))%R.
Proof.
  intros svd n cs t psi m M Hn H HX Ht Hm.
  destruct (v_run svd n t m (fun cs => expect n cs psi M) (fun cs => existsb matrix_only cs = true)) with (cs := cs) as (c & g & E0 & E1 & L & K); auto.
  - intros pre post x0 u v G. rewrite existsb_app in *. cbn [existsb] in *. now rewrite matrix_only_with in *.
  - intros cs' ps k F C. rewrite cobj_same. destruct (expectation_any svd n cs' t psi m M true Hn F Ht Hm (or_intror C)) as (c & E0 & E). rewrite circuit_of_ok in E0 by auto. injection E0 as <-. exact E.
  - exists c, g. split; [exact E0|]. split; [exact E1|]. split; [exact L|]. intros k Hk. cbv zeta.
    destruct (K k Hk) as (P & Q & -> & -> & _ & _ & _ & _ & ->). reflexivity.
Qed.
Lemma gradient_any : forall svd n cs t psi m M, 0 < n -> Forall (ci_ok n) cs -> forallb two_term cs = true -> existsb matrix_only cs = true -> is_state n [1; 2 ^ n] t psi -> is_op n m M ->
  exists c g, circuit_of n cs = Ok c /\ cal_params_grad svd t m c = Ok (g, c) /\ is_gradient n cs psi M g.
Proof.
  intros svd n cs t psi m M Hn H H2 HX Ht Hm. destruct (shift_any svd n cs t psi m M Hn H HX Ht Hm) as (c & g & E0 & E1 & L & K).
  exists c, g. split; [exact E0|]. split; [exact E1|]. split; [exact L|]. intros k Hk. cbv zeta in K. rewrite (K k Hk). clear K.
  destruct (cs_split cs k Hk) as (cs1 & x & cs2 & i & F1 & F2 & F3 & F4).
  apply (ext_lim _ (fun y => expect n (cs1 ++ ci_with x (set_at i y (ci_angles x)) :: cs2) psi M)); [intros y; now rewrite F4|]. rewrite !F4. clear F4. subst cs k.
  rewrite cs_angles_app. cbn [cs_angles flat_map]. fold (cs_angles cs2). rewrite app_nth2 by lia.
  replace (length (cs_angles cs1) + i - length (cs_angles cs1)) with i by lia. rewrite app_nth1 by exact F3.
  apply (shift_derivative n cs1 cs2 x i psi M); auto.
  + apply Forall_app in H. destruct H as [_ H]. now inversion H.
  + apply two_term_cu3 in H2. rewrite forallb_app in H2. cbn [forallb] in H2. destruct (ci_cu3 x); [|reflexivity]. cbn in H2. rewrite andb_false_r in H2. discriminate.
Qed.
