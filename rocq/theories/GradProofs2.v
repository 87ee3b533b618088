(** Proofs of the adjoint-gradient properties, and the counterexamples for the controlled rotation and the phases. *)
From Coq Require Import List ZArith QArith Reals Lra Lia ZifyBool Bool Arith Setoid Morphisms.
From Verif Require Import PyBase Scalar CInst BigSum Index Tensor TensorFacts Spec SpecFacts QMath QTN QOperator
  ExpandFacts ExpandFacts2 ContractFacts ContractFacts2 GateSpec QGates GateCalls GateFacts GateFacts2 GateFacts3 GateFacts4 GateFacts5 GateFacts6 GateProofs RunSpec
  MPSSpec MPSFacts1 MPSFacts2 MPSFacts4 MPSFacts5 MPSFacts6 MPSFacts8 MPSFacts9 LayerSpec QLayers LayerCalls LayerFacts1 LayerFacts2 LayerFacts3 LayerFacts4 LayerProofs
  CircuitSpec QCircuit StateFacts QGradient CircuitFacts1 CircuitProofs GradSpec GradFacts1 GradFacts2 GradFacts3 GradFacts4 GradProofs.
Import ListNotations.
Local Close Scope Q_scope.
Local Close Scope R_scope.
Local Open Scope nat_scope.

Lemma inner_conj_swap : forall n (f g : @qstate C_scalar), Re (inner n f g) = Re (inner n g f).
Proof.
  intros n f g. unfold inner. induction (bits n) as [|b l IH]; [reflexivity|]. cbn [bigsum fold_right map]. 
  change (Re (Cadd (Cmul (Cconj (f b)) (g b)) (bigsum (SC:=C_scalar) l (fun b => Cmul (Cconj (f b)) (g b)))) = Re (Cadd (Cmul (Cconj (g b)) (f b)) (bigsum (SC:=C_scalar) l (fun b => Cmul (Cconj (g b)) (f b))))).
  cbn [Cadd Re fst]. unfold Re in IH |- *. cbn [fst Cadd]. f_equal; [|exact IH]. cbn [Cmul Cconj Re Im fst snd]. ring.
Qed.
(** derivative of the expectation along a rotation, as one overlap *)
Lemma adjoint_rule : forall n F psi M x, rot_by n no_ph F -> hermitian n M ->
  let E t := Re (inner n (act n (F t) psi) (act n M (act n (F t) psi))) in
  (/ 2 * (E (x + / 2 * PI) - E (x - / 2 * PI)) = - Re (inner n (act n M (act n (F x) psi)) (act n (F (x - PI)) psi)))%R.
Proof.
  intros n F psi M x (A & B & HF) HM E. set (a := act n A psi). set (b := act n B psi).
  assert (S : forall t, st_eq n (act n (F t) psi) (scomb (no_ph t) (RtoC (cos (t / 2))) (RtoC (sin (t / 2))) a b)).
  { intros t. rewrite (HF t). apply act_comb. }
  assert (V : forall t, E t = (cos (t / 2) * cos (t / 2) * Re (inner n a (act n M a)) + sin (t / 2) * sin (t / 2) * Re (inner n b (act n M b))
    + cos (t / 2) * sin (t / 2) * (Re (inner n a (act n M b)) + Re (inner n b (act n M a))))%R).
  { intros t. unfold E. rewrite (S t), act_scomb, inner_scomb_l, !inner_scomb_r. unfold no_ph. cbn [C_scalar kconj kmul kadd].
    generalize (inner n a (act n M a)) (inner n b (act n M b)) (inner n a (act n M b)) (inner n b (act n M a)). intros u v w z.
    cbn [Cmul Cadd Cconj RtoC Re Im fst snd]. unfold Re. ring. }
  assert (HS : Re (inner n b (act n M a)) = Re (inner n a (act n M b))).
  { rewrite inner_conj_swap. unfold hermitian in HM; rewrite inner_act, HM. reflexivity. }
  assert (W : Re (inner n (act n M (act n (F x) psi)) (act n (F (x - PI)%R) psi)) =
    (cos (x / 2) * cos ((x - PI) / 2) * Re (inner n (act n M a) a) + cos (x / 2) * sin ((x - PI) / 2) * Re (inner n (act n M a) b)
     + sin (x / 2) * cos ((x - PI) / 2) * Re (inner n (act n M b) a) + sin (x / 2) * sin ((x - PI) / 2) * Re (inner n (act n M b) b))%R).
  { rewrite (S x), (S (x - PI)%R), act_scomb, inner_scomb_l, !inner_scomb_r. unfold no_ph. cbn [C_scalar kconj kmul kadd].
    generalize (inner n (act n M a) a) (inner n (act n M a) b) (inner n (act n M b) a) (inner n (act n M b) b). intros u v w z.
    cbn [Cmul Cadd Cconj RtoC Re Im fst snd]. unfold Re. ring. }
  rewrite W, !V. rewrite (inner_conj_swap n (act n M a) a), (inner_conj_swap n (act n M a) b), (inner_conj_swap n (act n M b) a), (inner_conj_swap n (act n M b) b), HS.
  replace ((x + / 2 * PI) / 2)%R with (x / 2 + PI / 4)%R by lra. replace ((x - / 2 * PI) / 2)%R with (x / 2 - PI / 4)%R by lra. replace ((x - PI) / 2)%R with (x / 2 - PI / 2)%R by lra.
  rewrite !cos_plus, !cos_minus, !sin_plus, !sin_minus, cos_PI2, sin_PI2.
  assert (Q : sin (PI / 4) = cos (PI / 4)) by (rewrite sin_PI4, cos_PI4; reflexivity). rewrite Q.
  assert (T : (cos (PI / 4) * cos (PI / 4) = / 2)%R). { rewrite cos_PI4. assert (D := sqrt_sqrt 2 ltac:(lra)). assert (N : (sqrt 2 <> 0)%R) by (apply sqrt2_neq_0). field_simplify; [|exact N]. replace (sqrt 2 ^ 2)%R with 2%R by (cbn; lra). lra. }
  set (q := cos (PI / 4)) in *. set (c := cos (x / 2)). set (s := sin (x / 2)).
  generalize (Re (inner n a (act n M a))) (Re (inner n b (act n M b))) (Re (inner n a (act n M b))). intros aa bb ab. clear -T.
  transitivity (/ 2 * (q * q) * (- 4 * c * s * aa + 4 * c * s * bb + (2 * c * c - 2 * s * s) * (ab + ab)))%R; [ring|]. rewrite T. field.
Qed.
Lemma pure_no_ph : forall c, pure_rotation c = true -> ci_ph c = no_ph /\ ci_cu3 c = false.
Proof. intros [[]|] H; try discriminate H; split; reflexivity. Qed.

(** what the two calls return, in terms of overlaps *)
Lemma adjoint_run : forall svd n cs t psi mo, exact_svd svd -> 0 < n -> Forall (ci_ok n) cs -> forallb (ci_TN n) cs = true -> cs <> [] ->
  ci_ok n mo -> ci_TN n mo = true -> is_state n [1; 2 ^ n] t psi -> nonzero n psi ->
  exists c o sd sv g, circuit_of n cs = Ok c /\ obuild n mo = Ok o /\ save_mid_MPS svd t c o = Ok (sd, sv) /\ is_state n [1; 2 ^ n] sv (act n (cs_op n cs) psi) /\
    cal_params_grad2 svd t c sd = Ok (g, c) /\ length g = length (cs_angles cs) /\
    forall cs1 x cs2 i, cs = cs1 ++ x :: cs2 -> i < length (ci_angles x) ->
      nth (length (cs_angles cs1) + i) g 0%R =
      (- Re (inner n (act n (ci_op n mo) (act n (cs_op n cs) psi)) (act n (cs_op n (cs1 ++ ci_with x (set_at i (nth i (ci_angles x) 0 - PI)%R (ci_angles x)) :: cs2)) psi)))%R.
Proof.
  intros svd n cs t psi mo Hs Hn H T NE Hm Tm Ht HZ. exists (circ n cs), (oobj n mo).
  destruct (save_ok svd Hs n Hn psi HZ cs H T mo Hm Tm t (c_params (circ n cs)) (c_num (circ n cs)) NE Ht) as (sd & sv & E & V & F & B).
  exists sd, sv, (all2 n (phi n psi cs) (fun k => chi n psi cs mo (S k)) 0 cs).
  split; [now apply circuit_of_ok|]. split; [now apply obuild_ok|]. split; [rewrite circ_cobj; exact E|]. split; [exact V|]. split; [|split].
  - rewrite (circ_cobj n cs) at 1. rewrite (grad2_run svd Hs n Hn psi HZ t Ht (phi n psi cs) (fun k => chi n psi cs mo (S k)) (length cs) sd) with (cs0 := cs);
      auto using form_all, circ_recorded.
    + rewrite circ_num, Nat.eqb_refl by exact H. do 2 f_equal. rewrite <- (circ_num n cs) by exact H. symmetry. apply circ_cobj.
    + intros k. now apply phi_nonzero.
    + unfold phi. cbn [firstn cs_op fold_left]. symmetry. apply act_id.
    + intros k x X A. split.
      * intros K. destruct (F (k - 1) x) as (l & G & M); [assert (k < length cs) by (apply nth_error_Some; congruence); lia|now replace (S (k - 1)) with k by lia|exact A|].
        exists l. replace (S (k - 1)) with k in M by lia. auto.
      * apply (B k x); auto. lia.
  - apply all2_length.
  - intros cs1 x cs2 i EC Hi. transitivity (nth (length (cs_angles cs1) + i) (all2 n (phi n psi cs) (fun k => chi n psi cs mo (S k)) 0 (cs1 ++ x :: cs2)) 0%R); [now rewrite <- EC|]. rewrite all2_nth by assumption. unfold term2. cbn [Nat.add]. f_equal. f_equal. unfold chi, phi.
    replace (skipn (S (length cs1)) cs) with cs2 by (rewrite EC; change (x :: cs2) with ([x] ++ cs2); rewrite app_assoc, skipn_app, app_length; cbn [length];
      rewrite skipn_all2 by (rewrite app_length; cbn; lia); replace (S (length cs1) - (length cs1 + 1)) with 0 by lia; reflexivity).
    replace (firstn (length cs1) cs) with cs1 by (rewrite EC, firstn_app, Nat.sub_diag, firstn_all, firstn_O, app_nil_r; reflexivity).
    rewrite <- inner_act. apply inner_proper; [reflexivity|]. rewrite <- !act_mul. apply act_proper; [|reflexivity].
    change (ci_with x (set_at i (nth i (ci_angles x) 0 - PI)%R (ci_angles x)) :: cs2) with ([ci_with x (set_at i (nth i (ci_angles x) 0 - PI)%R (ci_angles x))] ++ cs2).
    rewrite !cs_op_app.
    assert (S1 : forall y, op_eq n (cs_op n [y]) (ci_op n y)) by (intros y; unfold cs_op; cbn [fold_left]; apply mul_op_id_r).
    rewrite S1, !mul_op_assoc. reflexivity.
Qed.
Lemma adjoint_gradient : forall svd n cs t psi mo, exact_svd svd -> 0 < n -> Forall (ci_ok n) cs -> forallb (ci_TN n) cs = true -> cs <> [] -> forallb pure_rotation cs = true ->
  ci_ok n mo -> ci_TN n mo = true -> hermitian n (ci_op n mo) -> is_state n [1; 2 ^ n] t psi -> nonzero n psi ->
  exists c o sd sv g, circuit_of n cs = Ok c /\ obuild n mo = Ok o /\ save_mid_MPS svd t c o = Ok (sd, sv) /\ is_state n [1; 2 ^ n] sv (act n (cs_op n cs) psi) /\
    cal_params_grad2 svd t c sd = Ok (g, c) /\ is_gradient n cs psi (ci_op n mo) g.
Proof.
  intros svd n cs t psi mo Hs Hn H T NE P Hm Tm HM Ht HZ.
  destruct (adjoint_run svd n cs t psi mo Hs Hn H T NE Hm Tm Ht HZ) as (c & o & sd & sv & g & E1 & E2 & E3 & E4 & E5 & L & G).
  exists c, o, sd, sv, g. repeat (split; [assumption|]). intros k Hk.
  destruct (cs_split cs k Hk) as (cs1 & x & cs2 & i & D1 & D2 & D3 & D4).
  assert (X : (fun y => expect n (cs_with cs (set_at k y (cs_angles cs))) psi (ci_op n mo)) = fun y => expect n (cs1 ++ ci_with x (set_at i y (ci_angles x)) :: cs2) psi (ci_op n mo)).
  { apply FunctionalExtensionality.functional_extensionality. intros y. now rewrite D4. }
  rewrite X. clear X D4. subst k. rewrite (G cs1 x cs2 i D1 D3). subst cs.
  replace (nth (length (cs_angles cs1) + i) (cs_angles (cs1 ++ x :: cs2)) 0%R) with (nth i (ci_angles x) 0%R).
  2:{ rewrite cs_angles_app. cbn [cs_angles flat_map]. rewrite app_nth2 by lia. replace (length (cs_angles cs1) + i - length (cs_angles cs1)) with i by lia. now rewrite app_nth1. }
  assert (Hx : ci_ok n x) by (apply Forall_app in H; destruct H as [_ H]; now inversion H).
  assert (Px : pure_rotation x = true) by (rewrite forallb_app in P; cbn in P; destruct (pure_rotation x); [reflexivity|rewrite andb_false_r in P; discriminate]).
  destruct (pure_no_ph x Px) as [Q1 Q2].
  pose proof (shift_derivative n cs1 cs2 x i psi (ci_op n mo) (nth i (ci_angles x) 0%R) Hx Q2 D3) as SD. cbv zeta in SD.
  pose proof (cs_rot n cs1 cs2 x i Hx Q2 D3) as CR. rewrite Q1 in CR.
  pose proof (adjoint_rule n _ psi (ci_op n mo) (nth i (ci_angles x) 0%R) CR HM) as AR. cbv zeta in AR. unfold expect in SD |- *. rewrite AR in SD.
  rewrite set_at_nth, ci_with_self in SD by exact D3. exact SD.
Qed.
