(** Lemmas: the error of the second gradient method on truncated matrix product states. *)
From Coq Require Import List ZArith QArith Reals Lra Lia ZifyBool Bool Arith Setoid Morphisms.
From Verif Require Import PyBase Scalar CInst BigSum Index Tensor TensorFacts Spec SpecFacts QMath QTN QOperator
  GateSpec QGates GateCalls GateFacts GateFacts2 GateFacts4 GateFacts5 GateFacts6 GateProofs RunSpec
  MPSSpec MPSFacts6 MPSFacts9 LayerSpec QLayers LayerCalls LayerFacts1 LayerFacts4 LayerProofs
  CircuitSpec QCircuit StateFacts QGradient CircuitFacts1 CircuitProofs GradSpec GradFacts1 GradFacts2 GradFacts3 GradFacts4 GradProofs GradProofs2 GradCases
  MeasSpec MeasFacts QuanvFacts TruncSpec TruncRunSpec SVDExist2 TruncFacts2 TruncRun1 TruncRun6 TruncRun7 TruncRun8 TruncRun10 TruncGrad TruncAdj.
Import ListNotations.
Local Close Scope Q_scope.
Local Close Scope R_scope.
Local Open Scope nat_scope.

Lemma inner_near : forall n (f g f' g' : @qstate C_scalar) e, norm2 n f = 1%R -> norm2 n g = 1%R ->
  (len (bits n) (fun b => Csub (f b) (f' b)) <= e)%R -> (len (bits n) (fun b => Csub (g b) (g' b)) <= e)%R ->
  (Rabs (Re (inner (SC := C_scalar) n f' g') - Re (inner (SC := C_scalar) n f g)) <= e * (2 + e))%R.
Proof.
  intros n f g f' g' e Nf Ng Hf Hg.
  assert (L1 : len (bits n) f = 1%R) by (unfold len, sqn; fold (norm2 n f); rewrite Nf; apply sqrt_1).
  assert (L2 : len (bits n) g = 1%R) by (unfold len, sqn; fold (norm2 n g); rewrite Ng; apply sqrt_1).
  rewrite (len_sub_sym _ (bits n) f f') in Hf. rewrite (len_sub_sym _ (bits n) g g') in Hg.
  assert (Lg : (len (bits n) g' <= 1 + e)%R) by (pose proof (len_le_sub _ (bits n) g' g) as X; rewrite L2 in X; lra).
  set (df := fun b => Csub (f' b) (f b)) in *. set (dg := fun b => Csub (g' b) (g b)) in *.
  pose proof (len_pos _ (bits n) df) as P1. pose proof (len_pos _ (bits n) dg) as P2. pose proof (len_pos _ (bits n) g') as P3.
  assert (E : (Re (inner (SC := C_scalar) n f' g') - Re (inner (SC := C_scalar) n f g) = rsum (bits n) (fun b => rdot (df b) (g' b)) + rsum (bits n) (fun b => rdot (f b) (dg b)))%R).
  { rewrite !Re_inner. rewrite <- rsum_add.
    assert (Y : (rsum (bits n) (fun b => rdot (f' b) (g' b)) = rsum (bits n) (fun b => rdot (f b) (g b)) + rsum (bits n) (fun b => rdot (df b) (g' b) + rdot (f b) (dg b)))%R); [|lra].
    rewrite <- rsum_add. apply rsum_ext. intros b _. unfold df, dg, rdot. destruct (f' b), (f b), (g' b), (g b). cbn. ring. }
  rewrite E. eapply Rle_trans; [apply Rabs_triang|].
  pose proof (cauchy_abs _ (bits n) df g') as X1. pose proof (cauchy_abs _ (bits n) f dg) as X2. rewrite L1 in X2.
  assert (Z1 : (len (bits n) df * len (bits n) g' <= e * (1 + e))%R) by (apply Rmult_le_compat; auto).
  lra.
Qed.

Lemma adjoint_true : forall svd n cs t (psi : @qstate C_scalar) mo, true_svd (SC := C_scalar) svd -> 0 < n -> Forall (ci_ok n) cs -> forallb (ci_TN n) cs = true -> cs <> [] ->
  ci_ok n mo -> ci_TN n mo = true -> is_state n [1; 2 ^ n] t psi -> norm2 n psi = 1%R ->
  (INR (cut_count n (n - 1)) <= 10 ^ 14)%R -> (INR (ci_moves (cs ++ mo :: cs)) <= 2 * 10 ^ 6)%R ->
  let e := ((sqrt (INR (cut_count n (n - 1))) + 8 * INR (ci_moves (cs ++ mo :: cs))) * / 10 ^ 8)%R in
  exists c o sd sv f g, circuit_of n cs = Ok c /\ obuild n mo = Ok o /\ save_mid_MPS svd t c o = Ok (sd, sv) /\ is_state n [1; 2 ^ n] sv f /\
    (sqrt (rsum (bits n) (fun b => Cnorm2 (Csub (act n (cs_op n cs) psi b) (f b)))) <= e)%R /\
    cal_params_grad2 svd t c sd = Ok (g, c) /\ length g = length (cs_angles cs) /\
    forall cs1 x cs2 i, cs = cs1 ++ x :: cs2 -> i < length (ci_angles x) ->
      (Rabs (nth (length (cs_angles cs1) + i) g 0 -
        - Re (inner n (act n (ci_op n mo) (act n (cs_op n cs) psi)) (act n (cs_op n (cs1 ++ ci_with x (set_at i (nth i (ci_angles x) 0 - PI)%R (ci_angles x)) :: cs2)) psi))) <= e * (2 + e))%R.
Proof.
  intros svd n cs t psi mo HTS Hn H T NE Hm Tm Ht HN HC HW e. set (TT := ci_moves (cs ++ mo :: cs)) in *.
  assert (ETT : TT = ci_moves cs + (cost mo + ci_moves cs)) by (unfold TT; rewrite ci_moves_app, ci_moves_cons; lia).
  destruct (setup svd n TT t psi HTS Hn Ht HN HC HW) as (l0 & Rel & E0 & R0 & R1 & R2 & R3 & R4 & R5 & R7 & R6). fold e in R6.
  assert (OP : forall t l f c, ci_ok n c -> ci_TN n c = true -> Rel t l f -> t + cost c <= TT ->
    exists l', o_TN_operation svd (oobj n c) l = Ok l' /\ Rel (t + cost c) l' (act n (ci_op n c) f)).
  { intros t' l f c Oc Tc M L.
    destruct (evolution_rel svd n TT Rel R1 R2 R3 R4 R5 R7 [c] t' l f) as (l' & E & M'); [now constructor|cbn; now rewrite Tc|exact M|now rewrite ci_moves_1|].
    exists l'. unfold TN_evolution in E. rewrite circ_gate, circ_N, (R7 _ _ _ M), Nat.eqb_refl in E. cbn [negb raise_if map mfold] in E.
    rewrite ci_con_support in E by (now apply ci_TN_con). rewrite ci_moves_1 in M'. split; [|eapply R1; [exact M'|unfold cs_op; cbn [fold_left]; rewrite mul_op_id_r; reflexivity]].
    destruct (o_TN_operation svd (oobj n c) l); cbn [bind] in E; [exact E|discriminate]. }
  assert (OUT : forall t' l f, t' <= TT -> Rel t' l f -> exists sv g, MPS2StateVec l = Ok sv /\ is_state n [1; 2 ^ n] sv g /\ (len (bits n) (fun b => Csub (f b) (g b)) <= e)%R).
  { intros t' l f L M. destruct (R6 l f (R2 t' TT l f L (le_n _) M)) as (sv & g & _ & X2 & X3 & X4). exists sv, g. auto. }
  destruct (save_rel svd n TT Rel R1 OP psi cs mo H T Hm Tm ltac:(lia) t l0 (c_params (circ n cs)) (c_num (circ n cs)) NE E0 (R7 _ _ _ R0) R0) as (l1 & sd & sv & ES & M1 & V1 & F & B).
  { intros l f M. destruct (OUT (ci_moves cs) l f ltac:(lia) M) as (sv & g & X & _). eauto. }
  destruct (OUT (ci_moves cs) l1 _ ltac:(lia) M1) as (sv' & f & V2 & V3 & V4). rewrite V1 in V2. injection V2 as <-.
  set (val := fun k x => match ov svd n l0 sd (length cs) k x with Ok v => v | Err _ => 0%R end).
  assert (NU : forall A h, unitary n A -> norm2 n h = 1%R -> norm2 n (act n A h) = 1%R) by (intros A h UA Nh; now rewrite norm2_unitary).
  assert (Hsub : forall k, Forall (ci_ok n) (firstn k cs) /\ Forall (ci_ok n) (skipn k cs)) by (intros k; apply Forall_app; now rewrite firstn_skipn).
  assert (Nphi : forall k, norm2 n (phi n psi cs k) = 1%R) by (intros k; apply NU; [apply cs_unitary, Hsub|exact HN]).
  assert (Nchi : forall k, norm2 n (chi n psi cs mo k) = 1%R).
  { intros k. apply NU; [apply unitary_adj, cs_unitary, Hsub|]. apply NU; [now apply ci_unitary|]. apply NU; [now apply cs_unitary|exact HN]. }
  assert (VV : forall k x i, nth_error cs k = Some x -> i < length (ci_angles x) -> exists v, ov svd n l0 sd (length cs) k (shifted x i) = Ok v /\
    (Rabs (v - - Re (inner n (chi n psi cs mo (S k)) (act n (ci_op n (shifted x i)) (phi n psi cs k)))) <= e * (2 + e))%R).
  { intros k x i X Hi. assert (NA : ci_angles x <> []) by (intros Y; rewrite Y in Hi; cbn in Hi; lia).
    destruct (cs_get n cs H T k x X) as [Ox Tx].
    assert (Oy : ci_ok n (shifted x i)) by (unfold shifted; apply ci_with_ok; [exact Ox|now apply set_at_length]).
    assert (Ty : ci_TN n (shifted x i) = true) by (unfold shifted; now rewrite ci_with_TN).
    assert (Cy : cost (shifted x i) = cost x) by (unfold shifted, cost; apply with_moves).
    pose proof (tf_S cs k x X) as TS. pose proof (tf_le n TT cs mo T Tm ltac:(lia) (S k)) as TL.
    assert (A1 : exists m, (if k =? 0 then o_TN_operation svd (oobj n (shifted x i)) l0 else do m <- dict_get sd (k - 1); o_TN_operation svd (oobj n (shifted x i)) m) = Ok m /\
      Rel (tf cs k + cost (shifted x i)) m (act n (ci_op n (shifted x i)) (phi n psi cs k))).
    { destruct (k =? 0) eqn:K0.
      - assert (k = 0) by lia. subst k. apply OP; auto; [|lia]. change (tf cs 0) with 0. eapply R1; [exact R0|]. unfold phi. cbn [firstn cs_op fold_left]. symmetry. apply act_id.
      - assert (k < length cs) by (apply nth_error_Some; congruence). destruct (F (k - 1) x) as (m & G & M); [lia|now replace (S (k - 1)) with k by lia|exact NA|].
        replace (S (k - 1)) with k in M by lia. rewrite G. cbn [bind]. apply OP; auto. lia. }
    destruct A1 as (m & A1 & A2). destruct (OUT (tf cs k + cost (shifted x i)) m _ ltac:(lia) A2) as (s1 & g1 & A3 & A4 & A5).
    destruct (B k x) as (m2 & B1 & B2); [lia|exact X|exact NA|]. pose proof (tb_le n TT cs mo T Tm ltac:(lia) (S k)) as TBL.
    destruct (OUT _ m2 _ TBL B2) as (s2 & g2 & B3 & B4 & B5).
    exists (- Re (inner n g2 g1))%R. split.
    - unfold ov. rewrite A1. cbn [bind]. rewrite A3. cbn [bind]. rewrite B1. cbn [bind]. rewrite B3. cbn [bind]. now apply minus_overlap_ok.
    - pose proof (inner_near n _ _ g2 g1 e (Nchi (S k)) (NU _ _ (ci_unitary n _ Oy) (Nphi k)) B5 A5) as D.
      revert D. generalize (Re (inner n g2 g1)), (Re (inner n (chi n psi cs mo (S k)) (act n (ci_op n (shifted x i)) (phi n psi cs k)))). intros a b D.
      replace (- a - - b)%R with (- (a - b))%R by ring. now rewrite Rabs_Ropp. }
  exists (circ n cs), (oobj n mo), sd, sv, f, (vall val 0 cs).
  split; [now apply circuit_of_ok|]. split; [now apply obuild_ok|]. split; [rewrite circ_cobj; exact ES|]. split; [exact V3|]. split; [exact V4|]. split; [|split].
  - rewrite (circ_cobj n cs) at 1. rewrite (vrun svd n l0 sd (length cs) val t cs _ _ E0); auto using circ_recorded.
    + rewrite circ_num, Nat.eqb_refl by exact H. do 2 f_equal. rewrite <- (circ_num n cs) by exact H. symmetry. apply circ_cobj.
    + intros k x i X Hi. destruct (VV k x i X Hi) as (v & E & _). unfold val. now rewrite E.
  - apply vall_length.
  - intros cs1 x cs2 i EC Hi.
    assert (X : nth_error cs (length cs1) = Some x) by (rewrite EC; apply nth_error_mid).
    destruct (VV _ x i X Hi) as (v & E & D).
    replace (nth (length (cs_angles cs1) + i) (vall val 0 cs) 0%R) with v.
    2:{ transitivity (nth (length (cs_angles cs1) + i) (vall val 0 (cs1 ++ x :: cs2)) 0%R); [|now rewrite <- EC]. rewrite vall_nth by exact Hi. cbn [Nat.add]. unfold val. now rewrite E. }
    replace (Re (inner n (act n (ci_op n mo) (act n (cs_op n cs) psi)) (act n (cs_op n (cs1 ++ ci_with x (set_at i (nth i (ci_angles x) 0 - PI)%R (ci_angles x)) :: cs2)) psi)))
      with (Re (inner n (chi n psi cs mo (S (length cs1))) (act n (ci_op n (shifted x i)) (phi n psi cs (length cs1))))); [exact D|].
    f_equal. unfold chi, phi.
    replace (skipn (S (length cs1)) cs) with cs2 by (rewrite EC; change (x :: cs2) with ([x] ++ cs2); rewrite app_assoc, skipn_app, app_length; cbn [length];
      rewrite skipn_all2 by (rewrite app_length; cbn; lia); replace (S (length cs1) - (length cs1 + 1)) with 0 by lia; reflexivity).
    replace (firstn (length cs1) cs) with cs1 by (rewrite EC, firstn_app, Nat.sub_diag, firstn_all, firstn_O, app_nil_r; reflexivity).
    rewrite <- inner_act. apply inner_proper; [reflexivity|]. rewrite <- !act_mul. apply act_proper; [|reflexivity].
    change (ci_with x (set_at i (nth i (ci_angles x) 0 - PI)%R (ci_angles x)) :: cs2) with ([shifted x i] ++ cs2).
    rewrite !cs_op_app.
    assert (S1 : forall y, op_eq n (cs_op n [y]) (ci_op n y)) by (intros y; unfold cs_op; cbn [fold_left]; apply mul_op_id_r).
    rewrite S1, !mul_op_assoc. reflexivity.
Qed.

Lemma adjoint_gradient_true : forall svd n cs t (psi : @qstate C_scalar) mo, true_svd (SC := C_scalar) svd -> 0 < n -> Forall (ci_ok n) cs -> forallb (ci_TN n) cs = true -> cs <> [] ->
  forallb pure_rotation cs = true -> ci_ok n mo -> ci_TN n mo = true -> hermitian n (ci_op n mo) -> is_state n [1; 2 ^ n] t psi -> norm2 n psi = 1%R ->
  (INR (cut_count n (n - 1)) <= 10 ^ 14)%R -> (INR (ci_moves (cs ++ mo :: cs)) <= 2 * 10 ^ 6)%R ->
  let e := ((sqrt (INR (cut_count n (n - 1))) + 8 * INR (ci_moves (cs ++ mo :: cs))) * / 10 ^ 8)%R in
  exists c o sd sv f g d, circuit_of n cs = Ok c /\ obuild n mo = Ok o /\ save_mid_MPS svd t c o = Ok (sd, sv) /\ is_state n [1; 2 ^ n] sv f /\
    (sqrt (rsum (bits n) (fun b => Cnorm2 (Csub (act n (cs_op n cs) psi b) (f b)))) <= e)%R /\
    cal_params_grad2 svd t c sd = Ok (g, c) /\ is_gradient n cs psi (ci_op n mo) d /\ length g = length d /\
    forall k, k < length d -> (Rabs (nth k g 0 - nth k d 0) <= e * (2 + e))%R.
Proof.
  intros svd n cs t psi mo Hs Hn H T NE P Hm Tm HM Ht HN HC HW e.
  destruct (adjoint_true svd n cs t psi mo Hs Hn H T NE Hm Tm Ht HN HC HW) as (c & o & sd & sv & f & g & E1 & E2 & E3 & E4 & E5 & E6 & L & G). fold e in E5, G.
  set (D := fun k d => derivable_pt_lim (fun x => expect n (cs_with cs (set_at k x (cs_angles cs))) psi (ci_op n mo)) (nth k (cs_angles cs) 0%R) d).
  assert (X : forall k, k < length (cs_angles cs) -> exists d, D k d /\ (Rabs (nth k g 0 - d) <= e * (2 + e))%R).
  { intros k Hk. destruct (cs_split cs k Hk) as (cs1 & x & cs2 & i & D1 & D2 & D3 & D4). eexists. split; [|rewrite D2; apply (G cs1 x cs2 i D1 D3)].
    unfold D. apply (ext_lim _ (fun y => expect n (cs1 ++ ci_with x (set_at i y (ci_angles x)) :: cs2) psi (ci_op n mo))); [intros y; now rewrite D4|]. clear D4 G. subst k.
    replace (nth (length (cs_angles cs1) + i) (cs_angles cs) 0%R) with (nth i (ci_angles x) 0%R).
    2:{ rewrite D1, cs_angles_app. cbn [cs_angles flat_map]. rewrite app_nth2 by lia. replace (length (cs_angles cs1) + i - length (cs_angles cs1)) with i by lia. now rewrite app_nth1. }
    assert (Hx : ci_ok n x) by (rewrite D1 in H; apply Forall_app in H; destruct H as [_ H]; now inversion H).
    assert (Px : pure_rotation x = true) by (rewrite D1, forallb_app in P; cbn in P; destruct (pure_rotation x); [reflexivity|rewrite andb_false_r in P; discriminate]).
    destruct (pure_no_ph x Px) as [Q1 Q2].
    pose proof (shift_derivative n cs1 cs2 x i psi (ci_op n mo) (nth i (ci_angles x) 0%R) Hx Q2 D3) as SD. cbv zeta in SD.
    pose proof (cs_rot n cs1 cs2 x i Hx Q2 D3) as CR. rewrite Q1 in CR.
    pose proof (adjoint_rule n _ psi (ci_op n mo) (nth i (ci_angles x) 0%R) CR HM) as AR. cbv zeta in AR. unfold expect in SD |- *. rewrite AR in SD.
    rewrite set_at_nth, ci_with_self in SD by exact D3. rewrite D1. exact SD. }
  assert (Y : forall m, m <= length (cs_angles cs) -> exists d, length d = m /\ forall k, k < m -> D k (nth k d 0%R) /\ (Rabs (nth k g 0 - nth k d 0) <= e * (2 + e))%R).
  { induction m as [|m IH]; intros Lm. { exists []. split; [reflexivity|]. intros k Hk. lia. }
    destruct (IH ltac:(lia)) as (d & Ld & Hd). destruct (X m ltac:(lia)) as (v & V1 & V2). exists (d ++ [v]). split; [rewrite app_length; cbn; lia|]. intros k Hk.
    destruct (Nat.eq_dec k m) as [->|Nk].
    - rewrite app_nth2, Ld, Nat.sub_diag by lia. cbn [nth]. auto.
    - rewrite app_nth1 by lia. apply Hd. lia. }
  destruct (Y _ (le_n _)) as (d & Ld & Hd).
  exists c, o, sd, sv, f, g, d. repeat (split; [assumption|]). split; [split; [exact Ld|]; intros k Hk; apply (Hd k Hk)|]. split; [congruence|]. rewrite Ld. intros k Hk. apply (Hd k Hk).
Qed.
