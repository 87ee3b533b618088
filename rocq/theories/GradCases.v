(** Counterexamples and cases for the gradient properties. *)
From Coq Require Import List ZArith QArith Reals Lra Lia Bool Arith.
From Verif Require Import PyBase Scalar CInst BigSum Index Tensor Spec SpecFacts GateSpec RunSpec LayerSpec MPSSpec CircuitSpec
  QMath QTN QOperator QGates GateCalls QLayers LayerCalls GateFacts2 GateFacts4 MPSFacts9 LayerFacts4 QCircuit QGradient StateFacts CircuitFacts1 CircuitProofs CircuitCases GradSpec GradFacts1 GradFacts2 GradFacts3 GradFacts4 GradProofs GradProofs2.
Import ListNotations.
Local Close Scope Q_scope.
Local Close Scope R_scope.
Local Open Scope nat_scope.

Ltac conc := cbv -[Rplus Rmult Ropp Rminus Rdiv Rinv cos sin IZR PI sqrt].
Lemma half0 : forall z, (z = 0)%R -> cos z = 1%R /\ sin z = 0%R.
Proof. intros z ->. split; [apply cos_0|apply sin_0]. Qed.
Definition cu3c (th : R) : ci := CG (gi_cu3 th 0 0 0 1).
Lemma cu3_overlap : forall a b, Re (inner 2 (act 2 (lift X_op [0]) (act 2 (cs_op 2 [cu3c a]) plus0)) (act 2 (cs_op 2 [cu3c b]) plus0)) = (cos (a / 2) + cos (b / 2))%R.
Proof.
  intros a b. conc.
  repeat match goal with |- context [cos ?z] => match z with context [IZR 0] => let H := fresh in let H' := fresh in destruct (half0 z ltac:(lra)) as [H H']; rewrite ?H, ?H'; clear H H' end end.
  ring.
Qed.
Lemma expect_overlap : forall n cs psi M, expect n cs psi M = Re (inner n (act n M (act n (cs_op n cs) psi)) (act n (cs_op n cs) psi)).
Proof. intros. apply inner_conj_swap. Qed.
Lemma cu3_expect : forall a, expect 2 [cu3c a] plus0 (lift X_op [0]) = (2 * cos (a / 2))%R.
Proof. intros a. rewrite expect_overlap, cu3_overlap. ring. Qed.
Lemma u1_overlap : forall a b, Re (inner 1 (act 1 (lift X_op [0]) (act 1 (cs_op 1 [CG (gi_u1 a 0)]) plus)) (act 1 (cs_op 1 [CG (gi_u1 b 0)]) plus)) = (cos a + cos b)%R.
Proof. intros a b. conc. ring. Qed.
Lemma cphase_overlap : forall a b, Re (inner 2 (act 2 (lift X_op [1]) (act 2 (cs_op 2 [CG (gi_cphase a 0 1)]) one_plus)) (act 2 (cs_op 2 [CG (gi_cphase b 0 1)]) one_plus)) = (cos a + cos b)%R.
Proof. intros a b. conc. ring. Qed.
Lemma u1_expect : forall a, expect 1 [CG (gi_u1 a 0)] plus (lift X_op [0]) = (2 * cos a)%R.
Proof. intros a. rewrite expect_overlap, u1_overlap. ring. Qed.
Lemma cphase_expect : forall a, expect 2 [CG (gi_cphase a 0 1)] one_plus (lift X_op [1]) = (2 * cos a)%R.
Proof. intros a. rewrite expect_overlap, cphase_overlap. ring. Qed.
Lemma nonzero_at : forall n (psi : @qstate C_scalar) b, In b (bits n) -> psi b = RtoC 1 -> nonzero n psi.
Proof. intros n psi b Hb E Z. specialize (Z b Hb). rewrite E in Z. apply (f_equal Re) in Z. cbn in Z. lra. Qed.
Lemma plus0_nonzero : nonzero 2 plus0.
Proof. apply (nonzero_at 2 _ [0; 0]); [cbn; tauto|reflexivity]. Qed.
Lemma plus_nonzero : nonzero 1 plus.
Proof. apply (nonzero_at 1 _ [0]); [cbn; tauto|reflexivity]. Qed.
Lemma one_plus_nonzero : nonzero 2 one_plus.
Proof. apply (nonzero_at 2 _ [1; 0]); [cbn; tauto|reflexivity]. Qed.

(** the value of each entry: half the difference at the two shifted angles *)
Lemma shift_run : forall svd n cs t psi m M, exact_svd svd -> 0 < n -> Forall (ci_ok n) cs ->
  existsb matrix_only cs = true \/ (forallb (ci_TN n) cs = true /\ nonzero n psi) -> is_state n [1; 2 ^ n] t psi -> is_op n m M ->
  exists c g, circuit_of n cs = Ok c /\ cal_params_grad svd t m c = Ok (g, c) /\ length g = length (cs_angles cs) /\
    forall k, k < length (cs_angles cs) -> let E y := expect n (cs_with cs (set_at k y (cs_angles cs))) psi M in
      nth k g 0%R = (/ 2 * (E (nth k (cs_angles cs) 0 + / 2 * PI) - E (nth k (cs_angles cs) 0 - / 2 * PI)))%R.
Proof.
  intros svd n cs t psi m M Hs Hn H HC Ht Hm. exists (circ n cs), (all_grad n psi M [] cs cs). split; [now apply circuit_of_ok|]. split; [|split].
  - rewrite (circ_cobj n cs), (grad_run svd Hs n Hn t m psi M Ht Hm cs) by (auto using form_all, circ_recorded, can_split). rewrite circ_num, Nat.eqb_refl by auto. reflexivity.
  - apply all_grad_length, form_all.
  - intros k Hk E. unfold E. clear E. destruct (cs_split cs k Hk) as (cs1 & x & cs2 & i & E1 & E2 & E3 & E4). rewrite !E4. clear E4. subst cs k.
    rewrite all_grad_nth by assumption. cbn [app]. rewrite cs_angles_app. cbn [cs_angles flat_map]. fold (cs_angles cs2). rewrite app_nth2 by lia.
    replace (length (cs_angles cs1) + i - length (cs_angles cs1)) with i by lia. rewrite app_nth1 by exact E3. unfold local_grad. rewrite nth_map_seq0 by exact E3. reflexivity.
Qed.
Lemma dcos : forall k a x, derivable_pt_lim (fun y => a * cos (k * y))%R x (a * (- sin (k * x) * k))%R.
Proof.
  intros k a x. apply (derivable_pt_lim_scal (fun y => cos (k * y))%R a). apply (derivable_pt_lim_comp (fun y => k * y)%R cos).
  - assert (X : derivable_pt_lim (mult_real_fct k id) x (k * 1)%R) by (apply derivable_pt_lim_scal, derivable_pt_lim_id). rewrite Rmult_1_r in X. exact X.
  - apply derivable_pt_lim_cos.
Qed.
Lemma cu3c_ok : forall th, Forall (ci_ok 2) [cu3c th].
Proof. intros th. constructor; [|constructor]. split; [|exact I]. split; [repeat constructor; cbn; intuition lia|]. intros w. cbn. intuition lia. Qed.
Lemma not_gradient : forall n cs psi M g k d, k < length (cs_angles cs) ->
  derivable_pt_lim (fun x => expect n (cs_with cs (set_at k x (cs_angles cs))) psi M) (nth k (cs_angles cs) 0%R) d -> nth k g 0%R <> d -> ~ is_gradient n cs psi M g.
Proof. intros n cs psi M g k d Hk D N [_ G]. apply N. eapply uniqueness_limite; [apply G, Hk|exact D]. Qed.
Lemma ext_lim : forall f g x d, (forall y, f y = g y) -> derivable_pt_lim g x d -> derivable_pt_lim f x d.
Proof. intros f g x d E H. replace f with g; [exact H|]. apply FunctionalExtensionality.functional_extensionality. intros y. now rewrite E. Qed.
Lemma dcos_half : forall f x, (forall y, f y = 2 * cos (y / 2))%R -> derivable_pt_lim f x (- sin (x / 2))%R.
Proof.
  intros f x E. apply (ext_lim f (fun y => 2 * cos (/ 2 * y))%R); [intros y; rewrite E; do 2 f_equal; lra|].
  replace (- sin (x / 2))%R with (2 * (- sin (/ 2 * x) * / 2))%R by (replace (/ 2 * x)%R with (x / 2)%R by lra; lra). apply dcos.
Qed.
Lemma dcos_2 : forall f x, (forall y, f y = 2 * cos y)%R -> derivable_pt_lim f x (- (2 * sin x))%R.
Proof.
  intros f x E. apply (ext_lim f (fun y => 2 * cos (1 * y))%R); [intros y; rewrite E; do 2 f_equal; lra|].
  replace (- (2 * sin x))%R with (2 * (- sin (1 * x) * 1))%R by (replace (1 * x)%R with x by lra; lra). apply dcos.
Qed.

(** C29 *)
Lemma shift_cu3_wrong : forall svd th t m, exact_svd svd -> is_state 2 [1; 4] t plus0 -> is_op 2 m (lift X_op [0]) -> sin (th / 2) <> 0%R ->
  exists c g, circuit_of 2 [cu3c th] = Ok c /\ cal_params_grad svd t m c = Ok (g, c) /\ nth 0 g 0%R = (- (sqrt 2 * sin (th / 2)))%R /\
    derivable_pt_lim (fun x => expect 2 [cu3c x] plus0 (lift X_op [0])) th (- sin (th / 2))%R /\ ~ is_gradient 2 [cu3c th] plus0 (lift X_op [0]) g.
Proof.
  intros svd th t m Hs Ht Hm S. destruct (shift_run svd 2 [cu3c th] t plus0 m (lift X_op [0]) Hs ltac:(lia) (cu3c_ok th)) as (c & g & E1 & E2 & E3 & E4); auto.
  { right. split; [reflexivity|exact plus0_nonzero]. }
  exists c, g. split; [exact E1|]. split; [exact E2|].
  assert (D : derivable_pt_lim (fun x => expect 2 [cu3c x] plus0 (lift X_op [0])) th (- sin (th / 2))%R) by (apply dcos_half; exact cu3_expect).
  assert (V : nth 0 g 0%R = (- (sqrt 2 * sin (th / 2)))%R).
  { rewrite (E4 0) by (cbn; lia). unfold set_at. cbn [cs_angles flat_map ci_angles cu3c gi_angles app firstn skipn nth cs_with length ci_with gi_with].
    fold (cu3c (th + / 2 * PI)). fold (cu3c (th - / 2 * PI)). rewrite !cu3_expect.
    replace ((th + / 2 * PI) / 2)%R with (th / 2 + PI / 4)%R by lra. replace ((th - / 2 * PI) / 2)%R with (th / 2 - PI / 4)%R by lra.
    rewrite cos_plus, cos_minus, sin_PI4, cos_PI4. assert (Q := sqrt_sqrt 2 ltac:(lra)). assert (N := sqrt2_neq_0).
    replace (1 / sqrt 2)%R with (sqrt 2 / 2)%R by (field_simplify_eq; [cbn; lra|exact N]). lra. }
  split; [exact V|]. split; [exact D|]. apply (not_gradient 2 _ _ _ g 0 (- sin (th / 2))%R); [cbn; lia|exact D|]. rewrite V.
  assert (sqrt 2 <> 1)%R by (intros X; assert (Q := sqrt_sqrt 2 ltac:(lra)); rewrite X in Q; lra). intros X. apply H. apply (Rmult_eq_reg_r (sin (th / 2))); [lra|exact S].
Qed.

(** C31 *)
Lemma adjoint_single : forall svd n x t psi mo, exact_svd svd -> 0 < n -> ci_ok n x -> ci_TN n x = true -> ci_angles x <> [] ->
  ci_ok n mo -> ci_TN n mo = true -> is_state n [1; 2 ^ n] t psi -> nonzero n psi ->
  exists c o sd sv g, circuit_of n [x] = Ok c /\ obuild n mo = Ok o /\ save_mid_MPS svd t c o = Ok (sd, sv) /\ cal_params_grad2 svd t c sd = Ok (g, c) /\
    nth 0 g 0%R = (- Re (inner n (act n (ci_op n mo) (act n (cs_op n [x]) psi)) (act n (cs_op n [ci_with x (set_at 0 (nth 0 (ci_angles x) 0 - PI)%R (ci_angles x))]) psi)))%R.
Proof.
  intros svd n x t psi mo Hs Hn Hx Tx A Hm Tm Ht HZ.
  destruct (adjoint_run svd n [x] t psi mo Hs Hn) as (c & o & sd & sv & g & E1 & E2 & E3 & E4 & E5 & L & G); auto; [cbn; now rewrite Tx|discriminate|].
  exists c, o, sd, sv, g. repeat (split; [assumption|]). apply (G [] x [] 0 eq_refl). destruct (ci_angles x); [congruence|cbn; lia].
Qed.
Lemma adjoint_u1_wrong : forall svd th t, exact_svd svd -> is_state 1 [1; 2] t plus -> sin th <> 0%R ->
  exists c o sd sv g, circuit_of 1 [CG (gi_u1 th 0)] = Ok c /\ obuild 1 (CG (gi_X 0)) = Ok o /\ save_mid_MPS svd t c o = Ok (sd, sv) /\ cal_params_grad2 svd t c sd = Ok (g, c) /\
    nth 0 g 0%R = 0%R /\ derivable_pt_lim (fun x => expect 1 [CG (gi_u1 x 0)] plus (lift X_op [0])) th (- (2 * sin th))%R /\
    ~ is_gradient 1 [CG (gi_u1 th 0)] plus (lift X_op [0]) g.
Proof.
  intros svd th t Hs Ht S. destruct (adjoint_single svd 1 (CG (gi_u1 th 0)) t plus (CG (gi_X 0)) Hs ltac:(lia)) as (c & o & sd & sv & g & E1 & E2 & E3 & E4 & V); auto; try reflexivity.
  - split; [|exact I]. split; [repeat constructor; cbn; intuition lia|]. intros w. cbn. intuition lia.
  - discriminate.
  - split; [|exact I]. split; [repeat constructor; cbn; intuition lia|]. intros w. cbn. intuition lia.
  - exact plus_nonzero.
  - exists c, o, sd, sv, g. repeat (split; [assumption|]).
    assert (V0 : nth 0 g 0%R = 0%R).
    { rewrite V. unfold set_at. cbn [ci_angles gi_angles firstn skipn app nth ci_with gi_with ci_op gi_op]. rewrite u1_overlap. rewrite cos_minus, cos_PI, sin_PI. ring. }
    assert (D : derivable_pt_lim (fun x => expect 1 [CG (gi_u1 x 0)] plus (lift X_op [0])) th (- (2 * sin th))%R) by (apply dcos_2; exact u1_expect).
    split; [exact V0|]. split; [exact D|]. apply (not_gradient 1 _ _ _ g 0 (- (2 * sin th))%R); [cbn; lia|exact D|]. rewrite V0. lra.
Qed.
Lemma adjoint_cphase_wrong : forall svd th t, exact_svd svd -> is_state 2 [1; 4] t one_plus -> sin th <> 0%R ->
  exists c o sd sv g, circuit_of 2 [CG (gi_cphase th 0 1)] = Ok c /\ obuild 2 (CG (gi_X 1)) = Ok o /\ save_mid_MPS svd t c o = Ok (sd, sv) /\ cal_params_grad2 svd t c sd = Ok (g, c) /\
    nth 0 g 0%R = 0%R /\ derivable_pt_lim (fun x => expect 2 [CG (gi_cphase x 0 1)] one_plus (lift X_op [1])) th (- (2 * sin th))%R /\
    ~ is_gradient 2 [CG (gi_cphase th 0 1)] one_plus (lift X_op [1]) g.
Proof.
  intros svd th t Hs Ht S. destruct (adjoint_single svd 2 (CG (gi_cphase th 0 1)) t one_plus (CG (gi_X 1)) Hs ltac:(lia)) as (c & o & sd & sv & g & E1 & E2 & E3 & E4 & V); auto; try reflexivity.
  - split; [|exact I]. split; [repeat constructor; cbn; intuition lia|]. intros w. cbn. intuition lia.
  - discriminate.
  - split; [|exact I]. split; [repeat constructor; cbn; intuition lia|]. intros w. cbn. intuition lia.
  - exact one_plus_nonzero.
  - exists c, o, sd, sv, g. repeat (split; [assumption|]).
    assert (V0 : nth 0 g 0%R = 0%R).
    { rewrite V. unfold set_at. cbn [ci_angles gi_angles firstn skipn app nth ci_with gi_with ci_op gi_op]. rewrite cphase_overlap. rewrite cos_minus, cos_PI, sin_PI. ring. }
    assert (D : derivable_pt_lim (fun x => expect 2 [CG (gi_cphase x 0 1)] one_plus (lift X_op [1])) th (- (2 * sin th))%R) by (apply dcos_2; exact cphase_expect).
    split; [exact V0|]. split; [exact D|]. apply (not_gradient 2 _ _ _ g 0 (- (2 * sin th))%R); [cbn; lia|exact D|]. rewrite V0. lra.
Qed.
Lemma adjoint_cu3_wrong : forall svd th t, exact_svd svd -> is_state 2 [1; 4] t plus0 -> cos (th / 2) <> 0%R ->
  exists c o sd sv g, circuit_of 2 [cu3c th] = Ok c /\ obuild 2 (CG (gi_X 0)) = Ok o /\ save_mid_MPS svd t c o = Ok (sd, sv) /\ cal_params_grad2 svd t c sd = Ok (g, c) /\
    nth 0 g 0%R = (- cos (th / 2) - sin (th / 2))%R /\ derivable_pt_lim (fun x => expect 2 [cu3c x] plus0 (lift X_op [0])) th (- sin (th / 2))%R /\
    ~ is_gradient 2 [cu3c th] plus0 (lift X_op [0]) g.
Proof.
  intros svd th t Hs Ht S. destruct (adjoint_single svd 2 (cu3c th) t plus0 (CG (gi_X 0)) Hs ltac:(lia)) as (c & o & sd & sv & g & E1 & E2 & E3 & E4 & V); auto; try reflexivity.
  - pose proof (cu3c_ok th) as H. now inversion H.
  - discriminate.
  - split; [|exact I]. split; [repeat constructor; cbn; intuition lia|]. intros w. cbn. intuition lia.
  - exact plus0_nonzero.
  - exists c, o, sd, sv, g. repeat (split; [assumption|]).
    assert (V0 : nth 0 g 0%R = (- cos (th / 2) - sin (th / 2))%R).
    { rewrite V. unfold set_at. cbn [cu3c ci_angles gi_angles firstn skipn app nth ci_with gi_with ci_op gi_op]. fold (cu3c th). fold (cu3c (th - PI)). rewrite cu3_overlap.
      replace ((th - PI) / 2)%R with (th / 2 - PI / 2)%R by lra. rewrite cos_minus, cos_PI2, sin_PI2. ring. }
    assert (D : derivable_pt_lim (fun x => expect 2 [cu3c x] plus0 (lift X_op [0])) th (- sin (th / 2))%R) by (apply dcos_half; exact cu3_expect).
    split; [exact V0|]. split; [exact D|]. apply (not_gradient 2 _ _ _ g 0 (- sin (th / 2))%R); [cbn; lia|exact D|]. rewrite V0. lra.
Qed.
Lemma adjoint_empty : forall svd n t psi mo, exact_svd svd -> 0 < n -> is_state n [1; 2 ^ n] t psi -> nonzero n psi -> ci_ok n mo -> ci_TN n mo = true ->
  exists o, obuild n mo = Ok o /\ save_mid_MPS svd t (Circuit n) o = Err IndexError.
Proof.
  intros svd n t psi mo Hs Hn Ht HZ Hm Tm. exists (oobj n mo). split; [now apply obuild_ok|].
  destruct (round_trip svd n t psi Hs Hn Ht HZ) as (l0 & _ & E0 & M0 & _). unfold save_mid_MPS. cbn [c_N Circuit c_gate]. rewrite E0. cbn [bind].
  assert (L0 : length l0 = n) by apply M0. rewrite L0, Nat.eqb_refl. cbn [negb raise_if length seq mfold bind].
  destruct (mps_amplitudes n l0 _ Hn M0) as (sv & _ & V1 & _). rewrite V1. cbn [bind]. destruct (o_TN_ok svd n mo l0 psi Hs Hm Tm M0 HZ) as (l1 & E1 & _). rewrite E1. reflexivity.
Qed.
Lemma adjoint_unchanged : forall svd n cs t psi mo, exact_svd svd -> 0 < n -> Forall (ci_ok n) cs -> forallb (ci_TN n) cs = true -> cs <> [] ->
  ci_ok n mo -> ci_TN n mo = true -> is_state n [1; 2 ^ n] t psi -> nonzero n psi ->
  exists c o sd sv g, circuit_of n cs = Ok c /\ obuild n mo = Ok o /\ save_mid_MPS svd t c o = Ok (sd, sv) /\ cal_params_grad2 svd t c sd = Ok (g, c).
Proof.
  intros svd n cs t psi mo Hs Hn H T NE Hm Tm Ht HZ.
  destruct (adjoint_run svd n cs t psi mo Hs Hn H T NE Hm Tm Ht HZ) as (c & o & sd & sv & g & E1 & E2 & E3 & E4 & E5 & _). exists c, o, sd, sv, g. auto.
Qed.
