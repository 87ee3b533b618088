(** The parameter-shift gradient with memory layouts; the proofs follow GradFacts3.v. *)
From Coq Require Import List ZArith QArith Reals Lra Lia Bool Arith.
From Verif Require Import PyBase Scalar CInst BigSum Index Tensor Spec SpecFacts GateSpec RunSpec LayerSpec MPSSpec CircuitSpec
  QMath QTN QOperator QGates GateCalls QLayers LayerCalls GateFacts2 GateFacts4 LayerFacts4 QCircuit QGradient MPSCases CircuitFacts1 CircuitProofs GradSpec GradFacts1 GradFacts2 GradFacts3 GradProofs
  QStride QStride2 QStride3 StrideCases StrideCircuit2.
Import ListNotations.
Local Close Scope Q_scope.
Local Close Scope R_scope.
Local Open Scope nat_scope.

Section Run.
  Variable svd : tensor -> tensor * tensor * tensor.
  Variable svd_lay : stensor -> list nat * list nat * list nat.
  Variable mmT : stensor -> stensor -> bool.
  Variable ein_lay : stensor -> stensor -> list nat.
  Variable lay : tensor -> list nat.
  Hypothesis Hs : exact_svd svd.
  Hypothesis Hts : torch_svd svd.
  Hypothesis Htl : torch_layouts svd_lay ein_lay.
  Hypothesis Hml : matrix_layouts lay.
  Variable n : nat.
  Hypothesis Hn : 0 < n.
  Variables (x_ m_ : stensor) (psi : qstate) (M : qop).
  Hypothesis Hx : laid_out x_.
  Hypothesis Hmm : laid_out m_.
  Hypothesis Ht : is_state n [1; 2 ^ n] (val x_) psi.
  Hypothesis Hm : is_op n (val m_) M.

  Lemma s_cobj_expectation : forall cs ps k, Forall (ci_ok n) cs -> exp_can n psi cs ->
    s_cir_expectation svd svd_lay mmT ein_lay lay (cobj n cs ps k) x_ m_ true = Ok (expect n cs psi M).
  Proof.
    intros cs ps k H HC.
    assert (E : s_cir_expectation svd svd_lay mmT ein_lay lay (cobj n cs ps k) x_ m_ true = s_cir_expectation svd svd_lay mmT ein_lay lay (circ n cs) x_ m_ true).
    { unfold s_cir_expectation, s_TN_evolution, TN_check, s_cU, cobj. cbn [c_N c_gate]. now rewrite circ_N, circ_gate. }
    rewrite E. destruct Ht as (Sx & Wx & _).
    rewrite (expectation_layout svd svd_lay mmT ein_lay lay n cs (circ n cs) x_ m_ true); auto using exact_shapes, circuit_of_ok.
    - rewrite <- (cobj_expectation svd Hs n Hn (val x_) (val m_) psi M Ht Hm cs ps k H HC).
      unfold cir_expectation, TN_evolution, TN_check, cU, cobj. cbn [c_N c_gate]. now rewrite circ_N, circ_gate.
    - unfold wf. rewrite Wx, Sx. cbn [prodn]. lia.
  Qed.

  Lemma s_shift_entries : forall pre post x0 x ps k, form x x0 -> ci_angles x0 <> [] -> pv_of x0 = PV (ci_angles x0) ->
    Forall (ci_ok n) (pre ++ x :: post) -> exp_can n psi (pre ++ x :: post) -> forall grads,
    mfold (s_shift_entry svd svd_lay mmT ein_lay lay x_ m_ (length pre)) (seq 0 (length (ci_angles x0))) (cobj n (pre ++ x :: post) ps k, ci_angles x0, grads)
    = Ok (cobj n (pre ++ x0 :: post) ps k, ci_angles x0, grads ++ local_grad n psi M pre post x0).
  Proof.
    intros pre post x0 x ps k Fx NA PV0 HO HC grads. set (a := ci_angles x0) in *.
    assert (P : forall u, length u = length a -> pv_of (ci_with x0 u) = PV u).
    { intros u Lu. unfold pv_of in *. destruct x0 as [[]|l]; cbn [ci_with gi_with ci_angles gi_angles] in *; try discriminate;
        cbn in Lu; try (destruct u as [|u1 [|u2 [|u3 [|]]]]; try discriminate; reflexivity).
      f_equal. apply (ci_with_angles (CL l)). exact Lu. }
    assert (Step : forall x i gr, form x x0 -> Forall (ci_ok n) (pre ++ x :: post) -> exp_can n psi (pre ++ x :: post) -> i < length a ->
      s_shift_entry svd svd_lay mmT ein_lay lay x_ m_ (length pre) (cobj n (pre ++ x :: post) ps k, a, gr) i
      = Ok (cobj n (pre ++ x0 :: post) ps k, a, gr ++ [(/ 2 * (Eat n psi M pre post x0 (set_at i (nth i a 0 + / 2 * PI) a) - Eat n psi M pre post x0 (set_at i (nth i a 0 - / 2 * PI) a)))%R])).
    { clear x Fx HO HC grads. intros x i gr (v & Lv & ->) HO HC Hi. unfold s_shift_entry.
      assert (P1 : padd a i (/ 2 * PI) = set_at i (nth i a 0 + / 2 * PI)%R a) by (unfold padd; now rewrite set_nth_at).
      rewrite P1. assert (L1 : length (set_at i (nth i a 0 + / 2 * PI)%R a) = length a) by (now apply set_at_length).
      assert (P2 : padd (set_at i (nth i a 0 + / 2 * PI)%R a) i (- PI) = set_at i (nth i a 0 - / 2 * PI)%R a).
      { unfold padd. rewrite set_nth_at, nth_set_at, set_at_twice by lia. f_equal. lra. }
      rewrite P2. assert (L2 : length (set_at i (nth i a 0 - / 2 * PI)%R a) = length a) by (now apply set_at_length).
      assert (P3 : padd (set_at i (nth i a 0 - / 2 * PI)%R a) i (/ 2 * PI) = a).
      { unfold padd. rewrite set_nth_at, nth_set_at, set_at_twice by lia. replace (nth i a 0 - / 2 * PI + / 2 * PI)%R with (nth i a 0%R) by lra. now apply set_at_nth. }
      rewrite P3.
      assert (NE : forall u : list R, length u = length a -> u <> []) by (intros u Lu ->; destruct a; [congruence|discriminate]).
      assert (Ox : ci_ok n (ci_with x0 v)) by (apply Forall_app in HO; destruct HO as [_ HO]; now inversion HO).
      assert (O1 : Forall (ci_ok n) (pre ++ ci_with x0 (set_at i (nth i a 0 + / 2 * PI)%R a) :: post)) by (now apply (ok_with n pre post x0 v)).
      assert (O2 : Forall (ci_ok n) (pre ++ ci_with x0 (set_at i (nth i a 0 - / 2 * PI)%R a) :: post)) by (now apply (ok_with n pre post x0 v)).
      rewrite (update_gate_ok n pre _ x0 post (set_at i (nth i a 0 + / 2 * PI)%R a)); [|exact Ox|now apply form_self|exact L1|now apply NE|now rewrite P].
      cbn [bind]. rewrite s_cobj_expectation by (auto; eapply can_with; eauto). cbn [bind].
      rewrite (update_gate_ok n pre _ x0 post (set_at i (nth i a 0 - / 2 * PI)%R a));
        [|apply Forall_app in O1; destruct O1 as [_ O1]; now inversion O1|now apply form_self|exact L2|now apply NE|now rewrite P].
      cbn [bind]. rewrite s_cobj_expectation by (auto; eapply can_with; eauto). cbn [bind].
      rewrite (update_gate_ok n pre _ x0 post a);
        [|apply Forall_app in O2; destruct O2 as [_ O2]; now inversion O2|now apply form_self|reflexivity|now apply NE|now rewrite P].
      cbn [bind]. unfold a at 2. rewrite ci_with_self. reflexivity. }
    assert (HO0 : Forall (ci_ok n) (pre ++ x0 :: post)).
    { destruct Fx as (v & Lv & ->). rewrite <- (ci_with_self x0). now apply (ok_with n pre post x0 v). }
    assert (HC0 : exp_can n psi (pre ++ x0 :: post)).
    { destruct Fx as (v & Lv & ->). rewrite <- (ci_with_self x0). now apply (can_with n psi pre post x0 v). }
    assert (Rest : forall l gr, (forall i, In i l -> i < length a) ->
      mfold (s_shift_entry svd svd_lay mmT ein_lay lay x_ m_ (length pre)) l (cobj n (pre ++ x0 :: post) ps k, a, gr)
      = Ok (cobj n (pre ++ x0 :: post) ps k, a, gr ++ map (fun i => (/ 2 * (Eat n psi M pre post x0 (set_at i (nth i a 0 + / 2 * PI) a) - Eat n psi M pre post x0 (set_at i (nth i a 0 - / 2 * PI) a)))%R) l)).
    { induction l as [|i l IH]; intros gr Hl; cbn [mfold map]; [now rewrite app_nil_r|].
      rewrite Step by (auto using form_refl; apply Hl; now left). cbn [bind]. rewrite IH by (intros j Hj; apply Hl; now right). now rewrite <- app_assoc. }
    unfold local_grad. fold a. cbv zeta. destruct (length a) as [|d] eqn:La; [destruct a; [congruence|discriminate]|]. cbn [seq mfold map].
    rewrite Step by (auto; lia). cbn [bind]. rewrite Rest by (intros i Hi; apply in_seq in Hi; lia). now rewrite <- app_assoc.
  Qed.

  Lemma s_shift_single : forall pre post x0 x ps k, form x x0 -> length (ci_angles x0) = 1 -> pv_of x0 = PS (nth 0 (ci_angles x0) 0%R) ->
    Forall (ci_ok n) (pre ++ x :: post) -> exp_can n psi (pre ++ x :: post) ->
    exists g, s_shift_one svd svd_lay mmT ein_lay lay x_ m_ (cobj n (pre ++ x :: post) ps k) (length pre) (nth 0 (ci_angles x0) 0%R)
    = Ok (cobj n (pre ++ x0 :: post) ps k, g) /\ local_grad n psi M pre post x0 = [g].
  Proof.
    intros pre post x0 x ps k (v & Lv & ->) L1 PS0 HO HC. set (a := nth 0 (ci_angles x0) 0%R).
    assert (P : forall y, PS y = pv_of (ci_with x0 [y])).
    { intros y. unfold pv_of in *. destruct x0 as [[]|l]; cbn [ci_with gi_with ci_angles gi_angles] in *; try discriminate; reflexivity. }
    assert (S : forall y, set_at 0 y (ci_angles x0) = [y]) by (intros y; destruct (ci_angles x0) as [|z [|]]; try discriminate; reflexivity).
    assert (A : ci_with x0 [a] = x0) by (rewrite <- (S a); unfold a; rewrite set_at_nth by lia; apply ci_with_self).
    unfold s_shift_one.
    assert (Ok' : forall y, Forall (ci_ok n) (pre ++ ci_with x0 [y] :: post)) by (intros y; apply (ok_with n pre post x0 v); auto).
    assert (Ox : forall y, ci_ok n (ci_with x0 [y])) by (intros y; specialize (Ok' y); apply Forall_app in Ok'; destruct Ok' as [_ O]; now inversion O).
    assert (Ov : ci_ok n (ci_with x0 v)) by (apply Forall_app in HO; destruct HO as [_ O]; now inversion O).
    rewrite (update_gate_ok n pre _ x0 post [(a + / 2 * PI)%R]); [|exact Ov|now apply form_self|cbn; lia|discriminate|apply P].
    cbn [bind]. rewrite s_cobj_expectation by (auto; eapply can_with; eauto). cbn [bind].
    rewrite (update_gate_ok n pre _ x0 post [(a - / 2 * PI)%R]); [|apply Ox|now apply form_self|cbn; lia|discriminate|apply P].
    cbn [bind]. rewrite s_cobj_expectation by (auto; eapply can_with; eauto). cbn [bind].
    rewrite (update_gate_ok n pre _ x0 post [a]); [|apply Ox|now apply form_self|cbn; lia|discriminate|apply P].
    cbn [bind]. rewrite A. eexists. split; [reflexivity|]. unfold local_grad. rewrite L1. cbn [seq map]. cbv zeta. fold a. now rewrite !S.
  Qed.

  Lemma s_shift_gate_ok : forall pre post x0 x ps k gr, form x x0 -> (ci_angles x0 <> [] -> dict_get ps (length pre) = Ok (Some (pv_of x0))) ->
    Forall (ci_ok n) (pre ++ x :: post) -> exp_can n psi (pre ++ x :: post) ->
    s_shift_gate svd svd_lay mmT ein_lay lay x_ m_ (cobj n (pre ++ x :: post) ps k, gr) (length pre) = Ok (cobj n (pre ++ x0 :: post) ps k, gr ++ local_grad n psi M pre post x0).
  Proof.
    intros pre post x0 x ps k gr Fx HD HO HC. unfold s_shift_gate. cbn [c_gate cobj c_params].
    rewrite map_app. cbn [map]. rewrite <- (map_length (oobj n) pre), nth_error_mid, map_length.
    assert (Ox : ci_ok n x) by (apply Forall_app in HO; destruct HO as [_ O]; now inversion O). rewrite (form_num n x x0 Ox Fx).
    destruct (length (ci_angles x0) =? 0) eqn:E0.
    - apply Nat.eqb_eq in E0. destruct (ci_angles x0) as [|] eqn:EA; [|discriminate]. unfold local_grad. rewrite EA. cbn [length seq map]. rewrite app_nil_r.
      f_equal. f_equal. unfold cobj. f_equal. destruct Fx as (v & Lv & ->). rewrite EA in Lv. destruct v; [|discriminate].
      rewrite !map_app. cbn [map]. do 3 f_equal. transitivity (ci_with x0 (ci_angles x0)); [now rewrite EA|apply ci_with_self].
    - assert (NA : ci_angles x0 <> []) by (intros X; rewrite X in E0; discriminate). rewrite (HD NA). cbn [bind].
      destruct (pv_cases x0 NA) as [V|[L1 V]]; rewrite V.
      + rewrite s_shift_entries by auto. reflexivity.
      + destruct (s_shift_single pre post x0 x ps k Fx L1 V HO HC) as (g & E & L). rewrite E. cbn [bind fst snd]. now rewrite L.
  Qed.

  Lemma s_shift_gates_ok : forall rest0 rest done ps k gr, Forall2 form rest rest0 -> recorded ps (done ++ rest0) ->
    Forall (ci_ok n) (done ++ rest) -> exp_can n psi (done ++ rest) ->
    mfold (s_shift_gate svd svd_lay mmT ein_lay lay x_ m_) (seq (length done) (length rest)) (cobj n (done ++ rest) ps k, gr)
    = Ok (cobj n (done ++ rest0) ps k, gr ++ all_grad n psi M done rest0 rest).
  Proof.
    induction rest0 as [|x0 r0 IH]; intros rest done ps k gr HF HR HO HC; inversion HF as [|x ? r ? Fx HF']; subst; cbn [length seq mfold all_grad].
    - rewrite !app_nil_r; reflexivity.
    - rewrite (s_shift_gate_ok done r x0 x); [|exact Fx|intros NA; apply (HR (length done) x0); [apply nth_error_mid|exact NA]|exact HO|exact HC]. cbn [bind].
      replace (S (length done)) with (length (done ++ [x0])) by (rewrite app_length; cbn; lia).
      replace (done ++ x0 :: r) with ((done ++ [x0]) ++ r) by (now rewrite <- app_assoc).
      destruct Fx as (v & Lv & ->).
      rewrite IH; auto.
      + now rewrite <- !app_assoc.
      + now rewrite <- app_assoc.
      + rewrite <- app_assoc. cbn [app]. rewrite <- (ci_with_self x0). now apply (ok_with n done r x0 v).
      + rewrite <- app_assoc. cbn [app]. rewrite <- (ci_with_self x0). now apply (can_with n psi done r x0 v).
  Qed.
  (** the whole method, for a circuit whose record may be out of date *)
  Lemma s_grad_run : forall cs0 cs ps k, Forall2 form cs cs0 -> recorded ps cs0 -> Forall (ci_ok n) cs -> exp_can n psi cs ->
    s_cal_params_grad svd svd_lay mmT ein_lay lay x_ m_ (cobj n cs ps k) =
    if length (cs_angles cs0) =? k then Ok (all_grad n psi M [] cs0 cs, cobj n cs0 ps k) else Err AssertionError.
  Proof.
    intros cs0 cs ps k HF HR HO HC. unfold s_cal_params_grad. cbn [c_gate cobj]. rewrite map_length.
    pose proof (s_shift_gates_ok cs0 cs [] ps k [] HF HR HO HC) as E. cbn [app length] in E. rewrite E. cbn [bind].
    rewrite all_grad_length by exact HF. unfold assert_. cbn [c_num cobj]. reflexivity.
  Qed.

End Run.

Lemma shift_gradient_laid : forall svd svd_lay mmT ein_lay lay n cs x psi m M, exact_svd svd -> torch_svd svd -> torch_layouts svd_lay ein_lay -> matrix_layouts lay ->
  0 < n -> Forall (ci_ok n) cs -> existsb matrix_only cs = true \/ (forallb (ci_TN n) cs = true /\ nonzero n psi) ->
  laid_out x -> is_state n [1; 2 ^ n] (val x) psi -> laid_out m -> is_op n (val m) M ->
  exists c, circuit_of n cs = Ok c /\
    s_cal_params_grad svd svd_lay mmT ein_lay lay x m c = cal_params_grad svd (val x) (val m) c /\
    (forallb two_term cs = true -> exists g, s_cal_params_grad svd svd_lay mmT ein_lay lay x m c = Ok (g, c) /\ is_gradient n cs psi M g).
Proof.
  intros svd svd_lay mmT ein_lay lay n cs x psi m M Hs Hts Htl Hml Hn H HC Hx Ht Hmm Hm. exists (circ n cs). split; [now apply circuit_of_ok|].
  assert (E : s_cal_params_grad svd svd_lay mmT ein_lay lay x m (circ n cs) = cal_params_grad svd (val x) (val m) (circ n cs)).
  { rewrite (circ_cobj n cs), (s_grad_run svd svd_lay mmT ein_lay lay Hs Hts Htl Hml n Hn x m psi M Hx Hmm Ht Hm cs) by (auto using form_all, circ_recorded, can_split).
    rewrite (grad_run svd Hs n Hn (val x) (val m) psi M Ht Hm cs) by (auto using form_all, circ_recorded, can_split). reflexivity. }
  split; [exact E|]. intros T.
  destruct (shift_gradient svd n cs (val x) psi (val m) M Hs Hn H T HC Ht Hm) as (c & g & Ec & Eg & G).
  rewrite circuit_of_ok in Ec by auto. injection Ec as <-. exists g. rewrite E. auto.
Qed.
