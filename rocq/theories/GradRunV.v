(** Lemmas: what cal_params_grad computes when cir_expectation returns the values [V] (the argument of GradFacts3.v without an assumption about the decomposition). *)
From Coq Require Import List ZArith QArith Reals Lra Lia Bool Arith.
From Verif Require Import PyBase Scalar CInst BigSum Index Tensor Spec SpecFacts GateSpec RunSpec LayerSpec MPSSpec CircuitSpec
  QMath QTN QOperator QGates GateCalls QLayers LayerCalls GateFacts2 GateFacts4 LayerFacts4 QCircuit QGradient CircuitFacts1 CircuitProofs GradFacts1 GradFacts2 GradFacts3.
Import ListNotations.
Local Close Scope Q_scope.
Local Close Scope R_scope.
Local Open Scope nat_scope.

Section Run.
  Variable svd : tensor -> tensor * tensor * tensor.
  Variable n : nat.
  Variables (t m : tensor) (V : list ci -> R) (can : list ci -> Prop).
  Hypothesis can_with : forall pre post x0 u v, can (pre ++ ci_with x0 u :: post) -> can (pre ++ ci_with x0 v :: post).
  Hypothesis values : forall cs ps k, Forall (ci_ok n) cs -> can cs -> cir_expectation svd (cobj n cs ps k) t m true = Ok (V cs).

  Definition Vat (pre post : list ci) (x0 : ci) (u : list R) : R := V (pre ++ ci_with x0 u :: post).
  Definition v_local_grad (pre post : list ci) (x0 : ci) : list R :=
    map (fun i => let a := ci_angles x0 in
           (/ 2 * (Vat pre post x0 (set_at i (nth i a 0 + / 2 * PI) a) - Vat pre post x0 (set_at i (nth i a 0 - / 2 * PI) a)))%R)
        (seq 0 (length (ci_angles x0))).

  Lemma v_ok_with : forall pre post x0 u v, Forall (ci_ok n) (pre ++ ci_with x0 u :: post) -> length u = length (ci_angles x0) -> length v = length (ci_angles x0) ->
    Forall (ci_ok n) (pre ++ ci_with x0 v :: post).
  Proof.
    intros pre post x0 u v H Lu Lv. apply Forall_app in H. destruct H as [H1 H2]. inversion H2 as [|? ? H3 H4]; subst. apply Forall_app. split; [exact H1|]. constructor; [|exact H4].
    assert (O : ci_ok n (ci_with (ci_with x0 u) v)) by (apply ci_with_ok; [exact H3|rewrite ci_with_angles; congruence]). now rewrite ci_with_with in O.
  Qed.

  Lemma v_shift_entries : forall pre post x0 x ps k, form x x0 -> ci_angles x0 <> [] -> pv_of x0 = PV (ci_angles x0) ->
    Forall (ci_ok n) (pre ++ x :: post) -> can (pre ++ x :: post) -> forall grads,
    mfold (shift_entry svd t m (length pre)) (seq 0 (length (ci_angles x0))) (cobj n (pre ++ x :: post) ps k, ci_angles x0, grads)
    = Ok (cobj n (pre ++ x0 :: post) ps k, ci_angles x0, grads ++ v_local_grad pre post x0).
  Proof.
    intros pre post x0 x ps k Fx NA PV0 HO HC grads. set (a := ci_angles x0) in *.
    assert (P : forall u, length u = length a -> pv_of (ci_with x0 u) = PV u).
    { intros u Lu. unfold pv_of in *. destruct x0 as [[]|l]; cbn [ci_with gi_with ci_angles gi_angles] in *; try discriminate;
        cbn in Lu; try (destruct u as [|u1 [|u2 [|u3 [|]]]]; try discriminate; reflexivity).
      f_equal. apply (ci_with_angles (CL l)). exact Lu. }
    assert (Step : forall x i gr, form x x0 -> Forall (ci_ok n) (pre ++ x :: post) -> can (pre ++ x :: post) -> i < length a ->
      shift_entry svd t m (length pre) (cobj n (pre ++ x :: post) ps k, a, gr) i
      = Ok (cobj n (pre ++ x0 :: post) ps k, a, gr ++ [(/ 2 * (Vat pre post x0 (set_at i (nth i a 0 + / 2 * PI) a) - Vat pre post x0 (set_at i (nth i a 0 - / 2 * PI) a)))%R])).
    { clear x Fx HO HC grads. intros x i gr (v & Lv & ->) HO HC Hi. unfold shift_entry.
      assert (P1 : padd a i (/ 2 * PI) = set_at i (nth i a 0 + / 2 * PI)%R a) by (unfold padd; now rewrite set_nth_at).
      rewrite P1. assert (L1 : length (set_at i (nth i a 0 + / 2 * PI)%R a) = length a) by (now apply set_at_length).
      assert (P2 : padd (set_at i (nth i a 0 + / 2 * PI)%R a) i (- PI) = set_at i (nth i a 0 - / 2 * PI)%R a).
      { unfold padd. rewrite set_nth_at, nth_set_at, set_at_twice by lia. f_equal. lra. }
      rewrite P2. assert (L2 : length (set_at i (nth i a 0 - / 2 * PI)%R a) = length a) by (now apply set_at_length).
      assert (P3 : padd (set_at i (nth i a 0 - / 2 * PI)%R a) i (/ 2 * PI) = a).
      { unfold padd. rewrite set_nth_at, nth_set_at, set_at_twice by lia. replace (nth i a 0 - / 2 * PI + / 2 * PI)%R with (nth i a 0%R) by lra. now apply set_at_nth. }
      rewrite P3.
      assert (NE : forall u : list R, length u = length a -> u <> []) by (intros u Lu ->; destruct a; [congruence|discriminate]).
      assert (Ox : ci_ok n (ci_with x0 v)) by (apply Forall_app in HO; destruct HO as [_ HO]; now inversion HO).
      assert (O1 : Forall (ci_ok n) (pre ++ ci_with x0 (set_at i (nth i a 0 + / 2 * PI)%R a) :: post)) by (now apply (v_ok_with pre post x0 v)).
      assert (O2 : Forall (ci_ok n) (pre ++ ci_with x0 (set_at i (nth i a 0 - / 2 * PI)%R a) :: post)) by (now apply (v_ok_with pre post x0 v)).
      rewrite (update_gate_ok n pre _ x0 post (set_at i (nth i a 0 + / 2 * PI)%R a)); [|exact Ox|now apply form_self|exact L1|now apply NE|now rewrite P].
      cbn [bind]. rewrite values by (auto; eapply can_with; eauto). cbn [bind].
      rewrite (update_gate_ok n pre _ x0 post (set_at i (nth i a 0 - / 2 * PI)%R a));
        [|apply Forall_app in O1; destruct O1 as [_ O1]; now inversion O1|now apply form_self|exact L2|now apply NE|now rewrite P].
      cbn [bind]. rewrite values by (auto; eapply can_with; eauto). cbn [bind].
      rewrite (update_gate_ok n pre _ x0 post a);
        [|apply Forall_app in O2; destruct O2 as [_ O2]; now inversion O2|now apply form_self|reflexivity|now apply NE|now rewrite P].
      cbn [bind]. unfold a at 2. rewrite ci_with_self. reflexivity. }
    assert (HO0 : Forall (ci_ok n) (pre ++ x0 :: post)).
    { destruct Fx as (v & Lv & ->). rewrite <- (ci_with_self x0). now apply (v_ok_with pre post x0 v). }
    assert (HC0 : can (pre ++ x0 :: post)).
    { destruct Fx as (v & Lv & ->). rewrite <- (ci_with_self x0). now apply (can_with pre post x0 v). }
    assert (Rest : forall l gr, (forall i, In i l -> i < length a) ->
      mfold (shift_entry svd t m (length pre)) l (cobj n (pre ++ x0 :: post) ps k, a, gr)
      = Ok (cobj n (pre ++ x0 :: post) ps k, a, gr ++ map (fun i => (/ 2 * (Vat pre post x0 (set_at i (nth i a 0 + / 2 * PI) a) - Vat pre post x0 (set_at i (nth i a 0 - / 2 * PI) a)))%R) l)).
    { induction l as [|i l IH]; intros gr Hl; cbn [mfold map]; [now rewrite app_nil_r|].
      rewrite Step by (auto using form_refl; apply Hl; now left). cbn [bind]. rewrite IH by (intros j Hj; apply Hl; now right). now rewrite <- app_assoc. }
    unfold v_local_grad. fold a. cbv zeta. destruct (length a) as [|d] eqn:La; [destruct a; [congruence|discriminate]|]. cbn [seq mfold map].
    rewrite Step by (auto; lia). cbn [bind]. rewrite Rest by (intros i Hi; apply in_seq in Hi; lia). now rewrite <- app_assoc.
  Qed.

  Lemma v_shift_single : forall pre post x0 x ps k, form x x0 -> length (ci_angles x0) = 1 -> pv_of x0 = PS (nth 0 (ci_angles x0) 0%R) ->
    Forall (ci_ok n) (pre ++ x :: post) -> can (pre ++ x :: post) ->
    exists g, shift_one svd t m (cobj n (pre ++ x :: post) ps k) (length pre) (nth 0 (ci_angles x0) 0%R)
    = Ok (cobj n (pre ++ x0 :: post) ps k, g) /\ v_local_grad pre post x0 = [g].
  Proof.
    intros pre post x0 x ps k (v & Lv & ->) L1 PS0 HO HC. set (a := nth 0 (ci_angles x0) 0%R).
    assert (P : forall y, PS y = pv_of (ci_with x0 [y])).
    { intros y. unfold pv_of in *. destruct x0 as [[]|l]; cbn [ci_with gi_with ci_angles gi_angles] in *; try discriminate; reflexivity. }
    assert (S : forall y, set_at 0 y (ci_angles x0) = [y]) by (intros y; destruct (ci_angles x0) as [|z [|]]; try discriminate; reflexivity).
    assert (A : ci_with x0 [a] = x0) by (rewrite <- (S a); unfold a; rewrite set_at_nth by lia; apply ci_with_self).
    unfold shift_one.
    assert (Ok' : forall y, Forall (ci_ok n) (pre ++ ci_with x0 [y] :: post)) by (intros y; apply (v_ok_with pre post x0 v); auto).
    assert (Ox : forall y, ci_ok n (ci_with x0 [y])) by (intros y; specialize (Ok' y); apply Forall_app in Ok'; destruct Ok' as [_ O]; now inversion O).
    assert (Ov : ci_ok n (ci_with x0 v)) by (apply Forall_app in HO; destruct HO as [_ O]; now inversion O).
    rewrite (update_gate_ok n pre _ x0 post [(a + / 2 * PI)%R]); [|exact Ov|now apply form_self|cbn; lia|discriminate|apply P].
    cbn [bind]. rewrite values by (auto; eapply can_with; eauto). cbn [bind].
    rewrite (update_gate_ok n pre _ x0 post [(a - / 2 * PI)%R]); [|apply Ox|now apply form_self|cbn; lia|discriminate|apply P].
    cbn [bind]. rewrite values by (auto; eapply can_with; eauto). cbn [bind].
    rewrite (update_gate_ok n pre _ x0 post [a]); [|apply Ox|now apply form_self|cbn; lia|discriminate|apply P].
    cbn [bind]. rewrite A. eexists. split; [reflexivity|]. unfold v_local_grad. rewrite L1. cbn [seq map]. cbv zeta. fold a. now rewrite !S.
  Qed.

  Lemma v_shift_gate_ok : forall pre post x0 x ps k gr, form x x0 -> (ci_angles x0 <> [] -> dict_get ps (length pre) = Ok (Some (pv_of x0))) ->
    Forall (ci_ok n) (pre ++ x :: post) -> can (pre ++ x :: post) ->
    shift_gate svd t m (cobj n (pre ++ x :: post) ps k, gr) (length pre) = Ok (cobj n (pre ++ x0 :: post) ps k, gr ++ v_local_grad pre post x0).
  Proof.
    intros pre post x0 x ps k gr Fx HD HO HC. unfold shift_gate. cbn [c_gate cobj c_params].
    rewrite map_app. cbn [map]. rewrite <- (map_length (oobj n) pre), nth_error_mid, map_length.
    assert (Ox : ci_ok n x) by (apply Forall_app in HO; destruct HO as [_ O]; now inversion O). rewrite (form_num n x x0 Ox Fx).
    destruct (length (ci_angles x0) =? 0) eqn:E0.
    - apply Nat.eqb_eq in E0. destruct (ci_angles x0) as [|] eqn:EA; [|discriminate]. unfold v_local_grad. rewrite EA. cbn [length seq map]. rewrite app_nil_r.
      f_equal. f_equal. unfold cobj. f_equal. destruct Fx as (v & Lv & ->). rewrite EA in Lv. destruct v; [|discriminate].
      rewrite !map_app. cbn [map]. do 3 f_equal. transitivity (ci_with x0 (ci_angles x0)); [now rewrite EA|apply ci_with_self].
    - assert (NA : ci_angles x0 <> []) by (intros X; rewrite X in E0; discriminate). rewrite (HD NA). cbn [bind].
      destruct (pv_cases x0 NA) as [PV1|[L1 PV1]]; rewrite PV1.
      + rewrite v_shift_entries by auto. reflexivity.
      + destruct (v_shift_single pre post x0 x ps k Fx L1 PV1 HO HC) as (g & E & L). rewrite E. cbn [bind fst snd]. now rewrite L.
  Qed.

  (** all the local gradients: the operations already treated have their recorded angles *)
  Fixpoint v_all_grad (done rest0 rest : list ci) : list R :=
    match rest0, rest with
    | x0 :: r0, _ :: r => v_local_grad done r x0 ++ v_all_grad (done ++ [x0]) r0 r
    | _, _ => []
    end.
  Lemma v_shift_gates_ok : forall rest0 rest done ps k gr, Forall2 form rest rest0 -> recorded ps (done ++ rest0) ->
    Forall (ci_ok n) (done ++ rest) -> can (done ++ rest) ->
    mfold (shift_gate svd t m) (seq (length done) (length rest)) (cobj n (done ++ rest) ps k, gr)
    = Ok (cobj n (done ++ rest0) ps k, gr ++ v_all_grad done rest0 rest).
  Proof.
    induction rest0 as [|x0 r0 IH]; intros rest done ps k gr HF HR HO HC; inversion HF as [|x ? r ? Fx HF']; subst; cbn [length seq mfold v_all_grad].
    - rewrite !app_nil_r; reflexivity.
    - rewrite (v_shift_gate_ok done r x0 x); [|exact Fx|intros NA; apply (HR (length done) x0); [apply nth_error_mid|exact NA]|exact HO|exact HC]. cbn [bind].
      replace (S (length done)) with (length (done ++ [x0])) by (rewrite app_length; cbn; lia).
      replace (done ++ x0 :: r) with ((done ++ [x0]) ++ r) by (now rewrite <- app_assoc).
      destruct Fx as (v & Lv & ->).
      rewrite IH; auto.
      + now rewrite <- !app_assoc.
      + now rewrite <- app_assoc.
      + rewrite <- app_assoc. cbn [app]. rewrite <- (ci_with_self x0). now apply (v_ok_with done r x0 v).
      + rewrite <- app_assoc. cbn [app]. rewrite <- (ci_with_self x0). now apply (can_with done r x0 v).
  Qed.
  Lemma v_local_grad_length : forall pre post x0, length (v_local_grad pre post x0) = length (ci_angles x0).
  Proof. intros. unfold v_local_grad. now rewrite map_length, seq_length. Qed.
  Lemma v_all_grad_length : forall rest0 rest done, Forall2 form rest rest0 -> length (v_all_grad done rest0 rest) = length (cs_angles rest0).
  Proof.
    induction rest0 as [|x0 r0 IH]; intros rest done HF; inversion HF as [|x ? r ? Fx HF']; subst; [reflexivity|]. cbn [v_all_grad cs_angles flat_map]. fold (cs_angles r0).
    now rewrite !app_length, v_local_grad_length, IH.
  Qed.
  (** the whole method, for a circuit whose record may be out of date *)
  Lemma v_grad_run : forall cs0 cs ps k, Forall2 form cs cs0 -> recorded ps cs0 -> Forall (ci_ok n) cs -> can cs ->
    cal_params_grad svd t m (cobj n cs ps k) =
    if length (cs_angles cs0) =? k then Ok (v_all_grad [] cs0 cs, cobj n cs0 ps k) else Err AssertionError.
  Proof.
    intros cs0 cs ps k HF HR HO HC. unfold cal_params_grad. cbn [c_gate cobj]. rewrite map_length.
    pose proof (v_shift_gates_ok cs0 cs [] ps k [] HF HR HO HC) as E. cbn [app length] in E. rewrite E. cbn [bind].
    rewrite v_all_grad_length by exact HF. unfold assert_. cbn [c_num cobj]. reflexivity.
  Qed.
  Lemma v_all_grad_nth : forall cs1 done x cs2 i, i < length (ci_angles x) ->
    nth (length (cs_angles cs1) + i) (v_all_grad done (cs1 ++ x :: cs2) (cs1 ++ x :: cs2)) 0%R = nth i (v_local_grad (done ++ cs1) cs2 x) 0%R.
  Proof.
    induction cs1 as [|c cs1 IH]; intros done x cs2 i Hi; cbn [app v_all_grad].
    - rewrite app_nil_r. cbn [cs_angles flat_map length Nat.add]. apply app_nth1. now rewrite v_local_grad_length.
    - cbn [cs_angles flat_map]. fold (cs_angles cs1). rewrite app_length, app_nth2; rewrite v_local_grad_length; [|lia].
      replace (length (ci_angles c) + length (cs_angles cs1) + i - length (ci_angles c)) with (length (cs_angles cs1) + i) by lia.
      rewrite IH by exact Hi. now rewrite <- app_assoc.
  Qed.
End Run.
