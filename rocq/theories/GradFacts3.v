(** Lemmas: what cal_params_grad computes and how it leaves the circuit. *)
From Coq Require Import List ZArith QArith Reals Lra Lia Bool Arith.
From Verif Require Import PyBase Scalar CInst BigSum Index Tensor Spec SpecFacts GateSpec RunSpec LayerSpec MPSSpec CircuitSpec
  QMath QTN QOperator QGates GateCalls QLayers LayerCalls GateFacts2 GateFacts4 LayerFacts4 QCircuit QGradient CircuitFacts1 CircuitProofs GradFacts1 GradFacts2.
Import ListNotations.
Local Close Scope Q_scope.
Local Close Scope R_scope.
Local Open Scope nat_scope.

(** the value recorded for an operation *)
Definition pv_of (c : ci) : pval := match c with CL _ | CG (gi_u3 _ _ _ _ | gi_cu3 _ _ _ _ _) => PV (ci_angles c) | _ => PS (hd 0%R (ci_angles c)) end.
Lemma update_ok : forall n x x0 u p, ci_ok n x -> (exists v, length v = length (ci_angles x0) /\ x = ci_with x0 v) -> length u = length (ci_angles x0) ->
  u <> [] -> p = pv_of (ci_with x0 u) -> o_params_update (oobj n x) p = Ok (oobj n (ci_with x0 u)).
Proof.
  intros n x x0 u p Hx (v & Lv & ->) Lu Nu ->. destruct x0 as [g|l].
  - cbn [ci_angles] in *. cbn [ci_with oobj o_params_update].
    assert (S : gi_set (gi_with g v) (pv_of (CG (gi_with g u))) = Some (gi_with g u)).
    { destruct g; cbn in Lv, Lu; destruct v as [|v1 [|v2 [|v3 [|]]]]; try discriminate; destruct u as [|u1 [|u2 [|u3 [|]]]]; try discriminate; try reflexivity; congruence. }
    cbn [ci_with] in S |- *. rewrite (params_update_obj n _ _ _ S). reflexivity.
  - cbn [ci_angles ci_with oobj] in *. assert (P : pv_of (CL (li_set l u)) = PV u).
    { unfold pv_of. cbn [ci_angles]. destruct l; cbn in *; try reflexivity; destruct u; cbn in *; (discriminate || congruence). }
    rewrite P. cbn [o_params_update]. assert (W : li_set (li_set l v) u = li_set l u) by (now destruct l).
    rewrite (layer_update_ok n (li_set l v) u).
    + cbn [bind]. now rewrite W.
    + rewrite W. cbn [ci_ok] in Hx. destruct l; cbn [li_set li_ok li_angles] in *; auto; congruence.
Qed.
Lemma set_nth_mid : forall A (l1 l2 : list A) x y, set_nth (length l1) y (l1 ++ x :: l2) = l1 ++ y :: l2.
Proof. intros A l1 l2 x y. induction l1 as [|a l1 IH]; [reflexivity|]. cbn. now rewrite IH. Qed.
Lemma nth_error_mid : forall A (l1 l2 : list A) x, nth_error (l1 ++ x :: l2) (length l1) = Some x.
Proof. intros A l1 l2 x. induction l1 as [|a l1 IH]; [reflexivity|]. exact IH. Qed.

(** a circuit object whose gates are those of [cs], whatever its bookkeeping *)
Definition cobj (n : nat) (cs : list ci) (ps : list (nat * option pval)) (k : nat) : circuit := mkC n (map (oobj n) cs) ps k.
Lemma update_gate_ok : forall n pre x x0 post u p ps k, ci_ok n x -> (exists v, length v = length (ci_angles x0) /\ x = ci_with x0 v) ->
  length u = length (ci_angles x0) -> u <> [] -> p = pv_of (ci_with x0 u) ->
  update_gate (cobj n (pre ++ x :: post) ps k) (length pre) p = Ok (cobj n (pre ++ ci_with x0 u :: post) ps k).
Proof.
  intros n pre x x0 post u p ps k Hx Hv Lu Nu Hp. unfold update_gate, cobj. cbn [c_gate c_N c_params c_num]. rewrite !map_app. cbn [map].
  rewrite <- (map_length (oobj n) pre), nth_error_mid, (update_ok n x x0 u p) by auto. cbn [bind]. now rewrite set_nth_mid.
Qed.

Lemma nth_map_seq0 : forall (f : nat -> R) d i, i < d -> nth i (map f (seq 0 d)) 0%R = f i.
Proof.
  intros f d i H. rewrite (nth_indep _ 0%R (f 0)) by (now rewrite map_length, seq_length). rewrite map_nth, seq_nth by exact H. reflexivity.
Qed.

Section Run.
  Variable svd : tensor -> tensor * tensor * tensor.
  Hypothesis Hs : exact_svd svd.
  Variable n : nat.
  Hypothesis Hn : 0 < n.
  Variables (t m : tensor) (psi : qstate) (M : qop).
  Hypothesis Ht : is_state n [1; 2 ^ n] t psi.
  Hypothesis Hm : is_op n m M.
  Definition exp_can (cs : list ci) : Prop :=
    (exists x, In x cs /\ o_supportTN (oobj n x) = false) \/ (forallb (ci_TN n) cs = true /\ nonzero n psi).
  Lemma cobj_expectation : forall cs ps k, Forall (ci_ok n) cs -> exp_can cs -> cir_expectation svd (cobj n cs ps k) t m true = Ok (expect n cs psi M).
  Proof.
    intros cs ps k H HC.
    assert (E : forall TN, cir_expectation svd (cobj n cs ps k) t m TN = cir_expectation svd (circ n cs) t m TN).
    { intros TN. unfold cir_expectation, TN_evolution, TN_check, cU, cobj. cbn [c_N c_gate]. now rewrite circ_N, circ_gate. }
    rewrite E. destruct HC as [(x & Hx & Sx)|[T Z]].
    - rewrite expectation_fallback.
      + apply expectation_ok; auto; discriminate.
      + rewrite TN_check_circ. destruct forallb eqn:F; [|reflexivity]. rewrite forallb_forall in F. rewrite (F x Hx) in Sx. discriminate.
    - apply expectation_ok; auto. unfold exp_ok. rewrite T. apply orb_true_r.
  Qed.

  (** E with one operation's angles replaced *)
  Definition Eat (pre post : list ci) (x0 : ci) (u : list R) : R := expect n (pre ++ ci_with x0 u :: post) psi M.
  Definition local_grad (pre post : list ci) (x0 : ci) : list R :=
    map (fun i => let a := ci_angles x0 in
           (/ 2 * (Eat pre post x0 (set_at i (nth i a 0 + / 2 * PI) a) - Eat pre post x0 (set_at i (nth i a 0 - / 2 * PI) a)))%R)
        (seq 0 (length (ci_angles x0))).

  Definition form (x x0 : ci) : Prop := exists v, length v = length (ci_angles x0) /\ x = ci_with x0 v.
  Lemma form_self : forall x0 u, length u = length (ci_angles x0) -> form (ci_with x0 u) x0.
  Proof. intros x0 u H. now exists u. Qed.
  Lemma form_refl : forall x, form x x.
  Proof. intros x. exists (ci_angles x). split; [reflexivity|]. now rewrite ci_with_self. Qed.
  Lemma form_num : forall x x0, ci_ok n x -> form x x0 -> o_num_params (oobj n x) = length (ci_angles x0).
  Proof. intros x x0 H (v & L & ->). rewrite (proj1 (o_angles n _ H)). now rewrite ci_with_angles. Qed.
  Lemma can_with : forall pre post x0 u v, exp_can (pre ++ ci_with x0 u :: post) -> exp_can (pre ++ ci_with x0 v :: post).
  Proof.
    intros pre post x0 u v [(x & Hx & S)|[T Z]].
    - left. apply in_app_or in Hx. destruct Hx as [Hx|[<-|Hx]].
      + exists x. split; [|exact S]. apply in_or_app. now left.
      + exists (ci_with x0 v). split; [apply in_or_app; right; now left|]. rewrite ci_with_support in *. exact S.
      + exists x. split; [|exact S]. apply in_or_app. right. now right.
    - right. split; [|exact Z]. rewrite forallb_app in *. cbn [forallb] in *. now rewrite ci_with_TN in *.
  Qed.
  Lemma ok_with : forall pre post x0 u v, Forall (ci_ok n) (pre ++ ci_with x0 u :: post) -> length u = length (ci_angles x0) -> length v = length (ci_angles x0) ->
    Forall (ci_ok n) (pre ++ ci_with x0 v :: post).
  Proof.
    intros pre post x0 u v H Lu Lv. apply Forall_app in H. destruct H as [H1 H2]. inversion H2 as [|? ? H3 H4]; subst. apply Forall_app. split; [exact H1|]. constructor; [|exact H4].
    assert (O : ci_ok n (ci_with (ci_with x0 u) v)) by (apply ci_with_ok; [exact H3|rewrite ci_with_angles; congruence]). now rewrite ci_with_with in O.
  Qed.

  Lemma shift_entries : forall pre post x0 x ps k, form x x0 -> ci_angles x0 <> [] -> pv_of x0 = PV (ci_angles x0) ->
    Forall (ci_ok n) (pre ++ x :: post) -> exp_can (pre ++ x :: post) -> forall grads,
    mfold (shift_entry svd t m (length pre)) (seq 0 (length (ci_angles x0))) (cobj n (pre ++ x :: post) ps k, ci_angles x0, grads)
    = Ok (cobj n (pre ++ x0 :: post) ps k, ci_angles x0, grads ++ local_grad pre post x0).
  Proof.
    intros pre post x0 x ps k Fx NA PV0 HO HC grads. set (a := ci_angles x0) in *.
    assert (P : forall u, length u = length a -> pv_of (ci_with x0 u) = PV u).
    { intros u Lu. unfold pv_of in *. destruct x0 as [[]|l]; cbn [ci_with gi_with ci_angles gi_angles] in *; try discriminate;
        cbn in Lu; try (destruct u as [|u1 [|u2 [|u3 [|]]]]; try discriminate; reflexivity).
      f_equal. apply (ci_with_angles (CL l)). exact Lu. }
    assert (Step : forall x i gr, form x x0 -> Forall (ci_ok n) (pre ++ x :: post) -> exp_can (pre ++ x :: post) -> i < length a ->
      shift_entry svd t m (length pre) (cobj n (pre ++ x :: post) ps k, a, gr) i
      = Ok (cobj n (pre ++ x0 :: post) ps k, a, gr ++ [(/ 2 * (Eat pre post x0 (set_at i (nth i a 0 + / 2 * PI) a) - Eat pre post x0 (set_at i (nth i a 0 - / 2 * PI) a)))%R])).
    { clear x Fx HO HC grads. intros x i gr (v & Lv & ->) HO HC Hi. unfold shift_entry.
      assert (P1 : padd a i (/ 2 * PI) = set_at i (nth i a 0 + / 2 * PI)%R a) by (unfold padd; now rewrite set_nth_at).
      rewrite P1. assert (L1 : length (set_at i (nth i a 0 + / 2 * PI)%R a) = length a) by (now apply set_at_length).
      assert (P2 : padd (set_at i (nth i a 0 + / 2 * PI)%R a) i (- PI) = set_at i (nth i a 0 - / 2 * PI)%R a).
      { unfold padd. rewrite set_nth_at, nth_set_at, set_at_twice by lia. f_equal. lra. }
      rewrite P2. assert (L2 : length (set_at i (nth i a 0 - / 2 * PI)%R a) = length a) by (now apply set_at_length).
      assert (P3 : padd (set_at i (nth i a 0 - / 2 * PI)%R a) i (/ 2 * PI) = a).
      { unfold padd. rewrite set_nth_at, nth_set_at, set_at_twice by lia. replace (nth i a 0 - / 2 * PI + / 2 * PI)%R with (nth i a 0%R) by lra. now apply set_at_nth. }
      rewrite P3.
      assert (NE : forall u : list R, length u = length a -> u <> []) by (intros u Lu ->; destruct a; [congruence|discriminate]).
      assert (Ox : ci_ok n (ci_with x0 v)) by (apply Forall_app in HO; destruct HO as [_ HO]; now inversion HO).
      assert (O1 : Forall (ci_ok n) (pre ++ ci_with x0 (set_at i (nth i a 0 + / 2 * PI)%R a) :: post)) by (now apply (ok_with pre post x0 v)).
      assert (O2 : Forall (ci_ok n) (pre ++ ci_with x0 (set_at i (nth i a 0 - / 2 * PI)%R a) :: post)) by (now apply (ok_with pre post x0 v)).
      rewrite (update_gate_ok n pre _ x0 post (set_at i (nth i a 0 + / 2 * PI)%R a)); [|exact Ox|now apply form_self|exact L1|now apply NE|now rewrite P].
      cbn [bind]. rewrite cobj_expectation by (auto; eapply can_with; eauto). cbn [bind].
      rewrite (update_gate_ok n pre _ x0 post (set_at i (nth i a 0 - / 2 * PI)%R a));
        [|apply Forall_app in O1; destruct O1 as [_ O1]; now inversion O1|now apply form_self|exact L2|now apply NE|now rewrite P].
      cbn [bind]. rewrite cobj_expectation by (auto; eapply can_with; eauto). cbn [bind].
      rewrite (update_gate_ok n pre _ x0 post a);
        [|apply Forall_app in O2; destruct O2 as [_ O2]; now inversion O2|now apply form_self|reflexivity|now apply NE|now rewrite P].
      cbn [bind]. unfold a at 2. rewrite ci_with_self. reflexivity. }
    assert (HO0 : Forall (ci_ok n) (pre ++ x0 :: post)).
    { destruct Fx as (v & Lv & ->). rewrite <- (ci_with_self x0). now apply (ok_with pre post x0 v). }
    assert (HC0 : exp_can (pre ++ x0 :: post)).
    { destruct Fx as (v & Lv & ->). rewrite <- (ci_with_self x0). now apply (can_with pre post x0 v). }
    assert (Rest : forall l gr, (forall i, In i l -> i < length a) ->
      mfold (shift_entry svd t m (length pre)) l (cobj n (pre ++ x0 :: post) ps k, a, gr)
      = Ok (cobj n (pre ++ x0 :: post) ps k, a, gr ++ map (fun i => (/ 2 * (Eat pre post x0 (set_at i (nth i a 0 + / 2 * PI) a) - Eat pre post x0 (set_at i (nth i a 0 - / 2 * PI) a)))%R) l)).
    { induction l as [|i l IH]; intros gr Hl; cbn [mfold map]; [now rewrite app_nil_r|].
      rewrite Step by (auto using form_refl; apply Hl; now left). cbn [bind]. rewrite IH by (intros j Hj; apply Hl; now right). now rewrite <- app_assoc. }
    unfold local_grad. fold a. cbv zeta. destruct (length a) as [|d] eqn:La; [destruct a; [congruence|discriminate]|]. cbn [seq mfold map].
    rewrite Step by (auto; lia). cbn [bind]. rewrite Rest by (intros i Hi; apply in_seq in Hi; lia). now rewrite <- app_assoc.
  Qed.

  Lemma shift_single : forall pre post x0 x ps k, form x x0 -> length (ci_angles x0) = 1 -> pv_of x0 = PS (nth 0 (ci_angles x0) 0%R) ->
    Forall (ci_ok n) (pre ++ x :: post) -> exp_can (pre ++ x :: post) ->
    exists g, shift_one svd t m (cobj n (pre ++ x :: post) ps k) (length pre) (nth 0 (ci_angles x0) 0%R)
    = Ok (cobj n (pre ++ x0 :: post) ps k, g) /\ local_grad pre post x0 = [g].
  Proof.
    intros pre post x0 x ps k (v & Lv & ->) L1 PS0 HO HC. set (a := nth 0 (ci_angles x0) 0%R).
    assert (P : forall y, PS y = pv_of (ci_with x0 [y])).
    { intros y. unfold pv_of in *. destruct x0 as [[]|l]; cbn [ci_with gi_with ci_angles gi_angles] in *; try discriminate; reflexivity. }
    assert (S : forall y, set_at 0 y (ci_angles x0) = [y]) by (intros y; destruct (ci_angles x0) as [|z [|]]; try discriminate; reflexivity).
    assert (A : ci_with x0 [a] = x0) by (rewrite <- (S a); unfold a; rewrite set_at_nth by lia; apply ci_with_self).
    unfold shift_one.
    assert (Ok' : forall y, Forall (ci_ok n) (pre ++ ci_with x0 [y] :: post)) by (intros y; apply (ok_with pre post x0 v); auto).
    assert (Ox : forall y, ci_ok n (ci_with x0 [y])) by (intros y; specialize (Ok' y); apply Forall_app in Ok'; destruct Ok' as [_ O]; now inversion O).
    assert (Ov : ci_ok n (ci_with x0 v)) by (apply Forall_app in HO; destruct HO as [_ O]; now inversion O).
    rewrite (update_gate_ok n pre _ x0 post [(a + / 2 * PI)%R]); [|exact Ov|now apply form_self|cbn; lia|discriminate|apply P].
    cbn [bind]. rewrite cobj_expectation by (auto; eapply can_with; eauto). cbn [bind].
    rewrite (update_gate_ok n pre _ x0 post [(a - / 2 * PI)%R]); [|apply Ox|now apply form_self|cbn; lia|discriminate|apply P].
    cbn [bind]. rewrite cobj_expectation by (auto; eapply can_with; eauto). cbn [bind].
    rewrite (update_gate_ok n pre _ x0 post [a]); [|apply Ox|now apply form_self|cbn; lia|discriminate|apply P].
    cbn [bind]. rewrite A. eexists. split; [reflexivity|]. unfold local_grad. rewrite L1. cbn [seq map]. cbv zeta. fold a. now rewrite !S.
  Qed.

  (** the recorded parameters are those of [cs0] *)
  Definition recorded (ps : list (nat * option pval)) (cs0 : list ci) : Prop :=
    forall k x, nth_error cs0 k = Some x -> ci_angles x <> [] -> dict_get ps k = Ok (Some (pv_of x)).
  Lemma pv_cases : forall x0, ci_angles x0 <> [] -> pv_of x0 = PV (ci_angles x0) \/ (length (ci_angles x0) = 1 /\ pv_of x0 = PS (nth 0 (ci_angles x0) 0%R)).
  Proof. intros [[]|l] H; cbn in *; try congruence; try (left; reflexivity); right; split; reflexivity. Qed.

  Lemma shift_gate_ok : forall pre post x0 x ps k gr, form x x0 -> (ci_angles x0 <> [] -> dict_get ps (length pre) = Ok (Some (pv_of x0))) ->
    Forall (ci_ok n) (pre ++ x :: post) -> exp_can (pre ++ x :: post) ->
    shift_gate svd t m (cobj n (pre ++ x :: post) ps k, gr) (length pre) = Ok (cobj n (pre ++ x0 :: post) ps k, gr ++ local_grad pre post x0).
  Proof.
    intros pre post x0 x ps k gr Fx HD HO HC. unfold shift_gate. cbn [c_gate cobj c_params].
    rewrite map_app. cbn [map]. rewrite <- (map_length (oobj n) pre), nth_error_mid, map_length.
    assert (Ox : ci_ok n x) by (apply Forall_app in HO; destruct HO as [_ O]; now inversion O). rewrite (form_num x x0 Ox Fx).
    destruct (length (ci_angles x0) =? 0) eqn:E0.
    - apply Nat.eqb_eq in E0. destruct (ci_angles x0) as [|] eqn:EA; [|discriminate]. unfold local_grad. rewrite EA. cbn [length seq map]. rewrite app_nil_r.
      f_equal. f_equal. unfold cobj. f_equal. destruct Fx as (v & Lv & ->). rewrite EA in Lv. destruct v; [|discriminate].
      rewrite !map_app. cbn [map]. do 3 f_equal. transitivity (ci_with x0 (ci_angles x0)); [now rewrite EA|apply ci_with_self].
    - assert (NA : ci_angles x0 <> []) by (intros X; rewrite X in E0; discriminate). rewrite (HD NA). cbn [bind].
      destruct (pv_cases x0 NA) as [V|[L1 V]]; rewrite V.
      + rewrite shift_entries by auto. reflexivity.
      + destruct (shift_single pre post x0 x ps k Fx L1 V HO HC) as (g & E & L). rewrite E. cbn [bind fst snd]. now rewrite L.
  Qed.

  (** all the local gradients: the operations already treated have their recorded angles *)
  Fixpoint all_grad (done rest0 rest : list ci) : list R :=
    match rest0, rest with
    | x0 :: r0, _ :: r => local_grad done r x0 ++ all_grad (done ++ [x0]) r0 r
    | _, _ => []
    end.
  Lemma shift_gates_ok : forall rest0 rest done ps k gr, Forall2 form rest rest0 -> recorded ps (done ++ rest0) ->
    Forall (ci_ok n) (done ++ rest) -> exp_can (done ++ rest) ->
    mfold (shift_gate svd t m) (seq (length done) (length rest)) (cobj n (done ++ rest) ps k, gr)
    = Ok (cobj n (done ++ rest0) ps k, gr ++ all_grad done rest0 rest).
  Proof.
    induction rest0 as [|x0 r0 IH]; intros rest done ps k gr HF HR HO HC; inversion HF as [|x ? r ? Fx HF']; subst; cbn [length seq mfold all_grad].
    - rewrite !app_nil_r; reflexivity.
    - rewrite (shift_gate_ok done r x0 x); [|exact Fx|intros NA; apply (HR (length done) x0); [apply nth_error_mid|exact NA]|exact HO|exact HC]. cbn [bind].
      replace (S (length done)) with (length (done ++ [x0])) by (rewrite app_length; cbn; lia).
      replace (done ++ x0 :: r) with ((done ++ [x0]) ++ r) by (now rewrite <- app_assoc).
      destruct Fx as (v & Lv & ->).
      rewrite IH; auto.
      + now rewrite <- !app_assoc.
      + now rewrite <- app_assoc.
      + rewrite <- app_assoc. cbn [app]. rewrite <- (ci_with_self x0). now apply (ok_with done r x0 v).
      + rewrite <- app_assoc. cbn [app]. rewrite <- (ci_with_self x0). now apply (can_with done r x0 v).
  Qed.
  Lemma local_grad_length : forall pre post x0, length (local_grad pre post x0) = length (ci_angles x0).
  Proof. intros. unfold local_grad. now rewrite map_length, seq_length. Qed.
  Lemma all_grad_length : forall rest0 rest done, Forall2 form rest rest0 -> length (all_grad done rest0 rest) = length (cs_angles rest0).
  Proof.
    induction rest0 as [|x0 r0 IH]; intros rest done HF; inversion HF as [|x ? r ? Fx HF']; subst; [reflexivity|]. cbn [all_grad cs_angles flat_map]. fold (cs_angles r0).
    now rewrite !app_length, local_grad_length, IH.
  Qed.
  (** the whole method, for a circuit whose record may be out of date *)
  Lemma grad_run : forall cs0 cs ps k, Forall2 form cs cs0 -> recorded ps cs0 -> Forall (ci_ok n) cs -> exp_can cs ->
    cal_params_grad svd t m (cobj n cs ps k) =
    if length (cs_angles cs0) =? k then Ok (all_grad [] cs0 cs, cobj n cs0 ps k) else Err AssertionError.
  Proof.
    intros cs0 cs ps k HF HR HO HC. unfold cal_params_grad. cbn [c_gate cobj]. rewrite map_length.
    pose proof (shift_gates_ok cs0 cs [] ps k [] HF HR HO HC) as E. cbn [app length] in E. rewrite E. cbn [bind].
    rewrite all_grad_length by exact HF. unfold assert_. cbn [c_num cobj]. reflexivity.
  Qed.
  Lemma circ_cobj : forall cs, circ n cs = cobj n cs (c_params (circ n cs)) (c_num (circ n cs)).
  Proof. intros cs. unfold cobj. rewrite <- circ_gate. rewrite <- (circ_N n cs) at 2. now destruct (circ n cs). Qed.
  Lemma circ_recorded : forall cs, Forall (ci_ok n) cs -> recorded (c_params (circ n cs)) cs.
  Proof.
    intros cs H k x Hk NA. destruct (bookkeeping n (map (oobj n) cs) (circ n cs) eq_refl) as (_ & _ & _ & _ & H3).
    rewrite (H3 k (oobj n x)) by (now rewrite nth_error_map, Hk). f_equal. fold (o_shown (oobj n x)).
    assert (Hx : ci_ok n x) by (rewrite Forall_forall in H; eapply H, nth_error_In; eauto).
    destruct (o_angles n x Hx) as [_ O]. destruct (o_shown (oobj n x)); [|congruence]. f_equal. apply O.
  Qed.
  Lemma form_all : forall cs, Forall2 form cs cs.
  Proof. induction cs; constructor; auto using form_refl. Qed.
  Lemma circ_num : forall cs, Forall (ci_ok n) cs -> c_num (circ n cs) = length (cs_angles cs).
  Proof. intros cs H. destruct (bookkeeping_values n cs H) as (c & E & N & _). rewrite circuit_of_ok in E by auto. injection E as <-. exact N. Qed.

  Lemma all_grad_nth : forall cs1 done x cs2 i, i < length (ci_angles x) ->
    nth (length (cs_angles cs1) + i) (all_grad done (cs1 ++ x :: cs2) (cs1 ++ x :: cs2)) 0%R = nth i (local_grad (done ++ cs1) cs2 x) 0%R.
  Proof.
    induction cs1 as [|c cs1 IH]; intros done x cs2 i Hi; cbn [app all_grad].
    - rewrite app_nil_r. cbn [cs_angles flat_map length Nat.add]. apply app_nth1. now rewrite local_grad_length.
    - cbn [cs_angles flat_map]. fold (cs_angles cs1). rewrite app_length, app_nth2; rewrite local_grad_length; [|lia].
      replace (length (ci_angles c) + length (cs_angles cs1) + i - length (ci_angles c)) with (length (cs_angles cs1) + i) by lia.
      rewrite IH by exact Hi. now rewrite <- app_assoc.
  Qed.
  Lemma gradient_ok : forall cs, Forall (ci_ok n) cs -> exp_can cs -> forallb (fun c => negb (ci_cu3 c)) cs = true ->
    exists grads, cal_params_grad svd t m (circ n cs) = Ok (grads, circ n cs) /\ length grads = length (cs_angles cs) /\
      forall k, k < length (cs_angles cs) ->
        derivable_pt_lim (fun x => expect n (cs_with cs (set_at k x (cs_angles cs))) psi M) (nth k (cs_angles cs) 0%R) (nth k grads 0%R).
  Proof.
    intros cs H HC HU. exists (all_grad [] cs cs). split; [|split].
    - rewrite (circ_cobj cs), (grad_run cs) by (auto using form_all, circ_recorded). rewrite circ_num, Nat.eqb_refl by auto. reflexivity.
    - apply all_grad_length, form_all.
    - intros k Hk. destruct (cs_split cs k Hk) as (cs1 & x & cs2 & i & E1 & E2 & E3 & E4).
      assert (X : (fun y => expect n (cs_with cs (set_at k y (cs_angles cs))) psi M) = fun y => expect n (cs1 ++ ci_with x (set_at i y (ci_angles x)) :: cs2) psi M).
      { apply FunctionalExtensionality.functional_extensionality. intros y. now rewrite E4. }
      rewrite X. clear X E4. subst cs k. rewrite all_grad_nth by exact E3. cbn [app].
      rewrite cs_angles_app. cbn [cs_angles flat_map]. fold (cs_angles cs2). rewrite app_nth2 by lia.
      replace (length (cs_angles cs1) + i - length (cs_angles cs1)) with i by lia. rewrite app_nth1 by exact E3.
      unfold local_grad. rewrite nth_map_seq0 by exact E3. cbv zeta. unfold Eat.
      apply (shift_derivative n cs1 cs2 x i psi M); auto.
      + apply Forall_app in H. destruct H as [_ H]. now inversion H.
      + rewrite forallb_app in HU. cbn [forallb] in HU. destruct (ci_cu3 x); [|reflexivity]. cbn in HU. rewrite andb_false_r in HU. discriminate.
  Qed.
End Run.
