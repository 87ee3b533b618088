(** The parameter-shift gradient with memory layouts: agreement with the one without for every decomposition that returns matrices of
    the right shapes, and the error bounds with a true decomposition. *)
From Coq Require Import List ZArith QArith Reals Lra Lia Bool Arith.
From Coquelicot Require Import Complex.
From Verif Require Import PyBase Scalar CInst BigSum Index Tensor TensorFacts Spec SpecFacts GateSpec RunSpec LayerSpec MPSSpec CircuitSpec
  QMath QTN QOperator QGates GateCalls QLayers LayerCalls QCircuit QGradient MPSCases CircuitFacts1 CircuitProofs GradSpec GradFacts1 GradFacts2 GradFacts3 GradProofs GradProofs2
  QStride QStride2 QStride3 StrideProofs StrideCases StrideCircuit StrideCircuit2 StrideSaved StrideSaved2 QMathC MeasSpec TruncSpec TruncRunSpec TruncRun9 TruncRun10 TruncGrad TruncAdj2 SVDExist5.
Import ListNotations.
Local Close Scope Q_scope.
Local Close Scope R_scope.
Local Open Scope nat_scope.

Section Shift.
  Variable svd : tensor -> tensor * tensor * tensor.
  Variable svd_lay : stensor -> list nat * list nat * list nat.
  Variable mmT : stensor -> stensor -> bool.
  Variable ein_lay : stensor -> stensor -> list nat.
  Variable lay : tensor -> list nat.
  Hypothesis Hsh : svd_shapes svd.
  Hypothesis Hts : torch_svd svd.
  Hypothesis Htl : torch_layouts svd_lay ein_lay.
  Hypothesis Hml : matrix_layouts lay.
  Variable n : nat.
  Hypothesis Hn : 0 < n.
  Variables x_ m_ : stensor.
  Hypothesis Hx : laid_out x_.
  Hypothesis Sx : shape (val x_) = [1; 2 ^ n].
  Hypothesis Wx : wf (val x_).
  Hypothesis Hm : laid_out m_.
  Variables (cs0 : list ci) (ps : list (nat * option pval)) (kn : nat).
  Hypothesis H0 : Forall (ci_ok n) cs0.
  Hypothesis HR : recorded ps cs0.

  Lemma met_expectation : forall c, met n cs0 ps kn c ->
    s_cir_expectation svd svd_lay mmT ein_lay lay c x_ m_ true = cir_expectation svd c (val x_) (val m_) true.
  Proof.
    intros c (cs & -> & F). pose proof (form_ok n cs cs0 F H0) as H.
    assert (E : s_cir_expectation svd svd_lay mmT ein_lay lay (cobj n cs ps kn) x_ m_ true = s_cir_expectation svd svd_lay mmT ein_lay lay (circ n cs) x_ m_ true).
    { unfold s_cir_expectation, s_TN_evolution, TN_check, s_cU, cobj. cbn [c_N c_gate]. now rewrite circ_N, circ_gate. }
    rewrite E. rewrite (expectation_layout svd svd_lay mmT ein_lay lay n cs (circ n cs) x_ m_ true); auto using circuit_of_ok.
    unfold cir_expectation, TN_evolution, TN_check, cU, cobj. cbn [c_N c_gate]. now rewrite circ_N, circ_gate.
  Qed.

  Lemma shift_gate_RS : forall i a b, same n cs0 ps kn a b ->
    rres (same n cs0 ps kn) (s_shift_gate svd svd_lay mmT ein_lay lay x_ m_ a i) (shift_gate svd (val x_) (val m_) b i).
  Proof.
    intros i [c gr] b [<- (cs & E & F)]. cbn [fst] in E. subst c. unfold s_shift_gate, shift_gate. cbn [c_gate c_params cobj]. rewrite nth_error_map.
    destruct (nth_error cs i) as [x|] eqn:X; cbn [option_map]; [|reflexivity].
    destruct (met_cases n cs0 ps H0 HR cs i x F X) as (x0 & X0 & Fx). assert (Ox : ci_ok n x) by (eapply all_ok; [now apply (form_ok n cs cs0)|exact X]).
    assert (MC : met n cs0 ps kn (cobj n cs ps kn)) by (exists cs; auto).
    rewrite (form_num n x x0 Ox Fx). destruct (length (ci_angles x0) =? 0) eqn:E0; [split; auto|].
    assert (NA : ci_angles x0 <> []) by (intros Z; rewrite Z in E0; discriminate). rewrite (HR i x0 X0 NA). cbn [bind].
    set (a := ci_angles x0) in *.
    assert (NE : forall u : list R, length u = length a -> u <> []) by (intros u Lu ->; destruct a; [congruence|discriminate]).
    destruct (pv_cases x0 NA) as [V|[L1 V]]; rewrite V.
    - fold a in V |- *.
      assert (P : forall u, length u = length a -> PV u = pv_of (ci_with x0 u)).
      { intros u Lu. symmetry. unfold pv_of in *. destruct x0 as [[]|l]; cbn [ci_with gi_with ci_angles gi_angles] in *; try discriminate;
          cbn in Lu; try (destruct u as [|u1 [|u2 [|u3 [|]]]]; try discriminate; reflexivity).
        f_equal. apply (ci_with_angles (CL l)). exact Lu. }
      assert (PL : forall (p : list R) j y, length p = length a -> length (padd p j y) = length a) by (intros p j y Lp; unfold padd; now rewrite set_nth_length).
      assert (ST : forall c u, met n cs0 ps kn c -> length u = length a -> exists c', update_gate c i (PV u) = Ok c' /\ met n cs0 ps kn c').
      { intros c u M1 Lu. apply (met_set n Hn cs0 ps kn H0 HR c i x0 (PV u) u); auto. }
      eapply (rbind _ _ _ _ (fun p q : circuit * list R * list R => p = q /\ met n cs0 ps kn (fst (fst p)) /\ length (snd (fst p)) = length a)).
      + apply rfold; [|split; [reflexivity|split; [exact MC|reflexivity]]].
        intros [[c1 p] g] q j [<- [M1 Lp]]. cbn [fst snd] in *. unfold s_shift_entry, shift_entry. cbv zeta.
        set (p1 := padd p j (/ 2 * PI)). set (p2 := padd p1 j (- PI)). set (p3 := padd p2 j (/ 2 * PI)).
        assert (Lp1 : length p1 = length a) by (now apply PL). assert (Lp2 : length p2 = length a) by (now apply PL). assert (Lp3 : length p3 = length a) by (now apply PL).
        destruct (ST c1 p1 M1 Lp1) as (c2 & E2 & M2). rewrite E2. cbn [bind]. rewrite (met_expectation c2 M2). apply rbind_eq. intros e1 _.
        destruct (ST c2 p2 M2 Lp2) as (c3 & E3 & M3). rewrite E3. cbn [bind]. rewrite (met_expectation c3 M3). apply rbind_eq. intros e2 _.
        destruct (ST c3 p3 M3 Lp3) as (c4 & E4 & M4). rewrite E4. cbn [bind].
        split; [reflexivity|]. split; [exact M4|exact Lp3].
      + intros [[c1 p] g] q _ _ [<- [M1 _]]. split; [reflexivity|exact M1].
    - fold a in L1, V |- *. set (y := nth 0 a 0%R).
      assert (P : forall z, PS z = pv_of (ci_with x0 [z])).
      { intros z. unfold pv_of in *. destruct x0 as [[]|l]; cbn [ci_with gi_with ci_angles gi_angles] in *; try discriminate; reflexivity. }
      assert (ST : forall c z, met n cs0 ps kn c -> exists c', update_gate c i (PS z) = Ok c' /\ met n cs0 ps kn c').
      { intros c z M1. apply (met_set n Hn cs0 ps kn H0 HR c i x0 (PS z) [z]); [exact M1|exact X0|symmetry; exact L1|discriminate|apply P]. }
      eapply (rbind _ _ _ _ (fun p q : circuit * R => p = q /\ met n cs0 ps kn (fst p))).
      + unfold s_shift_one, shift_one.
        destruct (ST _ (y + / 2 * PI)%R MC) as (c2 & E2 & M2). rewrite E2. cbn [bind]. rewrite (met_expectation c2 M2). apply rbind_eq. intros e1 _.
        destruct (ST _ (y - / 2 * PI)%R M2) as (c3 & E3 & M3). rewrite E3. cbn [bind]. rewrite (met_expectation c3 M3). apply rbind_eq. intros e2 _.
        destruct (ST _ y M3) as (c4 & E4 & M4). rewrite E4. cbn [bind]. split; [reflexivity|exact M4].
      + intros [c1 e] q _ _ [<- M1]. split; [reflexivity|exact M1].
  Qed.
End Shift.

Section Statements.
  Variable svd : tensor -> tensor * tensor * tensor.
  Variable svd_lay : stensor -> list nat * list nat * list nat.
  Variable mmT : stensor -> stensor -> bool.
  Variable ein_lay : stensor -> stensor -> list nat.
  Variable lay : tensor -> list nat.

  Lemma shift_layout : forall n cs x m, svd_shapes svd -> torch_svd svd -> torch_layouts svd_lay ein_lay -> matrix_layouts lay ->
    0 < n -> Forall (ci_ok n) cs -> laid_out x -> shape (val x) = [1; 2 ^ n] -> wf (val x) -> laid_out m ->
    exists c, circuit_of n cs = Ok c /\ s_cal_params_grad svd svd_lay mmT ein_lay lay x m c = cal_params_grad svd (val x) (val m) c.
  Proof.
    intros n cs x m Hsh Hts Htl Hml Hn H Hx Sx Wx Hm. exists (circ n cs). split; [now apply circuit_of_ok|].
    rewrite (circ_cobj n cs). set (ps := c_params (circ n cs)). set (kn := c_num (circ n cs)).
    assert (HR : recorded ps cs) by (now apply circ_recorded).
    assert (E : rres eq (s_cal_params_grad svd svd_lay mmT ein_lay lay x m (cobj n cs ps kn)) (cal_params_grad svd (val x) (val m) (cobj n cs ps kn))).
    2:{ destruct (s_cal_params_grad _ _ _ _ _ _ _ _), (cal_params_grad _ _ _ _); cbn in E; try contradiction; congruence. }
    unfold s_cal_params_grad, cal_params_grad. cbn [c_gate cobj].
    eapply (rbind _ _ _ _ (same n cs ps kn)).
    - apply rfold; [intros a b i; now apply shift_gate_RS|]. split; [reflexivity|]. exists cs. split; [reflexivity|]. apply form_all.
    - intros [c g] q _ _ [<- _]. apply rassert. reflexivity.
  Qed.

  (** a true decomposition *)
  Lemma true_shapes : true_svd svd -> svd_shapes svd.
  Proof. intros Ht A m k S W Hm Hk. specialize (Ht A m k S W Hm Hk). destruct (svd A) as [[U Sg] V]. cbv zeta in *. destruct Ht as (A1 & A2 & A3 & A4 & A5 & A6 & _). auto 10. Qed.
  Lemma state_wf : forall n t (psi : @qstate C_scalar), is_state n [1; 2 ^ n] t psi -> wf t.
  Proof. intros n t psi (S & L & _). unfold wf. rewrite S, L. cbn [prodn]. lia. Qed.

  Lemma gradient_true_laid : forall n x (psi : @qstate C_scalar) m M B, true_svd svd -> torch_svd svd -> torch_layouts svd_lay ein_lay -> matrix_layouts lay -> 0 < n ->
    laid_out x -> is_state n [1; 2 ^ n] (val x) psi -> norm2 n psi = 1%R -> (INR (cut_count n (n - 1)) <= 10 ^ 14)%R ->
    laid_out m -> is_op n (val m) M -> (0 <= B)%R -> (forall h, norm2 n (act n M h) <= B * B * norm2 n h)%R ->
    forall cs, Forall (ci_ok n) cs -> forallb (ci_TN n) cs = true -> forallb two_term cs = true -> (INR (ci_moves cs) <= 2 * 10 ^ 6)%R ->
    exists c g d, circuit_of n cs = Ok c /\ s_cal_params_grad svd svd_lay mmT ein_lay lay x m c = Ok (g, c) /\ is_gradient n cs psi M d /\ length g = length d /\
      let e := ((sqrt (INR (cut_count n (n - 1))) + 8 * INR (ci_moves cs)) * / 10 ^ 8)%R in
      forall k, k < length d -> (Rabs (nth k g 0 - nth k d 0) <= B * (e * (2 + e)))%R.
  Proof.
    intros n x psi m M B Hs Hts Htl Hml Hn Hx Ht HN HC Hm HM HB HO cs H T P HW.
    destruct (gradient_true svd n (val x) psi (val m) M B Hs Hn Ht HN HC HM HB HO cs H T P HW) as (c & g & d & E1 & E2 & E3).
    destruct (shift_layout n cs x m (true_shapes Hs) Hts Htl Hml Hn H Hx (proj1 Ht) (state_wf n _ psi Ht) Hm) as (c' & F1 & F2).
    rewrite E1 in F1. injection F1 as <-. exists c, g, d. rewrite F2. auto.
  Qed.
  Lemma adjoint_true_laid : forall n cs x (psi : @qstate C_scalar) mo, true_svd svd -> torch_svd svd -> torch_layouts svd_lay ein_lay -> matrix_layouts lay ->
    0 < n -> Forall (ci_ok n) cs -> forallb (ci_TN n) cs = true -> cs <> [] ->
    forallb pure_rotation cs = true -> ci_ok n mo -> ci_TN n mo = true -> hermitian n (ci_op n mo) ->
    laid_out x -> is_state n [1; 2 ^ n] (val x) psi -> norm2 n psi = 1%R ->
    (INR (cut_count n (n - 1)) <= 10 ^ 14)%R -> (INR (ci_moves (cs ++ mo :: cs)) <= 2 * 10 ^ 6)%R ->
    let e := ((sqrt (INR (cut_count n (n - 1))) + 8 * INR (ci_moves (cs ++ mo :: cs))) * / 10 ^ 8)%R in
    exists c o sd sv f g d, circuit_of n cs = Ok c /\ obuild n mo = Ok o /\ s_save_mid_MPS svd svd_lay mmT ein_lay lay x c o = Ok (sd, sv) /\ is_state n [1; 2 ^ n] (val sv) f /\
      (sqrt (rsum (bits n) (fun b => Cnorm2 (Csub (act n (cs_op n cs) psi b) (f b)))) <= e)%R /\
      s_cal_params_grad2 svd svd_lay mmT ein_lay lay x c sd = Ok (g, c) /\ is_gradient n cs psi (ci_op n mo) d /\ length g = length d /\
      forall k, k < length d -> (Rabs (nth k g 0 - nth k d 0) <= e * (2 + e))%R.
  Proof.
    intros n cs x psi mo Hs Hts Htl Hml Hn H T NE P Hm Tm HM Hx Ht HN HC HW e.
    destruct (adjoint_gradient_true svd n cs (val x) psi mo Hs Hn H T NE P Hm Tm HM Ht HN HC HW) as (c & o & sd' & sv' & f & g & d & E1 & E2 & E3 & E4 & E5 & E6 & G).
    destruct (saved_transfer svd svd_lay mmT ein_lay lay n cs mo x c o sd' sv' (true_shapes Hs) Hts Htl Hml Hn H Hm Hx (state_wf n _ psi Ht) E1 E2 E3) as (sd & sv & F1 & F2 & F3).
    exists c, o, sd, sv, f, g, d. rewrite F2, F3. auto 10.
  Qed.
  Lemma expectation_true_laid : forall n cs x (psi : @qstate C_scalar) m M B, true_svd svd -> torch_svd svd -> torch_layouts svd_lay ein_lay -> matrix_layouts lay ->
    0 < n -> Forall (ci_ok n) cs -> forallb (ci_TN n) cs = true ->
    laid_out x -> is_state n [1; 2 ^ n] (val x) psi -> norm2 n psi = 1%R -> (INR (cut_count n (n - 1)) <= 10 ^ 14)%R -> (INR (ci_moves cs) <= 2 * 10 ^ 6)%R ->
    laid_out m -> is_op n (val m) M -> (0 <= B)%R -> (forall h, norm2 n (act n M h) <= B * B * norm2 n h)%R ->
    exists c v, circuit_of n cs = Ok c /\ s_cir_expectation svd svd_lay mmT ein_lay lay c x m true = Ok v /\
      (let e := (sqrt (INR (cut_count n (n - 1))) + 8 * INR (ci_moves cs)) * / 10 ^ 8 in Rabs (v - expect n cs psi M) <= B * (e * (2 + e)))%R.
  Proof.
    intros n cs x psi m M B Hs Hts Htl Hml Hn H T Hx Ht HN HC HW Hm HM HB HO.
    destruct (expectation_true svd n cs (val x) psi (val m) M B Hs Hn H T Ht HN HC HW HM HB HO) as (c & v & E1 & E2 & E3).
    exists c, v. split; [exact E1|]. split; [|exact E3]. rewrite <- E2.
    apply (expectation_layout svd svd_lay mmT ein_lay lay n cs); auto using true_shapes; [exact (proj1 Ht)|now apply (state_wf n _ psi)].
  Qed.
End Statements.

(** a true decomposition that returns two matrices and a vector whatever it is given *)
Lemma true_torch_svd : exists svd : @tensor C_scalar -> @tensor C_scalar * @tensor C_scalar * @tensor C_scalar, true_svd svd /\ torch_svd svd.
Proof.
  destruct true_svd_exists as (svd & Hs).
  exists (fun A => match shape A with
                   | [m; k] => if (length (data A) =? prodn (shape A)) && (0 <? m) && (0 <? k) then svd A else (mkT [0; 0] [], mkT [0] [], mkT [0; 0] [])
                   | _ => (mkT [0; 0] [], mkT [0] [], mkT [0; 0] []) end).
  split.
  - intros A m k S W Hm Hk. rewrite S. assert (E : length (data A) = prodn [m; k]) by (rewrite <- S; exact W). rewrite E, Nat.eqb_refl.
    apply Nat.ltb_lt in Hm as Hm'. apply Nat.ltb_lt in Hk as Hk'. rewrite Hm', Hk'. cbn [andb]. exact (Hs A m k S W Hm Hk).
  - intros A U Sg V. destruct (shape A) as [|m [|k [|? ?]]] eqn:S; try (intros E; injection E as <- <- <-; repeat split; reflexivity).
    destruct (_ && _ && _) eqn:B; [|intros E; injection E as <- <- <-; repeat split; reflexivity].
    apply andb_true_iff in B as [B B3]. apply andb_true_iff in B as [B1 B2]. apply Nat.eqb_eq in B1. apply Nat.ltb_lt in B2. apply Nat.ltb_lt in B3.
    intros E. assert (W : wf A) by (unfold wf; rewrite S; exact B1). pose proof (Hs A m k S W B2 B3) as X. rewrite E in X. cbv zeta in X.
    destruct X as (X1 & _ & X2 & _ & X3 & _). now rewrite X1, X2, X3.
Qed.

(** the whole way from a state to the measured values *)
Lemma measure_true_laid : forall svd svd_lay mmT ein_lay lay n cs x (psi : @qstate C_scalar), true_svd svd -> torch_svd svd -> torch_layouts svd_lay ein_lay -> matrix_layouts lay ->
  0 < n -> Forall (ci_ok n) cs -> forallb (ci_TN n) cs = true ->
  laid_out x -> is_state n [1; 2 ^ n] (val x) psi -> norm2 n psi = 1%R -> (INR (cut_count n (n - 1)) <= 10 ^ 14)%R -> (INR (ci_moves cs) <= 2 * 10 ^ 6)%R ->
  exists c l l' y vs, circuit_of n cs = Ok c /\ s_StateVec2MPS svd svd_lay mmT x n = Ok l /\ s_TN_evolution svd svd_lay mmT ein_lay lay c l = Ok l' /\
    s_MPS2StateVec mmT l' = Ok y /\ s_measure mmT lay (Z.of_nat n) y INone = Ok vs /\ length vs = n /\
    forall i, i < n -> (let e := (sqrt (INR (cut_count n (n - 1))) + 8 * INR (ci_moves cs)) * / 10 ^ 8 in
      Rabs (nth i vs 0 - zmean n (act n (cs_op n cs) psi) i) <= e * (2 + e))%R.
Proof.
  intros svd svd_lay mmT ein_lay lay n cs x psi Hs Hts Htl Hml Hn H T Hx Ht HN HC HW.
  destruct (measure_true svd n cs (val x) psi Hs Hn H T Ht HN HC HW) as (c & l0 & l1 & t & vs & E1 & E2 & E3 & E4 & E5 & G).
  pose proof (start_RM svd svd_lay mmT ein_lay (true_shapes svd Hs) Hts Htl n Hn x Hx (state_wf n _ psi Ht)) as R. rewrite E2 in R.
  destruct (s_StateVec2MPS svd svd_lay mmT x n) as [l|e] eqn:F1; cbn [rres] in R; [|contradiction]. destruct R as [R1 R2].
  pose proof (revolution svd svd_lay mmT ein_lay lay Hts Htl Hml c l l0 R1) as R. rewrite E3 in R.
  destruct (s_TN_evolution _ _ _ _ _ c l) as [l'|e] eqn:F2; cbn [rres] in R; [|contradiction].
  assert (R3 : RM n l' l1) by (split; [exact R|]; eapply (circuit_shape svd n cs c l0 l1); eauto using true_shapes).
  pose proof (vec_RM mmT n l' l1 R3) as R4. rewrite E4 in R4.
  destruct (s_MPS2StateVec mmT l') as [y|e] eqn:F3; cbn [rres] in R4; [|contradiction].
  exists c, l, l', y, vs. split; [exact E1|]. split; [reflexivity|]. split; [exact F2|]. split; [exact F3|]. split; [|exact G].
  rewrite <- E5. apply rmeasure; auto.
Qed.
