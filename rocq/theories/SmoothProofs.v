(** Proofs: how much values and gradients change with the angles. *)
From Coq Require Import List ZArith QArith Reals Lra Lia Bool Arith FunctionalExtensionality.
From Verif Require Import PyBase Scalar CInst BigSum Index Tensor TensorFacts Spec SpecFacts QMath QTN QOperator GateSpec QGates GateCalls
  RunSpec MPSSpec LayerSpec QLayers LayerCalls LayerFacts1 CircuitSpec QCircuit CircuitFacts1 CircuitProofs MeasSpec MeasFacts MPSCases GradSpec GradFacts1 GradFacts2 GradFacts3 GradProofs GradCases QGradient
  ApartProofs OneAngleSpec OneAngleFacts OneAngleProofs ObsSpec ObsProofs StaleProofs SmoothSpec.
Import ListNotations.
Local Close Scope Q_scope.
Local Close Scope R_scope.
Local Open Scope nat_scope.

Lemma with_angles : forall cs v, length v = length (cs_angles cs) -> cs_angles (cs_with cs v) = v.
Proof.
  induction cs as [|c cs IH]; intros v L; [destruct v; [reflexivity|discriminate]|]. cbn [cs_angles flat_map] in L. fold (cs_angles cs) in L. rewrite app_length in L.
  cbn [cs_with]. cbv zeta. cbn [cs_angles flat_map]. fold (cs_angles (cs_with cs (skipn (length (ci_angles c)) v))).
  rewrite ci_with_angles by (rewrite firstn_length; lia). rewrite IH by (rewrite skipn_length; lia). apply firstn_skipn.
Qed.
Lemma with_with : forall cs u v, length u = length (cs_angles cs) -> length v = length (cs_angles cs) -> cs_with (cs_with cs u) v = cs_with cs v.
Proof.
  induction cs as [|c cs IH]; intros u v L L'; [reflexivity|]. cbn [cs_angles flat_map] in L, L'. fold (cs_angles cs) in L, L'. rewrite app_length in L, L'.
  cbn [cs_with]. cbv zeta. rewrite ci_with_angles by (rewrite firstn_length; lia). rewrite (firstn_length (length (ci_angles c)) u), Nat.min_l by lia. rewrite ci_with_with by (rewrite firstn_length; lia). f_equal.
  apply IH; rewrite skipn_length; lia.
Qed.
Lemma with_matrix : forall cs v, length v = length (cs_angles cs) -> existsb matrix_only cs = true -> existsb matrix_only (cs_with cs v) = true.
Proof.
  induction cs as [|c cs IH]; intros v L H; [discriminate|]. cbn [cs_angles flat_map] in L. fold (cs_angles cs) in L. rewrite app_length in L.
  cbn [cs_with]. cbv zeta. cbn [existsb] in *. apply orb_true_iff in H. apply orb_true_iff. destruct H as [H|H]; [left|right; apply IH; [rewrite skipn_length; lia|exact H]].
  destruct c as [g|l]; [|now destruct l]. destruct g; try discriminate; reflexivity.
Qed.

Lemma Rabs_def2_le : forall x a, (Rabs x <= a)%R -> (- a <= x <= a)%R.
Proof. intros x a. unfold Rabs. destruct Rcase_abs; lra. Qed.

Section Angles.
  Variables (n : nat) (psi : @qstate C_scalar) (M : @qop C_scalar) (lo hi : R).
  Hypothesis V : values_in n lo hi M.
  Let K := ((hi - lo) / 2 * norm2 n psi)%R.

  Lemma K_pos : forall cs, Forall (ci_ok n) cs -> (0 <= K)%R.
  Proof. intros cs H. pose proof (expect_range n cs psi M lo hi H V). unfold K. lra. Qed.
  (** the derivative in one angle *)
  Lemma slope_bound : forall cs1 c cs2 i x, Forall (ci_ok n) (cs1 ++ c :: cs2) -> i < length (ci_angles c) ->
    (Rabs (four_term (fun y => expect n (one_angle cs1 c cs2 i y) psi M) x) <= K)%R.
  Proof.
    intros cs1 c cs2 i x H Hi. set (E := fun y => expect n (one_angle cs1 c cs2 i y) psi M).
    assert (R1 : forall y, (lo * norm2 n psi <= E y <= hi * norm2 n psi)%R) by (intros y; exact (expect_range n (one_angle cs1 c cs2 i y) psi M lo hi (one_angle_ok n cs1 c cs2 i y H Hi) V)).
    clearbody E.
    unfold four_term. pose proof (R1 (x + PI / 2)%R). pose proof (R1 (x - PI / 2)%R). pose proof (R1 (x + 3 * (PI / 2))%R). pose proof (R1 (x - 3 * (PI / 2))%R).
    assert (Q : (1 < sqrt 2)%R) by (rewrite <- sqrt_1 at 1; apply sqrt_lt_1; lra).
    set (s := sqrt 2) in *. set (a := ((s + 1) / (4 * s))%R). set (b := ((s - 1) / (4 * s))%R).
    assert (Pa : (0 <= a)%R) by (apply Rmult_le_pos; [lra|left; apply Rinv_0_lt_compat; lra]).
    assert (Pb : (0 <= b)%R) by (apply Rmult_le_pos; [lra|left; apply Rinv_0_lt_compat; lra]).
    assert (S : (a + b = / 2)%R) by (unfold a, b; field; lra).
    set (d1 := (E (x + PI / 2) - E (x - PI / 2))%R) in *. set (d2 := (E (x + 3 * (PI / 2)) - E (x - 3 * (PI / 2)))%R) in *.
    set (w := (hi * norm2 n psi - lo * norm2 n psi)%R).
    assert (D1 : (- w <= d1 <= w)%R) by (unfold d1, w; lra). assert (D2 : (- w <= d2 <= w)%R) by (unfold d2, w; lra).
    replace K with ((a + b) * w)%R by (rewrite S; unfold K, w; field).
    assert (A1 : (a * - w <= a * d1 <= a * w)%R) by (split; apply Rmult_le_compat_l; tauto).
    assert (A2 : (b * - w <= b * d2 <= b * w)%R) by (split; apply Rmult_le_compat_l; tauto).
    clearbody a b w d1 d2. clear - A1 A2. apply Rabs_le. rewrite <- Ropp_mult_distr_r in A1, A2. rewrite Rmult_plus_distr_r. lra.
  Qed.
  Lemma one_change : forall cs k y z, Forall (ci_ok n) cs -> k < length (cs_angles cs) ->
    (Rabs (expect n (cs_with cs (set_at k y (cs_angles cs))) psi M - expect n (cs_with cs (set_at k z (cs_angles cs))) psi M) <= K * Rabs (y - z))%R.
  Proof.
    intros cs k y z H Hk. destruct (cs_split cs k Hk) as (cs1 & c & cs2 & i & E1 & _ & E3 & E4). rewrite !E4. clear E4. subst cs.
    set (E := fun y => expect n (one_angle cs1 c cs2 i y) psi M). change (Rabs (E y - E z) <= K * Rabs (y - z))%R.
    assert (D : forall x, derivable_pt_lim E x (four_term E x)) by (intros x; exact (tones_derivative E x (angle_tones n cs1 c cs2 i psi M (ok_mid n cs1 c cs2 H) E3))).
    pose proof (fun x => slope_bound cs1 c cs2 i x H E3) as B. fold E in B. clearbody E K.
    assert (G : forall a b, (a < b)%R -> (Rabs (E b - E a) <= K * (b - a))%R).
    { intros a b L. destruct (MVT_cor2 E (four_term E) a b L) as (m & Em & _); [intros; apply D|]. rewrite Em, Rabs_mult, (Rabs_right (b - a)) by lra.
      apply Rmult_le_compat_r; [lra|]. apply B. }
    destruct (Rtotal_order y z) as [L|[->|L]].
    - rewrite Rabs_minus_sym, (Rabs_minus_sym y). rewrite (Rabs_right (z - y)) by lra. now apply G.
    - unfold Rminus. rewrite !Rplus_opp_r, Rabs_R0. lra.
    - rewrite (Rabs_right (y - z)) by lra. now apply G.
  Qed.
  Lemma all_changes : forall cs u v p, Forall (ci_ok n) cs -> length u = length v -> length (p ++ u) = length (cs_angles cs) ->
    (Rabs (expect n (cs_with cs (p ++ u)) psi M - expect n (cs_with cs (p ++ v)) psi M) <= K * total_change u v)%R.
  Proof.
    intros cs. induction u as [|x u IH]; intros [|y v] p H L T; try discriminate.
    - unfold Rminus. rewrite Rplus_opp_r, Rabs_R0. cbn. lra.
    - cbn [total_change]. injection L as L. pose proof (one_change (cs_with cs (p ++ x :: u)) (length p) x y) as X. rewrite with_angles in X by exact T.
      assert (S : forall z, set_at (length p) z (p ++ x :: u) = p ++ z :: u) by (intros z; rewrite <- (Nat.add_0_r (length p)), set_at_app2; now rewrite set_at_0).
      rewrite !S in X. assert (T' : length (p ++ y :: u) = length (cs_angles cs)) by (rewrite app_length in *; cbn in *; lia).
      rewrite !with_with in X by auto. specialize (X (cs_with_oks n cs _ H T)). assert (Hp : length p < length (p ++ x :: u)) by (rewrite app_length; cbn; lia). specialize (X Hp).
      specialize (IH v (p ++ [y]) H L). rewrite <- !app_assoc in IH. cbn [app] in IH. specialize (IH T').
      rewrite Rmult_plus_distr_l. eapply Rle_trans; [|apply Rplus_le_compat; [exact X|exact IH]].
      eapply Rle_trans; [|apply Rabs_triang]. right. f_equal. ring.
  Qed.
  Lemma angle_change : forall cs u v, Forall (ci_ok n) cs -> length u = length (cs_angles cs) -> length v = length (cs_angles cs) ->
    (Rabs (expect n (cs_with cs u) psi M - expect n (cs_with cs v) psi M) <= K * total_change u v)%R.
  Proof. intros cs u v H Lu Lv. apply (all_changes cs u v []); auto. congruence. Qed.
  (** the two-point value in one angle *)
  Lemma total_set : forall k u v x y, length u = length v -> k < length u ->
    total_change (set_at k x u) (set_at k y v) = (total_change u v - Rabs (nth k u 0 - nth k v 0) + Rabs (x - y))%R.
  Proof.
    induction k as [|k IH]; intros [|a u] [|b v] x y L Hk; try discriminate; cbn in Hk; try lia.
    - rewrite !set_at_0. cbn. lra.
    - rewrite !set_at_S. cbn [total_change nth]. injection L as L. rewrite IH by lia. lra.
  Qed.
  Lemma shift_change : forall cs u v k, Forall (ci_ok n) cs -> length u = length (cs_angles cs) -> length v = length (cs_angles cs) -> k < length u ->
    let g w := (/ 2 * (expect n (cs_with cs (set_at k (nth k w 0 + / 2 * PI) w)) psi M - expect n (cs_with cs (set_at k (nth k w 0 - / 2 * PI) w)) psi M))%R in
    (Rabs (g u - g v) <= K * total_change u v)%R.
  Proof.
    intros cs u v k H Lu Lv Hk g. unfold g. clear g.
    set (P := (/ 2 * PI)%R). set (a := nth k u 0%R). set (b := nth k v 0%R).
    pose proof (angle_change cs (set_at k (a + P) u) (set_at k (b + P) v) H) as X1. pose proof (angle_change cs (set_at k (a - P) u) (set_at k (b - P) v) H) as X2.
    rewrite !set_at_length in X1, X2 by lia. specialize (X1 Lu Lv). specialize (X2 Lu Lv). rewrite total_set in X1, X2 by lia. fold a b in X1, X2.
    replace (a + P - (b + P))%R with (a - b)%R in X1 by ring. replace (a - P - (b - P))%R with (a - b)%R in X2 by ring.
    replace (total_change u v - Rabs (a - b) + Rabs (a - b))%R with (total_change u v) in X1, X2 by ring.
    pose proof (Rabs_def2_le _ _ X1). pose proof (Rabs_def2_le _ _ X2). apply Rabs_le. lra.
  Qed.
End Angles.

Lemma value_change : forall svd n cs u v t psi m M lo hi TN, exact_svd svd -> 0 < n -> Forall (ci_ok n) cs -> length u = length (cs_angles cs) -> length v = length (cs_angles cs) ->
  is_state n [1; 2 ^ n] t psi -> is_op n m M -> values_in n lo hi M -> (TN = true -> nonzero n psi /\ forallb (ci_TN n) cs = true) ->
  exists c d x y, circuit_of n (cs_with cs u) = Ok c /\ cir_expectation svd c t m TN = Ok x /\ circuit_of n (cs_with cs v) = Ok d /\ cir_expectation svd d t m TN = Ok y /\
    (Rabs (x - y) <= (hi - lo) / 2 * norm2 n psi * total_change u v)%R.
Proof.
  intros svd n cs u v t psi m M lo hi TN Hs Hn H Lu Lv Ht Hm HV HT.
  destruct (expectation_value svd n (cs_with cs u) t psi m M TN Hs Hn (cs_with_oks n cs u H Lu) Ht Hm) as (c & E1 & E2); [rewrite form_TN; exact HT|].
  destruct (expectation_value svd n (cs_with cs v) t psi m M TN Hs Hn (cs_with_oks n cs v H Lv) Ht Hm) as (d & F1 & F2); [rewrite form_TN; exact HT|].
  exists c, d, (expect n (cs_with cs u) psi M), (expect n (cs_with cs v) psi M). repeat (split; [assumption|]). now apply angle_change.
Qed.
Lemma gradient_change : forall svd n cs u v t psi m M lo hi, exact_svd svd -> 0 < n -> Forall (ci_ok n) cs -> length u = length (cs_angles cs) -> length v = length (cs_angles cs) ->
  existsb matrix_only cs = true \/ (forallb (ci_TN n) cs = true /\ nonzero n psi) -> is_state n [1; 2 ^ n] t psi -> is_op n m M -> values_in n lo hi M ->
  exists c d g h, circuit_of n (cs_with cs u) = Ok c /\ cal_params_grad svd t m c = Ok (g, c) /\ circuit_of n (cs_with cs v) = Ok d /\ cal_params_grad svd t m d = Ok (h, d) /\
    length g = length u /\ length h = length u /\ forall k, k < length u -> (Rabs (nth k g 0 - nth k h 0) <= (hi - lo) / 2 * norm2 n psi * total_change u v)%R.
Proof.
  intros svd n cs u v t psi m M lo hi Hs Hn H Lu Lv HC Ht Hm HV.
  assert (C : forall w, length w = length (cs_angles cs) -> existsb matrix_only (cs_with cs w) = true \/ (forallb (ci_TN n) (cs_with cs w) = true /\ nonzero n psi)).
  { intros w Lw. destruct HC as [X|[X Y]]; [left; now apply with_matrix|right; rewrite form_TN; auto]. }
  destruct (shift_run svd n (cs_with cs u) t psi m M Hs Hn (cs_with_oks n cs u H Lu) (C u Lu) Ht Hm) as (c & g & E1 & E2 & E3 & E4).
  destruct (shift_run svd n (cs_with cs v) t psi m M Hs Hn (cs_with_oks n cs v H Lv) (C v Lv) Ht Hm) as (d & h & F1 & F2 & F3 & F4).
  rewrite !with_angles in * by assumption. exists c, d, g, h. repeat (split; [first [assumption|congruence]|]). intros k Hk.
  assert (Hk' : k < length v) by congruence. specialize (E4 k Hk). specialize (F4 k Hk'). cbv beta zeta in E4, F4.
  rewrite !with_with in E4, F4 by (first [assumption|rewrite set_at_length; assumption]). rewrite E4, F4. exact (shift_change n psi M lo hi HV cs u v k H Lu Lv Hk).
Qed.
