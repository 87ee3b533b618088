(** Proofs: results as functions of one angle. *)
From Coq Require Import List ZArith QArith Reals Lra Lia Bool Arith Setoid Morphisms FunctionalExtensionality.
From Verif Require Import PyBase Scalar CInst BigSum Index Tensor TensorFacts Spec SpecFacts QMath QTN QOperator GateSpec QGates GateCalls
  RunSpec MPSSpec LayerSpec QLayers LayerCalls LayerFacts1 CircuitSpec QCircuit CircuitFacts1 CircuitProofs MPSCases GradSpec GradFacts1 GradFacts2 GradCases QGradient ApartProofs
  OneAngleSpec OneAngleFacts.
Import ListNotations.
Local Close Scope Q_scope.
Local Close Scope R_scope.
Local Open Scope nat_scope.

Lemma set_set : forall i x y l, i < length l -> set_at i y (set_at i x l) = set_at i y l.
Proof. induction i as [|i IH]; intros x y [|z l] H; cbn in H; try lia; [reflexivity|]. rewrite !set_at_S. f_equal. apply IH. lia. Qed.
Lemma one_angle_ok : forall n cs1 c cs2 i x, Forall (ci_ok n) (cs1 ++ c :: cs2) -> i < length (ci_angles c) -> Forall (ci_ok n) (one_angle cs1 c cs2 i x).
Proof.
  intros n cs1 c cs2 i x H Hi. apply Forall_app in H. destruct H as [H1 H2]. inversion_clear H2 as [|? ? H3 H4]. apply Forall_app. split; [exact H1|]. constructor; [|exact H4].
  apply ci_with_ok; auto. now apply set_at_length.
Qed.
Lemma one_angle_TN : forall n cs1 c cs2 i x, forallb (ci_TN n) (one_angle cs1 c cs2 i x) = forallb (ci_TN n) (cs1 ++ c :: cs2).
Proof. intros. unfold one_angle. rewrite !forallb_app. cbn [forallb]. now rewrite ci_with_TN. Qed.
Lemma one_angle_matrix : forall cs1 c cs2 i x, existsb matrix_only (one_angle cs1 c cs2 i x) = existsb matrix_only (cs1 ++ c :: cs2).
Proof.
  intros. unfold one_angle. rewrite !existsb_app. cbn [existsb]. f_equal. f_equal. destruct c as [g|l]; [|now destruct l]. destruct g; try reflexivity; cbn [ci_with gi_with ci_angles gi_angles].
  all: destruct set_at as [|? [|? [|? [|]]]]; reflexivity.
Qed.
Lemma one_angle_angles : forall cs1 c cs2 i x, i < length (ci_angles c) ->
  cs_angles (one_angle cs1 c cs2 i x) = cs_angles cs1 ++ set_at i x (ci_angles c) ++ cs_angles cs2.
Proof. intros. unfold one_angle. rewrite cs_angles_app. cbn [cs_angles flat_map]. rewrite ci_with_angles by now apply set_at_length. reflexivity. Qed.
Lemma one_angle_with : forall cs1 c cs2 i x y, i < length (ci_angles c) -> let cs := one_angle cs1 c cs2 i x in let k := length (cs_angles cs1) + i in
  k < length (cs_angles cs) /\ nth k (cs_angles cs) 0%R = x /\ cs_with cs (set_at k y (cs_angles cs)) = one_angle cs1 c cs2 i y.
Proof.
  intros cs1 c cs2 i x y Hi cs k. subst cs k. rewrite one_angle_angles by exact Hi. pose proof (set_at_length i x (ci_angles c) Hi) as L. split; [|split].
  - rewrite !app_length, L. lia.
  - rewrite app_nth2 by lia. replace (length (cs_angles cs1) + i - length (cs_angles cs1)) with i by lia. rewrite app_nth1 by lia. now apply nth_set_at.
  - rewrite set_at_app2. unfold one_angle at 1. rewrite cs_with_app, cs_with_self by reflexivity. unfold one_angle. f_equal. rewrite set_at_app1 by lia. cbn [cs_with]. cbv zeta.
    rewrite ci_with_angles by exact L. rewrite set_set by exact Hi. rewrite L, <- (set_at_length i y (ci_angles c) Hi).
    rewrite firstn_app, skipn_app, Nat.sub_diag, firstn_all, skipn_all, firstn_O, app_nil_r. cbn [app skipn]. rewrite cs_with_self, ci_with_with; auto. now apply set_at_length.
Qed.


(** the values that cir_expectation returns *)
Lemma angle_values : forall svd n cs1 c cs2 i t psi m M TN, exact_svd svd -> 0 < n -> Forall (ci_ok n) (cs1 ++ c :: cs2) -> i < length (ci_angles c) ->
  is_state n [1; 2 ^ n] t psi -> is_op n m M -> (TN = true -> nonzero n psi /\ forallb (ci_TN n) (cs1 ++ c :: cs2) = true) ->
  forall x, exists d, circuit_of n (one_angle cs1 c cs2 i x) = Ok d /\ cir_expectation svd d t m TN = Ok (expect n (one_angle cs1 c cs2 i x) psi M).
Proof.
  intros svd n cs1 c cs2 i t psi m M TN Hs Hn H Hi Ht Hm HT x. apply expectation_value; auto using one_angle_ok. intros X. rewrite one_angle_TN. now apply HT.
Qed.
Lemma ok_mid : forall n cs1 c cs2, Forall (ci_ok n) (cs1 ++ c :: cs2) -> ci_ok n c.
Proof. intros n cs1 c cs2 H. apply Forall_app in H. destruct H as [_ H]. now inversion H. Qed.

Lemma three_points : forall svd n cs1 c cs2 i t psi m M TN, exact_svd svd -> 0 < n -> Forall (ci_ok n) (cs1 ++ c :: cs2) -> i < length (ci_angles c) -> two_term c = true ->
  is_state n [1; 2 ^ n] t psi -> is_op n m M -> (TN = true -> nonzero n psi /\ forallb (ci_TN n) (cs1 ++ c :: cs2) = true) ->
  exists E, (forall x, exists d, circuit_of n (one_angle cs1 c cs2 i x) = Ok d /\ cir_expectation svd d t m TN = Ok (E x)) /\ sinusoid E /\
    (exists x0, E x0 = (middle E - amplitude E)%R /\ forall x, (E x0 <= E x)%R) /\ (exists x1, E x1 = (middle E + amplitude E)%R /\ forall x, (E x <= E x1)%R).
Proof.
  intros svd n cs1 c cs2 i t psi m M TN Hs Hn H Hi T Ht Hm HT. exists (fun x => expect n (one_angle cs1 c cs2 i x) psi M).
  split; [now apply angle_values|]. assert (S : sinusoid (fun x => expect n (one_angle cs1 c cs2 i x) psi M)) by (apply angle_sinusoid; auto; eapply ok_mid; eauto).
  split; [exact S|]. split; [now apply sinusoid_least|now apply sinusoid_greatest].
Qed.
Lemma angle_period : forall svd n cs1 c cs2 i t psi m M TN x, exact_svd svd -> 0 < n -> Forall (ci_ok n) (cs1 ++ c :: cs2) -> i < length (ci_angles c) -> two_term c = true ->
  is_state n [1; 2 ^ n] t psi -> is_op n m M -> (TN = true -> nonzero n psi /\ forallb (ci_TN n) (cs1 ++ c :: cs2) = true) ->
  exists d d' e, circuit_of n (one_angle cs1 c cs2 i x) = Ok d /\ circuit_of n (one_angle cs1 c cs2 i (x + 2 * PI)) = Ok d' /\
    cir_expectation svd d t m TN = Ok e /\ cir_expectation svd d' t m TN = Ok e.
Proof.
  intros svd n cs1 c cs2 i t psi m M TN x Hs Hn H Hi T Ht Hm HT. destruct (three_points svd n cs1 c cs2 i t psi m M TN Hs Hn H Hi T Ht Hm HT) as (E & V & S & _).
  destruct (V x) as (d & A & B). destruct (V (x + 2 * PI)%R) as (d' & A' & B'). exists d, d', (E x). rewrite (sinusoid_period E x S) in B'. auto.
Qed.
Lemma four_points : forall svd n cs1 c cs2 i t psi m M TN, exact_svd svd -> 0 < n -> Forall (ci_ok n) (cs1 ++ c :: cs2) -> i < length (ci_angles c) ->
  is_state n [1; 2 ^ n] t psi -> is_op n m M -> (TN = true -> nonzero n psi /\ forallb (ci_TN n) (cs1 ++ c :: cs2) = true) ->
  exists E, (forall x, exists d, circuit_of n (one_angle cs1 c cs2 i x) = Ok d /\ cir_expectation svd d t m TN = Ok (E x)) /\
    forall x, E (x + 4 * PI)%R = E x /\ derivable_pt_lim E x (four_term E x).
Proof.
  intros svd n cs1 c cs2 i t psi m M TN Hs Hn H Hi Ht Hm HT. exists (fun x => expect n (one_angle cs1 c cs2 i x) psi M).
  split; [now apply angle_values|]. assert (S : two_tones (fun x => expect n (one_angle cs1 c cs2 i x) psi M)) by (apply angle_tones; auto; eapply ok_mid; eauto).
  intros x. split; [apply (tones_period _ x S)|now apply tones_derivative].
Qed.
(** the entries that cal_params_grad returns *)
Lemma angle_gradient : forall svd n cs1 c cs2 i t psi m M, exact_svd svd -> 0 < n -> Forall (ci_ok n) (cs1 ++ c :: cs2) -> i < length (ci_angles c) -> two_term c = true ->
  existsb matrix_only (cs1 ++ c :: cs2) = true \/ (forallb (ci_TN n) (cs1 ++ c :: cs2) = true /\ nonzero n psi) -> is_state n [1; 2 ^ n] t psi -> is_op n m M ->
  exists E G, (forall x, exists d, circuit_of n (one_angle cs1 c cs2 i x) = Ok d /\ cir_expectation svd d t m false = Ok (E x)) /\
    (forall x, exists d g, circuit_of n (one_angle cs1 c cs2 i x) = Ok d /\ cal_params_grad svd t m d = Ok (g, d) /\ nth_error g (length (cs_angles cs1) + i) = Some (G x)) /\
    sinusoid E /\ (forall x, derivable_pt_lim E x (G x) /\ derivable_pt_lim G x ((E (x + PI) - E x) / 2)%R /\ (Rabs (G x) <= amplitude E)%R) /\
    (forall x0, (forall x, (E x0 <= E x)%R) -> G x0 = 0%R).
Proof.
  intros svd n cs1 c cs2 i t psi m M Hs Hn H Hi T HC Ht Hm. set (E := fun x => expect n (one_angle cs1 c cs2 i x) psi M).
  assert (S : sinusoid E) by exact (angle_sinusoid n cs1 c cs2 i psi M (ok_mid _ _ _ _ H) T Hi).
  exists E, (slope E). assert (N : false = true -> nonzero n psi /\ forallb (ci_TN n) (cs1 ++ c :: cs2) = true) by (intros X; inversion X).
  split; [exact (angle_values svd n cs1 c cs2 i t psi m M false Hs Hn H Hi Ht Hm N)|]. split; [|split; [exact S|split]].
  - intros x. destruct (shift_run svd n (one_angle cs1 c cs2 i x) t psi m M Hs Hn) as (d & g & E1 & E2 & E3 & E4); auto using one_angle_ok.
    { rewrite one_angle_matrix, one_angle_TN. exact HC. }
    exists d, g. split; [exact E1|]. split; [exact E2|]. destruct (one_angle_with cs1 c cs2 i x 0%R Hi) as (K1 & K2 & _).
    pose proof (E4 _ K1) as X. cbv zeta in X. rewrite K2 in X. rewrite (nth_error_nth' g 0%R) by (rewrite E3; exact K1). rewrite X. f_equal. unfold slope, E.
    destruct (one_angle_with cs1 c cs2 i x (x + / 2 * PI)%R Hi) as (_ & _ & K3). destruct (one_angle_with cs1 c cs2 i x (x - / 2 * PI)%R Hi) as (_ & _ & K4).
    rewrite K3, K4. reflexivity.
  - intros x. split; [|split].
    + assert (Z : forall t0, E t0 = (middle E + (E 0 - E PI) / 2 * cos t0 + (E (PI / 2) - middle E) * sin t0)%R) by exact S. exact (shift_rule E _ _ _ x Z).
    + now apply slope_slope.
    + now apply slope_bound.
  - intros x0 L. now apply slope_at_least.
Qed.
