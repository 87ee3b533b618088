(** Proofs: how results depend on the observable and on the length of the state. *)
From Coq Require Import List ZArith QArith Reals Lra Lia Bool Arith Setoid Morphisms.
From Verif Require Import PyBase Scalar CInst BigSum Index Tensor TensorFacts Spec SpecFacts QMath QTN QOperator GateSpec QGates GateCalls
  RunSpec MPSSpec LayerSpec QLayers LayerCalls LayerFacts1 CircuitSpec QCircuit CircuitFacts1 CircuitProofs MeasSpec MeasFacts QuanvFacts MPSCases GradSpec GradFacts1 GradFacts2 GradCases GradProofs2 QGradient ApartProofs
  SVDExist2 TruncRun1 TruncRun10 PhaseProofs ObsSpec.
Import ListNotations.
Local Close Scope Q_scope.
Local Close Scope R_scope.
Local Open Scope nat_scope.
Local Notation times z psi := (fun b => Cmul z (psi b)).

Section Lin.
  Context {SC : Scalar}.
  Add Ring KR : k_ring.
  Local Open Scope k_scope.
  Lemma quad_mix : forall n f a A b B, inner n f (act n (add_op (scale_op a A) (scale_op b B)) f) = a * inner n f (act n A f) + b * inner n f (act n B f).
  Proof.
    intros. unfold inner. rewrite <- !bigsum_mul_l, <- bigsum_add. apply bigsum_ext. intros r _. unfold act, add_op, scale_op.
    transitivity (kconj (f r) * (a * bigsum (bits n) (fun c => A r c * f c) + b * bigsum (bits n) (fun c => B r c * f c))); [|ring].
    f_equal. rewrite <- !bigsum_mul_l, <- bigsum_add. apply bigsum_ext. intros. ring.
  Qed.
End Lin.
Lemma expect_mix : forall n cs psi a A b B, expect n cs psi (mix a A b B) = (a * expect n cs psi A + b * expect n cs psi B)%R.
Proof.
  intros. unfold expect, mix. rewrite quad_mix. set (u := inner _ _ (act n A _)). set (v := inner _ _ (act n B _)). destruct u, v. cbn. ring.
Qed.
Lemma expect_adj : forall n cs psi A, expect n cs psi (adj_op A) = expect n cs psi A.
Proof.
  intros n cs psi A. unfold expect. rewrite inner_conj_swap. now rewrite <- inner_act.
Qed.
Lemma expect_norm : forall n cs psi, Forall (ci_ok n) cs -> expect n cs psi id_op = norm2 n psi.
Proof.
  intros n cs psi H. unfold expect. rewrite act_id. rewrite unitary_inner by now apply cs_unitary. rewrite <- norm2_inner. reflexivity.
Qed.
Lemma expect_range : forall n cs psi M lo hi, Forall (ci_ok n) cs -> values_in n lo hi M -> (lo * norm2 n psi <= expect n cs psi M <= hi * norm2 n psi)%R.
Proof. intros n cs psi M lo hi H V. rewrite <- (norm2_unitary n (cs_op n cs) psi) by now apply cs_unitary. apply V. Qed.
Lemma unitary_values : forall n M, unitary n M -> values_in n (-1) 1 M.
Proof.
  intros n M U h. rewrite Re_inner. pose proof (cauchy_abs _ (bits n) h (act (SC := C_scalar) n M h)) as X.
  assert (L : len (bits n) (act (SC := C_scalar) n M h) = len (bits n) h).
  { unfold len, sqn. f_equal. exact (norm2_unitary n M h U). }
  rewrite L in X. assert (Q : (len (bits n) h * len (bits n) h = norm2 n h)%R) by apply len_sq. rewrite Q in X. revert X. unfold Rabs. destruct Rcase_abs; lra.
Qed.
Lemma expect_times : forall n cs z psi M, expect n cs (times z psi) M = (Cnorm2 z * expect n cs psi M)%R.
Proof.
  intros n cs z psi M. unfold expect. transitivity (Re (inner (SC := C_scalar) n (times z (act n (cs_op n cs) psi)) (times z (act n M (act n (cs_op n cs) psi))))).
  - f_equal. apply inner_proper; [apply act_turn|]. transitivity (act (SC := C_scalar) n M (times z (act n (cs_op n cs) psi))); [now rewrite act_turn|apply act_turn].
  - rewrite !Re_inner. rewrite <- rsum_mul. apply rsum_ext. intros b _. unfold rdot, Cnorm2. destruct z as [x y], (act n (cs_op n cs) psi b) as [u v], (act n M (act n (cs_op n cs) psi) b) as [p q]. cbn. ring.
Qed.

Lemma linear_value : forall svd n cs t psi m1 m2 m A B a b TN, exact_svd svd -> 0 < n -> Forall (ci_ok n) cs -> is_state n [1; 2 ^ n] t psi ->
  is_op n m1 A -> is_op n m2 B -> is_op n m (mix a A b B) -> (TN = true -> nonzero n psi /\ forallb (ci_TN n) cs = true) ->
  exists c x y, circuit_of n cs = Ok c /\ cir_expectation svd c t m1 TN = Ok x /\ cir_expectation svd c t m2 TN = Ok y /\ cir_expectation svd c t m TN = Ok (a * x + b * y)%R.
Proof.
  intros svd n cs t psi m1 m2 m A B a b TN Hs Hn H Ht H1 H2 H3 HT. destruct (expectation_value svd n cs t psi m1 A TN Hs Hn H Ht H1 HT) as (c & E1 & E2).
  destruct (expectation_value svd n cs t psi m2 B TN Hs Hn H Ht H2 HT) as (c2 & F1 & F2). destruct (expectation_value svd n cs t psi m _ TN Hs Hn H Ht H3 HT) as (c3 & G1 & G2).
  assert (c2 = c) by congruence. assert (c3 = c) by congruence. subst c2 c3. exists c, (expect n cs psi A), (expect n cs psi B). rewrite expect_mix in G2. auto.
Qed.
Lemma linear_gradient : forall svd n cs t psi m1 m2 m A B a b, exact_svd svd -> 0 < n -> Forall (ci_ok n) cs -> is_state n [1; 2 ^ n] t psi ->
  is_op n m1 A -> is_op n m2 B -> is_op n m (mix a A b B) -> existsb matrix_only cs = true \/ (forallb (ci_TN n) cs = true /\ nonzero n psi) ->
  exists c g1 g2, circuit_of n cs = Ok c /\ length g1 = length (cs_angles cs) /\ length g2 = length (cs_angles cs) /\
    cal_params_grad svd t m1 c = Ok (g1, c) /\ cal_params_grad svd t m2 c = Ok (g2, c) /\ cal_params_grad svd t m c = Ok (map (fun p => a * fst p + b * snd p)%R (combine g1 g2), c).
Proof.
  intros svd n cs t psi m1 m2 m A B a b Hs Hn H Ht H1 H2 H3 HC. destruct (shift_run svd n cs t psi m1 A Hs Hn H HC Ht H1) as (c & g1 & E1 & E2 & E3 & E4).
  destruct (shift_run svd n cs t psi m2 B Hs Hn H HC Ht H2) as (c2 & g2 & F1 & F2 & F3 & F4). destruct (shift_run svd n cs t psi m _ Hs Hn H HC Ht H3) as (c3 & g3 & G1 & G2 & G3 & G4).
  assert (c2 = c) by congruence. assert (c3 = c) by congruence. subst c2 c3. exists c, g1, g2. repeat (split; [assumption|]). rewrite G2. do 2 f_equal.
  assert (L : length (combine g1 g2) = length (cs_angles cs)) by (rewrite combine_length; lia).
  set (h := fun p => (a * fst p + b * snd p)%R). apply nth_ext with (d := 0%R) (d' := h (0%R, 0%R)); [rewrite map_length; congruence|]. intros k Hk. rewrite G3 in Hk.
  rewrite map_nth, combine_nth by congruence. unfold h. cbn [fst snd]. pose proof (E4 k Hk) as X. pose proof (F4 k Hk) as Y. pose proof (G4 k Hk) as Z. cbv zeta in X, Y, Z. rewrite X, Y, Z, !expect_mix. ring.
Qed.
Lemma adjoint_observable : forall svd n cs t psi m m' M TN, exact_svd svd -> 0 < n -> Forall (ci_ok n) cs -> is_state n [1; 2 ^ n] t psi ->
  is_op n m M -> is_op n m' (adj_op M) -> (TN = true -> nonzero n psi /\ forallb (ci_TN n) cs = true) ->
  exists c x, circuit_of n cs = Ok c /\ cir_expectation svd c t m TN = Ok x /\ cir_expectation svd c t m' TN = Ok x.
Proof.
  intros svd n cs t psi m m' M TN Hs Hn H Ht H1 H2 HT. destruct (expectation_value svd n cs t psi m M TN Hs Hn H Ht H1 HT) as (c & E1 & E2).
  destruct (expectation_value svd n cs t psi m' _ TN Hs Hn H Ht H2 HT) as (c2 & F1 & F2). assert (c2 = c) by congruence. subst c2. rewrite expect_adj in F2. eauto.
Qed.
Lemma value_range : forall svd n cs t psi m M lo hi TN, exact_svd svd -> 0 < n -> Forall (ci_ok n) cs -> is_state n [1; 2 ^ n] t psi -> is_op n m M -> values_in n lo hi M ->
  (TN = true -> nonzero n psi /\ forallb (ci_TN n) cs = true) ->
  exists c x, circuit_of n cs = Ok c /\ cir_expectation svd c t m TN = Ok x /\ (lo * norm2 n psi <= x <= hi * norm2 n psi)%R.
Proof.
  intros svd n cs t psi m M lo hi TN Hs Hn H Ht Hm V HT. destruct (expectation_value svd n cs t psi m M TN Hs Hn H Ht Hm HT) as (c & E1 & E2).
  exists c, (expect n cs psi M). split; [exact E1|]. split; [exact E2|]. now apply expect_range.
Qed.
Lemma gradient_range : forall svd n cs t psi m M lo hi, exact_svd svd -> 0 < n -> Forall (ci_ok n) cs -> is_state n [1; 2 ^ n] t psi -> is_op n m M -> values_in n lo hi M ->
  existsb matrix_only cs = true \/ (forallb (ci_TN n) cs = true /\ nonzero n psi) ->
  exists c g, circuit_of n cs = Ok c /\ cal_params_grad svd t m c = Ok (g, c) /\ length g = length (cs_angles cs) /\ Forall (fun x => Rabs x <= (hi - lo) / 2 * norm2 n psi)%R g.
Proof.
  intros svd n cs t psi m M lo hi Hs Hn H Ht Hm V HC. destruct (shift_run svd n cs t psi m M Hs Hn H HC Ht Hm) as (c & g & E1 & E2 & E3 & E4).
  exists c, g. repeat (split; [assumption|]). apply Forall_forall. intros x Hx. destruct (In_nth g x 0%R Hx) as (k & Hk & <-). rewrite E3 in Hk.
  pose proof (E4 k Hk) as X. cbv zeta in X. rewrite X. clear X.
  assert (Y : forall y, (lo * norm2 n psi <= expect n (cs_with cs (set_at k y (cs_angles cs))) psi M <= hi * norm2 n psi)%R).
  { intros y. apply expect_range; auto. apply cs_with_oks; auto. now apply set_at_length. }
  pose proof (Y (nth k (cs_angles cs) 0 + / 2 * PI)%R) as Y1. pose proof (Y (nth k (cs_angles cs) 0 - / 2 * PI)%R) as Y2. apply Rabs_le. lra.
Qed.
Lemma identity_value : forall svd n cs t psi m TN, exact_svd svd -> 0 < n -> Forall (ci_ok n) cs -> is_state n [1; 2 ^ n] t psi -> is_op n m id_op ->
  (TN = true -> nonzero n psi /\ forallb (ci_TN n) cs = true) -> exists c, circuit_of n cs = Ok c /\ cir_expectation svd c t m TN = Ok (norm2 n psi).
Proof.
  intros svd n cs t psi m TN Hs Hn H Ht Hm HT. destruct (expectation_value svd n cs t psi m _ TN Hs Hn H Ht Hm HT) as (c & E1 & E2). rewrite expect_norm in E2 by auto. eauto.
Qed.
Lemma nonzero_times : forall n z psi, z <> RtoC 0 -> nonzero n psi -> nonzero (SC := C_scalar) n (times z psi).
Proof.
  intros n z psi Hz N E. apply N. intros b Hb. specialize (E b Hb). cbn in E. destruct z as [x y], (psi b) as [u v]. unfold Cmul, RtoC in E. cbn in E. injection E as E1 E2.
  assert (P : (x * x + y * y)%R <> 0%R). { intros Q. apply Hz. assert (x = 0)%R by nra. assert (y = 0)%R by nra. subst. reflexivity. }
  assert (A : ((x * x + y * y) * u = 0)%R) by (transitivity (x * (x * u - y * v) + y * (x * v + y * u))%R; [ring|]; rewrite E1, E2; ring).
  assert (B : ((x * x + y * y) * v = 0)%R) by (transitivity (x * (x * v + y * u) - y * (x * u - y * v))%R; [ring|]; rewrite E1, E2; ring).
  apply Rmult_integral in A. apply Rmult_integral in B. destruct A as [A|A]; [contradiction|]. destruct B as [B|B]; [contradiction|]. subst. reflexivity.
Qed.
Lemma scaled_value : forall svd n cs t t' psi z m M TN, exact_svd svd -> 0 < n -> Forall (ci_ok n) cs -> is_state n [1; 2 ^ n] t psi -> is_state n [1; 2 ^ n] t' (times z psi) -> z <> RtoC 0 ->
  is_op n m M -> (TN = true -> nonzero n psi /\ forallb (ci_TN n) cs = true) ->
  exists c x, circuit_of n cs = Ok c /\ cir_expectation svd c t m TN = Ok x /\ cir_expectation svd c t' m TN = Ok (Cnorm2 z * x)%R.
Proof.
  intros svd n cs t t' psi z m M TN Hs Hn H H1 H2 Z Hm HT. destruct (expectation_value svd n cs t psi m M TN Hs Hn H H1 Hm HT) as (c & E1 & E2).
  destruct (expectation_value svd n cs t' _ m M TN Hs Hn H H2 Hm) as (c' & F1 & F2). { intros T. destruct (HT T). split; auto. now apply nonzero_times. }
  assert (c' = c) by congruence. subst c'. exists c, (expect n cs psi M). rewrite expect_times in F2. auto.
Qed.
Lemma scaled_gradient : forall svd n cs t t' psi z m M, exact_svd svd -> 0 < n -> Forall (ci_ok n) cs -> is_state n [1; 2 ^ n] t psi -> is_state n [1; 2 ^ n] t' (times z psi) -> z <> RtoC 0 ->
  is_op n m M -> existsb matrix_only cs = true \/ (forallb (ci_TN n) cs = true /\ nonzero n psi) ->
  exists c g, circuit_of n cs = Ok c /\ length g = length (cs_angles cs) /\ cal_params_grad svd t m c = Ok (g, c) /\ cal_params_grad svd t' m c = Ok (map (Rmult (Cnorm2 z)) g, c).
Proof.
  intros svd n cs t t' psi z m M Hs Hn H H1 H2 Z Hm HC. destruct (shift_run svd n cs t psi m M Hs Hn H HC H1 Hm) as (c & g & E1 & E2 & E3 & E4).
  destruct (shift_run svd n cs t' (times z psi) m M Hs Hn H) as (c' & g' & F1 & F2 & F3 & F4); auto. { destruct HC as [|[]]; auto. right. split; auto. now apply nonzero_times. }
  assert (c' = c) by congruence. subst c'. exists c, g. repeat (split; [assumption|]). rewrite F2. do 2 f_equal. apply nth_ext with (d := 0%R) (d' := (Cnorm2 z * 0)%R); [rewrite map_length; congruence|].
  intros k Hk. rewrite (map_nth (Rmult (Cnorm2 z)) g 0%R k). pose proof (E4 k ltac:(congruence)) as X. pose proof (F4 k ltac:(congruence)) as Y. cbv zeta in X, Y. rewrite X, Y, !expect_times. ring.
Qed.
