(** Proofs: first-order prediction and gradient descent. *)
From Coq Require Import List ZArith QArith Reals Lra Lia Bool Arith FunctionalExtensionality.
From Verif Require Import PyBase Scalar CInst BigSum Index Tensor TensorFacts Spec SpecFacts QMath QTN QOperator GateSpec QGates GateCalls
  RunSpec MPSSpec LayerSpec QLayers LayerCalls LayerFacts1 CircuitSpec QCircuit CircuitFacts1 CircuitProofs MeasSpec MeasFacts MPSCases GradSpec GradFacts1 GradFacts2 GradFacts3 GradProofs GradCases QGradient
  ApartProofs OneAngleSpec OneAngleFacts OneAngleProofs ObsSpec ObsProofs StaleProofs SmoothSpec SmoothProofs.
Import ListNotations.
Local Close Scope Q_scope.
Local Close Scope R_scope.
Local Open Scope nat_scope.

Lemma change_pos : forall u v, (0 <= total_change u v)%R.
Proof. induction u as [|x u IH]; intros [|y v]; cbn; try lra. pose proof (IH v). pose proof (Rabs_pos (x - y)). lra. Qed.
Lemma change_self : forall u, total_change u u = 0%R.
Proof. induction u as [|x u IH]; cbn; [reflexivity|]. rewrite IH. unfold Rminus. rewrite Rplus_opp_r, Rabs_R0. ring. Qed.
Lemma change_sym : forall u v, total_change u v = total_change v u.
Proof. induction u as [|x u IH]; intros [|y v]; cbn; auto. now rewrite IH, Rabs_minus_sym. Qed.
Lemma change_app : forall p q u v, length p = length q -> total_change (p ++ u) (q ++ v) = (total_change p q + total_change u v)%R.
Proof. induction p as [|x p IH]; intros [|y q] u v L; try discriminate; cbn; [ring|]. rewrite IH by (cbn in L; lia). ring. Qed.
Lemma with_two_term : forall cs v, forallb two_term cs = true -> forallb two_term (cs_with cs v) = true.
Proof.
  induction cs as [|c cs IH]; intros v H; [reflexivity|]. cbn [cs_with]. cbv zeta. cbn [forallb] in *. apply andb_true_iff in H. destruct H as [H1 H2]. rewrite IH by exact H2. rewrite andb_true_r.
  destruct c as [g|l]; [|reflexivity]. cbn [ci_with]. set (w := firstn _ v). clearbody w. destruct g; try discriminate; cbn; destruct w as [|? [|? [|? [|]]]]; reflexivity.
Qed.

Section Slopes.
  Variables (n : nat) (psi : @qstate C_scalar) (M : @qop C_scalar) (lo hi : R).
  Hypothesis V : values_in n lo hi M.
  Let K := ((hi - lo) / 2 * norm2 n psi)%R.
  Variable cs : list ci.
  Hypothesis Hcs : Forall (ci_ok n) cs.
  Hypothesis Ht : forallb two_term cs = true.
  Let E w := expect n (cs_with cs w) psi M.
  (** the two-point slope of angle k at w *)
  Let G k w := (/ 2 * (E (set_at k (nth k w 0 + / 2 * PI) w) - E (set_at k (nth k w 0 - / 2 * PI) w)))%R.

  Lemma slope_mvt : forall p u x y, length (p ++ x :: u) = length (cs_angles cs) ->
    exists z, (Rabs (z - x) <= Rabs (x - y))%R /\ (E (p ++ y :: u) - E (p ++ x :: u) = G (length p) (p ++ z :: u) * (y - x))%R.
  Proof.
    intros p u x y L. set (ds := cs_with cs (p ++ x :: u)). assert (A : cs_angles ds = p ++ x :: u) by now apply with_angles.
    assert (Hk : length p < length (cs_angles ds)) by (rewrite A, app_length; cbn; lia).
    assert (Sx : forall a b, set_at (length p) a (p ++ b :: u) = p ++ a :: u) by (intros a b; rewrite <- (Nat.add_0_r (length p)), set_at_app2; now rewrite set_at_0).
    assert (La : forall a, length (p ++ a :: u) = length (cs_angles cs)) by (intros a; rewrite app_length in *; cbn in *; lia).
    destruct (cs_split ds (length p) Hk) as (cs1 & c & cs2 & i & E1 & _ & E3 & E4).
    set (F := fun a => E (p ++ a :: u)).
    assert (EF : forall a, F a = expect n (cs1 ++ ci_with c (set_at i a (ci_angles c)) :: cs2) psi M).
    { intros a. rewrite <- E4, A, Sx. unfold ds. rewrite with_with by auto. reflexivity. }
    assert (Od : Forall (ci_ok n) ds) by (apply cs_with_oks; auto). assert (Td : forallb two_term ds = true) by now apply with_two_term.
    rewrite E1 in Od, Td. assert (Oc : ci_ok n c) by exact (ok_mid n cs1 c cs2 Od).
    assert (Tc : ci_cu3 c = false). { rewrite forallb_app in Td. cbn [forallb] in Td. apply andb_true_iff in Td. destruct Td as [_ Td]. apply andb_true_iff in Td. destruct Td as [Td _]. destruct c as [[]|]; try reflexivity; discriminate. }
    assert (D : forall a, derivable_pt_lim F a (/ 2 * (F (a + / 2 * PI) - F (a - / 2 * PI)))%R).
    { intros a. rewrite !EF. apply (GradCases.ext_lim F (fun t => expect n (cs1 ++ ci_with c (set_at i t (ci_angles c)) :: cs2) psi M)); [exact EF|].
      exact (shift_derivative n cs1 cs2 c i psi M a Oc Tc E3). }
    assert (GF : forall a, G (length p) (p ++ a :: u) = (/ 2 * (F (a + / 2 * PI) - F (a - / 2 * PI)))%R).
    { intros a. unfold G. rewrite app_nth2, Nat.sub_diag by lia. cbn [nth]. rewrite !Sx. reflexivity. }
    change (exists z, (Rabs (z - x) <= Rabs (x - y))%R /\ (F y - F x = G (length p) (p ++ z :: u) * (y - x))%R).
    destruct (Rtotal_order x y) as [Q|[Q|Q]].
    - destruct (MVT_cor2 F _ x y Q (fun a _ => D a)) as (z & Z1 & Z2). exists z. rewrite GF. split; [|exact Z1]. rewrite (Rabs_left (x - y)), Rabs_right by lra. lra.
    - subst y. exists x. split; [unfold Rminus; rewrite Rplus_opp_r; lra|]. unfold Rminus. rewrite !Rplus_opp_r. ring.
    - destruct (MVT_cor2 F _ y x Q (fun a _ => D a)) as (z & Z1 & Z2). exists z. rewrite GF. split; [rewrite (Rabs_right (x - y)), Rabs_left by lra; lra|].
      replace (F y - F x)%R with (- (F x - F y))%R by ring. rewrite Z1. ring.
  Qed.
  Lemma first_order_from : forall u v g pu p, length pu = length p -> length u = length v -> length g = length u -> length (p ++ u) = length (cs_angles cs) ->
    (forall j, j < length g -> nth j g 0%R = G (length p + j) (pu ++ u)) ->
    (Rabs (E (p ++ v) - E (p ++ u) - predicted g u v) <= K * total_change (pu ++ u) (p ++ v) * total_change u v)%R.
  Proof.
    induction u as [|x u IH]; intros [|y v] [|a g] pu p L0 L1 L2 L3 HG; try discriminate.
    - cbn. unfold Rminus. rewrite Rplus_opp_r, Ropp_0, Rplus_0_r, Rabs_R0. lra.
    - cbn [predicted]. cbn in L1, L2. set (S := total_change (pu ++ x :: u) (p ++ y :: v)).
      destruct (slope_mvt p u x y L3) as (z & Z1 & Z2).
      assert (L4 : length (p ++ y :: u) = length (cs_angles cs)) by (rewrite app_length in *; cbn in *; lia).
      assert (B1 : (Rabs (G (length p) (p ++ z :: u) - a) <= K * S)%R).
      { replace a with (nth 0 (a :: g) 0%R) by reflexivity. rewrite HG by (cbn; lia). rewrite Nat.add_0_r.
        assert (Lz : length (p ++ z :: u) = length (cs_angles cs)) by (rewrite app_length in *; cbn in *; lia).
        assert (Lx : length (pu ++ x :: u) = length (cs_angles cs)) by (rewrite app_length in *; cbn in *; lia).
        assert (Lk : length p < length (p ++ z :: u)) by (rewrite app_length; cbn; lia).
        eapply Rle_trans; [exact (shift_change n psi M lo hi V cs (p ++ z :: u) (pu ++ x :: u) (length p) Hcs Lz Lx Lk)|].
        apply Rmult_le_compat_l; [exact (K_pos n psi M lo hi V cs Hcs)|]. unfold S. rewrite !change_app by congruence. cbn [total_change]. rewrite change_self, (change_sym p pu).
        pose proof (change_pos u v). lra. }
      assert (B2 : (Rabs (E (p ++ y :: v) - E (p ++ y :: u) - predicted g u v) <= K * S * total_change u v)%R).
      { pose proof (IH v g (pu ++ [x]) (p ++ [y])) as X. rewrite <- !app_assoc in X. cbn [app] in X. unfold S. apply X; try lia; try exact L4; [rewrite !app_length; cbn; lia|].
        intros j Hj. replace (length (p ++ [y]) + j) with (length p + Datatypes.S j) by (rewrite app_length; cbn; lia). rewrite <- HG by (cbn; lia). reflexivity. }
      replace (E (p ++ y :: v) - E (p ++ x :: u) - (a * (y - x) + predicted g u v))%R
        with ((G (length p) (p ++ z :: u) - a) * (y - x) + (E (p ++ y :: v) - E (p ++ y :: u) - predicted g u v))%R by (rewrite Rmult_minus_distr_r, <- Z2; ring).
      cbn [total_change]. rewrite Rmult_plus_distr_l. eapply Rle_trans; [apply Rabs_triang|]. apply Rplus_le_compat; [|exact B2].
      rewrite Rabs_mult, (Rabs_minus_sym x). apply Rmult_le_compat_r; [apply Rabs_pos|exact B1].
  Qed.
  Lemma first_order : forall u v g, length u = length (cs_angles cs) -> length v = length u -> length g = length u -> (forall k, k < length u -> nth k g 0%R = G k u) ->
    (Rabs (E v - E u - predicted g u v) <= K * total_change u v * total_change u v)%R.
  Proof. intros u v g L1 L2 L3 HG. apply (first_order_from u v g [] []); auto. intros j Hj. rewrite L3 in Hj. exact (HG j Hj). Qed.
End Slopes.

(** sums *)
Lemma sum_sq_pos : forall g, (0 <= sum_sq g)%R.
Proof. induction g as [|a g IH]; cbn; [lra|]. fold (sum_sq g). nra. Qed.
Lemma descend_length : forall e u g, length g = length u -> length (descend e u g) = length u.
Proof. intros e u g L. unfold descend. rewrite map_length, combine_length, L. apply Nat.min_id. Qed.
Lemma descend_predicted : forall e u g, length g = length u -> predicted g u (descend e u g) = (- (e * sum_sq g))%R.
Proof.
  intros e. induction u as [|x u IH]; intros [|a g] L; try discriminate; [cbn; ring|]. cbn [descend combine map predicted sum_sq fold_right fst snd]. fold (descend e u g). fold (sum_sq g).
  rewrite IH by (cbn in L; lia). ring.
Qed.
Fixpoint sum_abs (g : list R) : R := match g with [] => 0%R | a :: g' => (Rabs a + sum_abs g')%R end.
Lemma descend_change : forall e u g, (0 <= e)%R -> length g = length u -> total_change u (descend e u g) = (e * sum_abs g)%R.
Proof.
  intros e u g He. revert g. induction u as [|x u IH]; intros [|a g] L; try discriminate; [cbn; ring|]. cbn [descend combine map total_change sum_abs fst snd]. fold (descend e u g).
  rewrite IH by (cbn in L; lia). replace (x - (x - e * a))%R with (e * a)%R by ring. rewrite Rabs_mult, (Rabs_right e) by lra. ring.
Qed.
Lemma sum_abs_sq : forall g, (sum_abs g * sum_abs g <= INR (length g) * sum_sq g)%R.
Proof.
  assert (X : forall a g, (2 * Rabs a * sum_abs g <= INR (length g) * (a * a) + sum_sq g)%R).
  { intros a. induction g as [|b g IH]; [cbn; lra|]. cbn [sum_abs length sum_sq fold_right]. fold (sum_sq g). rewrite S_INR.
    assert (Y : (2 * Rabs a * Rabs b <= a * a + b * b)%R). { pose proof (Rle_0_sqr (Rabs a - Rabs b)) as Z. unfold Rsqr in Z. pose proof (Rsqr_abs a) as A. pose proof (Rsqr_abs b) as B. unfold Rsqr in A, B. rewrite A, B. lra. }
    lra. }
  induction g as [|a g IH]; [cbn; lra|]. cbn [sum_abs length sum_sq fold_right]. fold (sum_sq g). rewrite S_INR. pose proof (X a g) as Y. pose proof (Rsqr_abs a) as A. unfold Rsqr in A. rewrite A in *. lra.
Qed.

Lemma prediction : forall svd n cs u v t psi m M lo hi TN, exact_svd svd -> 0 < n -> Forall (ci_ok n) cs -> forallb two_term cs = true -> length u = length (cs_angles cs) -> length v = length (cs_angles cs) ->
  existsb matrix_only cs = true \/ (forallb (ci_TN n) cs = true /\ nonzero n psi) -> is_state n [1; 2 ^ n] t psi -> is_op n m M -> values_in n lo hi M -> (TN = true -> nonzero n psi /\ forallb (ci_TN n) cs = true) ->
  exists c d g x y, circuit_of n (cs_with cs u) = Ok c /\ cal_params_grad svd t m c = Ok (g, c) /\ cir_expectation svd c t m TN = Ok x /\
    circuit_of n (cs_with cs v) = Ok d /\ cir_expectation svd d t m TN = Ok y /\ length g = length u /\
    (Rabs (y - x - predicted g u v) <= (hi - lo) / 2 * norm2 n psi * total_change u v * total_change u v)%R.
Proof.
  intros svd n cs u v t psi m M lo hi TN Hs Hn H T Lu Lv HC Ht Hm HV HT.
  assert (C : existsb matrix_only (cs_with cs u) = true \/ (forallb (ci_TN n) (cs_with cs u) = true /\ nonzero n psi)).
  { destruct HC as [X|[X Y]]; [left; now apply with_matrix|right; rewrite form_TN; auto]. }
  destruct (shift_run svd n (cs_with cs u) t psi m M Hs Hn (cs_with_oks n cs u H Lu) C Ht Hm) as (c & g & E1 & E2 & E3 & E4).
  destruct (expectation_value svd n (cs_with cs u) t psi m M TN Hs Hn (cs_with_oks n cs u H Lu) Ht Hm) as (c' & F1 & F2); [intros Q; destruct (HT Q); rewrite form_TN; auto|].
  destruct (expectation_value svd n (cs_with cs v) t psi m M TN Hs Hn (cs_with_oks n cs v H Lv) Ht Hm) as (d & D1 & D2); [intros Q; destruct (HT Q); rewrite form_TN; auto|].
  assert (c' = c) by congruence. subst c'. rewrite with_angles in E3, E4 by assumption.
  exists c, d, g, (expect n (cs_with cs u) psi M), (expect n (cs_with cs v) psi M). repeat (split; [assumption|]).
  apply (first_order n psi M lo hi HV cs H T u v g); try congruence. intros k Hk. specialize (E4 k Hk). cbv beta zeta in E4.
  rewrite !with_with in E4 by (first [assumption|rewrite set_at_length; assumption]). exact E4.
Qed.
Lemma descent : forall svd n cs u e t psi m M lo hi TN, exact_svd svd -> 0 < n -> Forall (ci_ok n) cs -> forallb two_term cs = true -> length u = length (cs_angles cs) ->
  existsb matrix_only cs = true \/ (forallb (ci_TN n) cs = true /\ nonzero n psi) -> is_state n [1; 2 ^ n] t psi -> is_op n m M -> values_in n lo hi M -> (TN = true -> nonzero n psi /\ forallb (ci_TN n) cs = true) -> (0 <= e)%R ->
  exists c d g x y, circuit_of n (cs_with cs u) = Ok c /\ cal_params_grad svd t m c = Ok (g, c) /\ cir_expectation svd c t m TN = Ok x /\
    circuit_of n (cs_with cs (descend e u g)) = Ok d /\ cir_expectation svd d t m TN = Ok y /\ length g = length u /\
    (y <= x - e * (1 - e * ((hi - lo) / 2 * norm2 n psi * INR (length u))) * sum_sq g)%R.
Proof.
  intros svd n cs u e t psi m M lo hi TN Hs Hn H T Lu HC Ht Hm HV HT He.
  destruct (prediction svd n cs u u t psi m M lo hi TN Hs Hn H T Lu Lu HC Ht Hm HV HT) as (c & _ & g & x & _ & E1 & E2 & E3 & _ & _ & E6 & _).
  assert (Lv : length (descend e u g) = length (cs_angles cs)) by now rewrite descend_length.
  destruct (prediction svd n cs u (descend e u g) t psi m M lo hi TN Hs Hn H T Lu Lv HC Ht Hm HV HT) as (c' & d & g' & x' & y & F1 & F2 & F3 & F4 & F5 & F6 & F7).
  assert (c' = c) by congruence. subst c'. assert (g' = g) by congruence. subst g'. assert (x' = x) by congruence. subst x'.
  exists c, d, g, x, y. repeat (split; [assumption|]). rewrite descend_predicted, descend_change in F7 by assumption.
  apply Rabs_def2_le in F7. destruct F7 as [_ F7]. pose proof (K_pos n psi M lo hi HV cs H) as PK. set (K := ((hi - lo) / 2 * norm2 n psi)%R) in *.
  pose proof (sum_abs_sq g) as Q. rewrite E6 in Q. apply (Rmult_le_compat_l (K * (e * e))) in Q; [|apply Rmult_le_pos; [exact PK|nra]].
  replace (K * (e * sum_abs g) * (e * sum_abs g))%R with (K * (e * e) * (sum_abs g * sum_abs g))%R in F7 by ring.
  replace (x - e * (1 - e * (K * INR (length u))) * sum_sq g)%R with (x - e * sum_sq g + K * (e * e) * (INR (length u) * sum_sq g))%R by ring. lra.
Qed.
Lemma sum_sq_strict : forall g k, k < length g -> nth k g 0%R <> 0%R -> (0 < sum_sq g)%R.
Proof.
  induction g as [|a g IH]; intros k Hk N; [cbn in Hk; lia|]. cbn [sum_sq fold_right]. fold (sum_sq g). pose proof (sum_sq_pos g) as P. pose proof (Rle_0_sqr a) as Q. unfold Rsqr in Q.
  destruct k as [|k]; cbn in N; [pose proof (Rsqr_pos_lt a N) as W; unfold Rsqr in W; lra|]. cbn in Hk. assert (Hk' : k < length g) by lia. pose proof (IH k Hk' N). lra.
Qed.
Lemma decrease : forall svd n cs u e t psi m M lo hi TN, exact_svd svd -> 0 < n -> Forall (ci_ok n) cs -> forallb two_term cs = true -> length u = length (cs_angles cs) ->
  existsb matrix_only cs = true \/ (forallb (ci_TN n) cs = true /\ nonzero n psi) -> is_state n [1; 2 ^ n] t psi -> is_op n m M -> values_in n lo hi M -> (TN = true -> nonzero n psi /\ forallb (ci_TN n) cs = true) ->
  (0 < e)%R -> (e * ((hi - lo) / 2 * norm2 n psi * INR (length u)) < 1)%R ->
  exists c d g x y, circuit_of n (cs_with cs u) = Ok c /\ cal_params_grad svd t m c = Ok (g, c) /\ cir_expectation svd c t m TN = Ok x /\
    circuit_of n (cs_with cs (descend e u g)) = Ok d /\ cir_expectation svd d t m TN = Ok y /\ length g = length u /\
    (y <= x)%R /\ ((exists k, k < length u /\ nth k g 0%R <> 0%R) -> (y < x)%R).
Proof.
  intros svd n cs u e t psi m M lo hi TN Hs Hn H T Lu HC Ht Hm HV HT He Hb.
  destruct (descent svd n cs u e t psi m M lo hi TN Hs Hn H T Lu HC Ht Hm HV HT (Rlt_le _ _ He)) as (c & d & g & x & y & E1 & E2 & E3 & E4 & E5 & E6 & E7).
  exists c, d, g, x, y. repeat (split; [assumption|]). set (q := (e * ((hi - lo) / 2 * norm2 n psi * INR (length u)))%R) in *. clearbody q.
  assert (P : (0 < e * (1 - q))%R) by (apply Rmult_lt_0_compat; lra). split.
  - pose proof (Rmult_le_pos _ _ (Rlt_le _ _ P) (sum_sq_pos g)). lra.
  - intros (k & Hk & N). rewrite <- E6 in Hk. pose proof (Rmult_lt_0_compat _ _ P (sum_sq_strict g k Hk N)). lra.
Qed.
