(** Proofs: many steps of gradient descent. *)
From Coq Require Import List ZArith QArith Reals Lra Lia Bool Arith.
From Verif Require Import PyBase Scalar CInst Tensor Spec QMath GateSpec QGates MPSSpec LayerSpec CircuitSpec QCircuit CircuitFacts1 CircuitProofs MeasSpec GradSpec GradFacts1 GradFacts2 GradFacts3 GradProofs QGradient
  ApartProofs OneAngleFacts OneAngleProofs ObsSpec ObsProofs StaleProofs SmoothSpec SmoothProofs DescentProofs.
Import ListNotations.
Local Close Scope Q_scope.
Local Close Scope R_scope.
Local Open Scope nat_scope.

Lemma pick_small : forall (f : list R -> R) gs b, gs <> [] -> (fold_right (fun g s => f g + s) 0 gs <= b)%R -> exists i, i < length gs /\ (INR (length gs) * f (nth i gs []) <= b)%R.
Proof.
  intros f gs b N. assert (X : exists i, i < length gs /\ (INR (length gs) * f (nth i gs []) <= fold_right (fun g s => f g + s) 0 gs)%R).
  { induction gs as [|g gs IH]; [congruence|]. destruct gs as [|h gs]; [exists 0; split; [cbn; lia|cbn; lra]|].
    destruct IH as (i & Hi & L); [discriminate|]. set (hs := h :: gs) in *. assert (P : (0 < INR (length hs))%R) by (apply lt_0_INR; cbn; lia).
    clearbody hs. cbn [fold_right length]. rewrite S_INR. set (s := fold_right _ 0%R hs) in *. clearbody s.
    destruct (Rle_dec (f g) (f (nth i hs []))) as [Q|Q].
    - exists 0. split; [lia|]. cbn [nth]. apply (Rmult_le_compat_l (INR (length hs))) in Q; lra.
    - exists (S i). split; [lia|]. cbn [nth]. lra. }
  intros H. destruct X as (i & Hi & L). exists i. split; [exact Hi|lra].
Qed.
Lemma steps : forall svd n cs e t psi m M lo hi, exact_svd svd -> 0 < n -> Forall (ci_ok n) cs -> forallb two_term cs = true ->
  existsb matrix_only cs = true \/ (forallb (ci_TN n) cs = true /\ nonzero n psi) -> is_state n [1; 2 ^ n] t psi -> is_op n m M -> values_in n lo hi M -> (0 <= e)%R ->
  forall T u, length u = length (cs_angles cs) -> exists gs, length gs = T /\
    (forall i, i < T -> exists c, circuit_of n (cs_with cs (after_steps e u gs i)) = Ok c /\ cal_params_grad svd t m c = Ok (nth i gs [], c)) /\
    (fold_right (fun g s => e * (1 - e * ((hi - lo) / 2 * norm2 n psi * INR (length u))) * sum_sq g + s) 0 gs <= expect n (cs_with cs u) psi M - lo * norm2 n psi)%R.
Proof.
  intros svd n cs e t psi m M lo hi Hs Hn H T HC Ht Hm HV He. induction T0 as [|k IH]; intros u Lu.
  - exists []. split; [reflexivity|]. split; [intros i Hi; lia|]. cbn [fold_right]. pose proof (expect_range n (cs_with cs u) psi M lo hi (cs_with_oks n cs u H Lu) HV). lra.
  - destruct (descent svd n cs u e t psi m M lo hi false Hs Hn H T Lu HC Ht Hm HV) as (c & d & g & x & y & E1 & E2 & E3 & E4 & E5 & E6 & E7); [discriminate|exact He|].
    assert (Ld : length (descend e u g) = length (cs_angles cs)) by now rewrite descend_length.
    destruct (expectation_value svd n (cs_with cs u) t psi m M false Hs Hn (cs_with_oks n cs u H Lu) Ht Hm) as (c' & F1 & F2); [discriminate|].
    destruct (expectation_value svd n (cs_with cs (descend e u g)) t psi m M false Hs Hn (cs_with_oks n cs _ H Ld) Ht Hm) as (d' & D1 & D2); [discriminate|].
    assert (c' = c) by congruence. assert (d' = d) by congruence. subst c' d'.
    assert (X : x = expect n (cs_with cs u) psi M) by congruence. assert (Y : y = expect n (cs_with cs (descend e u g)) psi M) by congruence.
    destruct (IH _ Ld) as (gs & G1 & G2 & G3). exists (g :: gs). split; [cbn; lia|]. split.
    + intros [|i] Hi; [exists c; split; [exact E1|exact E2]|]. destruct (G2 i) as (b & B1 & B2); [lia|]. exists b. split; [exact B1|exact B2].
    + rewrite Ld, <- Lu in G3. cbn [fold_right]. rewrite <- X. rewrite <- Y in G3. lra.
Qed.
Lemma many_steps : forall svd n cs u e t psi m M lo hi T, exact_svd svd -> 0 < n -> Forall (ci_ok n) cs -> forallb two_term cs = true -> length u = length (cs_angles cs) ->
  existsb matrix_only cs = true \/ (forallb (ci_TN n) cs = true /\ nonzero n psi) -> is_state n [1; 2 ^ n] t psi -> is_op n m M -> values_in n lo hi M -> (0 <= e)%R -> 0 < T ->
  exists gs, length gs = T /\
    (forall i, i < T -> exists c, circuit_of n (cs_with cs (after_steps e u gs i)) = Ok c /\ cal_params_grad svd t m c = Ok (nth i gs [], c)) /\
    exists i, i < T /\ (INR T * (e * (1 - e * ((hi - lo) / 2 * norm2 n psi * INR (length u))) * sum_sq (nth i gs [])) <= (hi - lo) * norm2 n psi)%R.
Proof.
  intros svd n cs u e t psi m M lo hi T Hs Hn H H2 Lu HC Ht Hm HV He HT.
  destruct (steps svd n cs e t psi m M lo hi Hs Hn H H2 HC Ht Hm HV He T u Lu) as (gs & G1 & G2 & G3). exists gs. split; [exact G1|]. split; [exact G2|].
  pose proof (expect_range n (cs_with cs u) psi M lo hi (cs_with_oks n cs u H Lu) HV) as R.
  rewrite <- G1. apply (pick_small (fun g => e * (1 - e * ((hi - lo) / 2 * norm2 n psi * INR (length u))) * sum_sq g)%R); [intros ->; cbn in G1; lia|]. lra.
Qed.
