(** The bound on the change of values cannot be improved. *)
From Coq Require Import List ZArith QArith Reals Lra Lia Bool Arith.
From Verif Require Import PyBase Scalar CInst Index Tensor Spec GateSpec GateFacts4 LayerSpec MPSSpec CircuitSpec MeasSpec GradSpec QGates QLayers QCircuit QGradient CircuitFacts1 CircuitProofs GradCases SharedCases StaleCases ObsSpec.
Import ListNotations.
Local Close Scope Q_scope.
Local Close Scope R_scope.
Local Open Scope nat_scope.

Lemma steep : forall k, (k < 1)%R -> exists a b, (a <> b /\ k * Rabs (a - b) < Rabs (cos a - cos b))%R.
Proof.
  intros k Hk. destruct (derivable_pt_lim_sin 0 (1 - k)%R) as (d & Hd); [lra|]. pose proof (cond_pos d) as Pd. set (h := (d / 2)%R) in *. assert (Ph : (0 < h < d)%R) by (unfold h; lra).
  assert (Hn : h <> 0%R) by lra. assert (Hb : (Rabs h < d)%R) by (rewrite Rabs_right; lra).
  specialize (Hd h Hn Hb). rewrite cos_0, sin_0, Rplus_0_l, Rminus_0_r in Hd. apply Rabs_def2 in Hd. destruct Hd as [_ Hd].
  assert (S : (k * h < sin h)%R). { assert (X : (k < sin h / h)%R) by lra. apply (Rmult_lt_compat_r h) in X; [|lra]. replace (sin h / h * h)%R with (sin h) in X by (field; lra). exact X. }
  exists (PI / 2 + h)%R, (PI / 2 - h)%R. split; [lra|].
  rewrite cos_plus, cos_minus, cos_PI2, sin_PI2. replace (PI / 2 + h - (PI / 2 - h))%R with (2 * h)%R by ring. rewrite (Rabs_right (2 * h)) by lra.
  replace (0 * cos h - 1 * sin h - (0 * cos h + 1 * sin h))%R with (- (2 * sin h))%R by ring. rewrite Rabs_Ropp. pose proof (Rle_abs (2 * sin h)). lra.
Qed.
Lemma zero1_norm : norm2 1 (zero_state 1) = 1%R.
Proof. cbn. unfold Cnorm2. cbn. ring. Qed.
Lemma sharp_change : forall svd t m k, exact_svd svd -> is_state 1 [1; 2] t (zero_state 1) -> is_op 1 m (lift Z_op [0]) -> (k < 1)%R ->
  exists a b c d x y, a <> b /\ circuit_of 1 [CG (gi_rx a 0)] = Ok c /\ cir_expectation svd c t m true = Ok x /\ circuit_of 1 [CG (gi_rx b 0)] = Ok d /\ cir_expectation svd d t m true = Ok y /\
    (k * ((1 - -1) / 2 * norm2 1 (zero_state 1) * Rabs (a - b)) < Rabs (x - y))%R.
Proof.
  intros svd t m k Hs Ht Hm Hk. destruct (steep k Hk) as (a & b & N & L). exists a, b.
  assert (V : forall z, exists c, circuit_of 1 [CG (gi_rx z 0)] = Ok c /\ cir_expectation svd c t m true = Ok (cos z)).
  { intros z. rewrite <- rx_expect. apply (expectation_value svd 1 [CG (gi_rx z 0)] t (zero_state 1) m (lift Z_op [0]) true Hs (le_n 1) (Forall_cons _ (rxc_ok z) (Forall_nil _)) Ht Hm).
    intros _. split; [exact zero1_nonzero|reflexivity]. }
  destruct (V a) as (c & A1 & A2). destruct (V b) as (d & B1 & B2). exists c, d, (cos a), (cos b). repeat (split; [assumption|]).
  rewrite zero1_norm. replace ((1 - -1) / 2 * 1 * Rabs (a - b))%R with (Rabs (a - b)) by field. exact L.
Qed.
