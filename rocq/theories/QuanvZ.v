(** C86: the observables listed by Zmeasure of quanv.py. *)
From Coq Require Import List ZArith QArith Reals Lra Lia Bool Arith.
From Verif Require Import PyBase Scalar CInst BigSum Index Tensor Spec SpecFacts GateSpec RunSpec LayerSpec MPSSpec CircuitSpec QMath QMathC QTN QOperator QGates GateCalls QLayers LayerCalls
  QCircuit CircuitFacts1 CircuitProofs MeasSpec MeasFacts MeasCases QQuanv QQuanv2 QuanvProofs TruncSpec TruncRunSpec TruncGrad.
Import ListNotations.
Local Close Scope Q_scope.
Local Close Scope R_scope.
Local Open Scope nat_scope.

Lemma listed : forall c, circuit_Zmeasure c = Ok (map (fun i => op_tensor (c_N c) (lift Z_op [i])) (seq 0 (c_N c))).
Proof. intros c. exact (Zmeasure_conv (c_N c)). Qed.
Lemma same_lists : forall c, exists Ms, circuit_Zmeasure c = Ok Ms /\ Zmeasure (Z.of_nat (c_N c)) INone = Ok Ms /\ qc_Zmeasure (c_N c) = Ok Ms /\
  length Ms = c_N c /\ forall i M, nth_error Ms i = Some M -> is_op (c_N c) M (lift Z_op [i]).
Proof.
  intros c. eexists. split; [apply listed|]. split.
  - apply (Zmeasure_ok (c_N c) INone (seq 0 (c_N c))); [reflexivity|]. intros q Hq. apply in_seq in Hq. lia.
  - split; [apply Zmeasure_conv|]. split; [now rewrite map_length, seq_length|]. intros i M E. rewrite nth_error_map in E.
    destruct (nth_error (seq 0 (c_N c)) i) as [k|] eqn:K; [|discriminate]. injection E as <-.
    assert (Hi : i < c_N c) by (assert (L : i < length (seq 0 (c_N c))) by (apply nth_error_Some; congruence); now rewrite seq_length in L).
    rewrite (nth_error_nth' _ 0) in K by (now rewrite seq_length). rewrite seq_nth in K by exact Hi. injection K as <-. apply op_tensor_is.
Qed.
Lemma listed_expectations : forall svd n cs t psi TN, exact_svd svd -> 0 < n -> Forall (ci_ok n) cs -> is_state n [1; 2 ^ n] t psi ->
  (TN = true -> nonzero n psi /\ forallb (ci_TN n) cs = true) ->
  exists c Ms, circuit_of n cs = Ok c /\ circuit_Zmeasure c = Ok Ms /\
    mmap (fun M => cir_expectation svd c t M TN) Ms = Ok (map (zmean n (act n (cs_op n cs) psi)) (seq 0 n)) /\
    forall s u, is_state n s u (act n (cs_op n cs) psi) -> wf u -> vector_shape n s ->
      measure (Z.of_nat n) u INone = mmap (fun M => cir_expectation svd c t M TN) Ms.
Proof.
  intros svd n cs t psi TN Hs Hn H Ht HT. exists (circ n cs). eexists. split; [now apply circuit_of_ok|]. split; [apply listed|]. rewrite circ_N.
  assert (E : forall l, (forall i, In i l -> i < n) ->
    mmap (fun M => cir_expectation svd (circ n cs) t M TN) (map (fun i => op_tensor n (lift Z_op [i])) l) = Ok (map (zmean n (act n (cs_op n cs) psi)) l)).
  { induction l as [|i l IH]; intros Hl; [reflexivity|]. cbn [map mmap].
    destruct (expectation_value svd n cs t psi (op_tensor n (lift Z_op [i])) (lift Z_op [i]) TN Hs Hn H Ht (op_tensor_is n _) HT) as (c & Ec & Ev).
    rewrite circuit_of_ok in Ec by exact H. injection Ec as <-. rewrite Ev. cbn [bind]. unfold expect at 1. rewrite Z_inner by (apply Hl; now left).
    rewrite IH by (intros; apply Hl; now right). reflexivity. }
  assert (E1 : mmap (fun M => cir_expectation svd (circ n cs) t M TN) (map (fun i => op_tensor n (lift Z_op [i])) (seq 0 n)) = Ok (map (zmean n (act n (cs_op n cs) psi)) (seq 0 n))).
  { apply E. intros i Hi. apply in_seq in Hi. lia. }
  split; [exact E1|]. intros s u Hu Wu Vs. rewrite E1. now apply (measure_all_vec n s).
Qed.
