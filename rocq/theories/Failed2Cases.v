(** A second attempt after a cal_params_grad2 that raised. *)
From Coq Require Import List ZArith QArith Reals Lra Lia Bool Arith.
From Verif Require Import PyBase Scalar CInst Index Tensor Spec GateSpec LayerSpec MPSSpec CircuitSpec GradSpec QGates QLayers QCircuit QGradient CircuitFacts1 GradCases SharedCases QFailed QFailed2 Failed2Proofs StaleCases.
Import ListNotations.
Local Close Scope Q_scope.
Local Close Scope R_scope.
Local Open Scope nat_scope.

Theorem retry_wrong : forall svd a t c, exact_svd svd -> is_state 1 [1; 2] t (zero_state 1) -> cos a <> sin a -> cos a <> (- sin a)%R ->
  circuit_of 1 [CG (gi_rx a 0)] = Ok c ->
  exists c', f_cal_params_grad2 svd t [] c = (c', Err KeyError) /\
  exists o sd sv g, obuild 1 (CG (gi_Z 0)) = Ok o /\ save_mid_MPS svd t c' o = Ok (sd, sv) /\ f_cal_params_grad2 svd t sd c' = (c, Ok g) /\ g = [cos a] /\
    ~ is_gradient 1 [CG (gi_rx a 0)] (zero_state 1) (lift Z_op [0]) g.
Proof.
  intros svd a t c Hs Ht N1 N2 Ec.
  destruct (missing_left svd 1 [] (CG (gi_rx a 0)) [] t (zero_state 1) [] c Hs (le_n 1) Ht zero1_nonzero (Forall_cons _ (rxc_ok a) (Forall_nil _)) eq_refl ltac:(discriminate)
    (or_intror (conj eq_refl (conj eq_refl (fun H => H)))) Ec) as (c2 & E2 & E). cbn [app ci_angles gi_angles nth set_at firstn skipn ci_with gi_with] in E2.
  eexists. split; [exact E|].
  assert (S : sin ((a + (a - PI)) / 2) = (- cos a)%R).
  { replace ((a + (a - PI)) / 2)%R with (- (PI / 2 - a))%R by lra. rewrite sin_neg, sin_shift. reflexivity. }
  assert (S2 : sin (a - PI) = (- sin a)%R). { replace (a - PI)%R with (- (PI - a))%R by lra. now rewrite sin_neg, sin_PI_x. }
  destruct (adjoint_updated_wrong svd a (a - PI) t c c2 Hs Ht) as (o & sd & sv & g & A1 & A2 & A3 & A4 & A5 & _); [rewrite S; lra|rewrite S, S2; lra|exact Ec|exact E2|].
  exists o, sd, sv, g. do 2 (split; [assumption|]). split; [|split; [|exact A5]].
  - rewrite failed2_agrees in A3. destruct (f_cal_params_grad2 svd t sd (mkC 1 (c_gate c2) (c_params c) (c_num c))) as [c3 [g3|]]; congruence.
  - rewrite A4, S. now rewrite Ropp_involutive.
Qed.
