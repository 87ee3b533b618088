(** C84: statements. *)
From Coq Require Import List ZArith QArith Reals Lra Lia Bool Arith.
From Verif Require Import PyBase Scalar CInst BigSum Index Tensor Spec SpecFacts GateSpec RunSpec LayerSpec MPSSpec CircuitSpec
  QMath QTN QOperator QGates GateCalls QLayers LayerCalls QCircuit QGradient MPSCases CircuitFacts1 CircuitProofs GradSpec GradProofs2
  QStride QStride2 QStride3 StrideProofs StrideCases StrideCircuit2 StrideSaved.
Import ListNotations.
Local Close Scope Q_scope.
Local Close Scope R_scope.
Local Open Scope nat_scope.

Section Statements.
  Variable svd : tensor -> tensor * tensor * tensor.
  Variable svd_lay : stensor -> list nat * list nat * list nat.
  Variable mmT : stensor -> stensor -> bool.
  Variable ein_lay : stensor -> stensor -> list nat.
  Variable lay : tensor -> list nat.

  Lemma save_layout : forall n cs mo x, svd_shapes svd -> torch_svd svd -> torch_layouts svd_lay ein_lay -> matrix_layouts lay ->
    0 < n -> Forall (ci_ok n) cs -> ci_ok n mo -> laid_out x -> wf (val x) ->
    exists c o, circuit_of n cs = Ok c /\ obuild n mo = Ok o /\
      match s_save_mid_MPS svd svd_lay mmT ein_lay lay x c o with
      | Ok (sd, sv) => save_mid_MPS svd (val x) c o = Ok (saved_values sd, val sv) /\ saved_laid n sd /\ laid_out sv
      | Err e => save_mid_MPS svd (val x) c o = Err e
      end.
  Proof.
    intros n cs mo x Hsh Hts Htl Hml Hn H Hm Hx W. exists (circ n cs), (oobj n mo). split; [now apply circuit_of_ok|]. split; [now apply obuild_ok|].
    rewrite (GradFacts3.circ_cobj n cs).
    pose proof (save_RS svd svd_lay mmT ein_lay lay Hsh Hts Htl Hml n Hn x cs mo (c_params (circ n cs)) (c_num (circ n cs)) Hx W H Hm) as E.
    destruct (s_save_mid_MPS _ _ _ _ _ _ _ _) as [[sd sv]|e], (save_mid_MPS _ _ _ _) as [[sd' sv']|e']; cbn [rres fst snd] in E; try contradiction; [|congruence].
    destruct E as [D [<- L]]. destruct (RD_laid n sd sd' D) as [D1 ->]. auto.
  Qed.
  Lemma saved_gradient_layout : forall n cs x sd, svd_shapes svd -> torch_svd svd -> torch_layouts svd_lay ein_lay -> matrix_layouts lay ->
    0 < n -> Forall (ci_ok n) cs -> laid_out x -> wf (val x) -> saved_laid n sd ->
    exists c, circuit_of n cs = Ok c /\ s_cal_params_grad2 svd svd_lay mmT ein_lay lay x c sd = cal_params_grad2 svd (val x) c (saved_values sd).
  Proof.
    intros n cs x sd Hsh Hts Htl Hml Hn H Hx W D. exists (circ n cs). split; [now apply circuit_of_ok|]. apply (grad2_RS svd svd_lay mmT ein_lay lay Hsh Hts Htl Hml n Hn); auto using laid_RD.
  Qed.
  (** from a run without layouts to one with *)
  Lemma saved_transfer : forall n cs mo x c o sd' sv', svd_shapes svd -> torch_svd svd -> torch_layouts svd_lay ein_lay -> matrix_layouts lay ->
    0 < n -> Forall (ci_ok n) cs -> ci_ok n mo -> laid_out x -> wf (val x) -> circuit_of n cs = Ok c -> obuild n mo = Ok o ->
    save_mid_MPS svd (val x) c o = Ok (sd', sv') ->
    exists sd sv, s_save_mid_MPS svd svd_lay mmT ein_lay lay x c o = Ok (sd, sv) /\ val sv = sv' /\
      s_cal_params_grad2 svd svd_lay mmT ein_lay lay x c sd = cal_params_grad2 svd (val x) c sd'.
  Proof.
    intros n cs mo x c o sd' sv' Hsh Hts Htl Hml Hn H Hm Hx W Ec Eo E.
    destruct (save_layout n cs mo x Hsh Hts Htl Hml Hn H Hm Hx W) as (c1 & o1 & E1 & E2 & E3). rewrite Ec in E1. injection E1 as <-. rewrite Eo in E2. injection E2 as <-.
    destruct (s_save_mid_MPS _ _ _ _ _ _ _ _) as [[sd sv]|e]; [|congruence]. destruct E3 as (E3 & D & _). rewrite E in E3. injection E3 as -> ->.
    exists sd, sv. split; [reflexivity|]. split; [reflexivity|].
    destruct (saved_gradient_layout n cs x sd Hsh Hts Htl Hml Hn H Hx W D) as (c2 & E4 & E5). rewrite Ec in E4. injection E4 as <-. exact E5.
  Qed.
  Lemma adjoint_laid : forall n cs x psi mo, exact_svd svd -> torch_svd svd -> torch_layouts svd_lay ein_lay -> matrix_layouts lay ->
    0 < n -> Forall (ci_ok n) cs -> forallb (ci_TN n) cs = true -> cs <> [] -> forallb pure_rotation cs = true ->
    ci_ok n mo -> ci_TN n mo = true -> hermitian n (ci_op n mo) -> laid_out x -> is_state n [1; 2 ^ n] (val x) psi -> nonzero n psi ->
    exists c o sd sv g, circuit_of n cs = Ok c /\ obuild n mo = Ok o /\ s_save_mid_MPS svd svd_lay mmT ein_lay lay x c o = Ok (sd, sv) /\
      is_state n [1; 2 ^ n] (val sv) (act n (cs_op n cs) psi) /\
      s_cal_params_grad2 svd svd_lay mmT ein_lay lay x c sd = Ok (g, c) /\ is_gradient n cs psi (ci_op n mo) g.
  Proof.
    intros n cs x psi mo Hs Hts Htl Hml Hn H T NE P Hm Tm HM Hx Ht HZ.
    destruct (adjoint_gradient svd n cs (val x) psi mo Hs Hn H T NE P Hm Tm HM Ht HZ) as (c & o & sd' & sv' & g & E1 & E2 & E3 & E4 & E5 & G).
    assert (W : wf (val x)) by (destruct Ht as (S & L & _); unfold wf; rewrite S, L; cbn [prodn]; lia).
    destruct (saved_transfer n cs mo x c o sd' sv' (exact_shapes svd Hs) Hts Htl Hml Hn H Hm Hx W E1 E2 E3) as (sd & sv & F1 & F2 & F3).
    exists c, o, sd, sv, g. rewrite F2, F3. auto 10.
  Qed.
End Statements.
