(** Concrete circuits used beside the theorems. *)
From Coq Require Import List ZArith QArith Reals Lra Lia Bool Arith.
From Verif Require Import PyBase Scalar CInst BigSum Index Tensor Spec SpecFacts QMath QTN QOperator ExpandFacts GateSpec QGates GateCalls RunSpec MPSSpec
  LayerSpec QLayers LayerCalls CircuitSpec QCircuit MPSFacts7 LayerProofs MPSCases CircuitFacts1 CircuitProofs.
Import ListNotations.
Local Close Scope Q_scope.
Local Close Scope R_scope.
Local Open Scope nat_scope.

Definition demo : list ci :=
  [CL (li_H [0; 1; 2]); CG (gi_rx 1 0); CG (gi_cu3 1 2 3 2 0); CL (li_rot KXZ [2; 1] [1; 2; 3; 4]%R); CL (li_ring [0; 1; 2]);
   CG (gi_cphase 1 0 2); CG (gi_rz 5 1); CG (gi_swap 2 0)].
Ltac gw := split; [repeat constructor; cbn; lia|cbn; intros w Hw; lia].
Ltac ciok := match goal with
  | |- ci_ok _ (CG _) => cbn [ci_ok]; giok
  | |- ci_ok _ (CL _) => cbn [ci_ok li_ok]; repeat (match goal with |- _ /\ _ => split end; try (cbn; lia)); try gw; try (cbn; intros w Hw; lia); try (repeat constructor; cbn; lia); try (cbn; lia)
  end.
Lemma demo_ok : Forall (ci_ok 3) demo.
Proof. unfold demo. repeat (constructor; [ciok|]). constructor. Qed.
Lemma order_matters : ~ op_eq 1 (cs_op 1 [CG (gi_X 0); CG (gi_H 0)]) (cs_op_rev 1 [CG (gi_X 0); CG (gi_H 0)]).
Proof.
  intros H. assert (X := H [0] [1]). cbn in X. assert (Y := f_equal Re (X (or_introl eq_refl) (or_intror (or_introl eq_refl)))). clear H X.
  cbv -[Rplus Rmult Ropp Rinv sqrt IZR R1 R0] in Y. pose proof (Rinv_0_lt_compat (sqrt 2) (sqrt_lt_R0 2 ltac:(lra))). lra.
Qed.
Lemma ghz_row : is_state 3 [1; 2 ^ 3] (mkT [1; 8] (map ghz (bits 3))) ghz.
Proof.
  split; [reflexivity|]. split; [reflexivity|]. intros b Hb. cbn in Hb.
  repeat (destruct Hb as [<-|Hb]; [reflexivity|]). destruct Hb.
Qed.
Lemma backends_case : exact_svd triv_svd /\ Forall (ci_ok 3) demo /\ forallb (ci_TN 3) demo = true /\
  is_state 3 [1; 2 ^ 3] (mkT [1; 8] (map ghz (bits 3))) ghz /\ nonzero 3 ghz /\ is_mps 3 ghz_mps ghz.
Proof. split; [exact some_exact_svd|]. split; [exact demo_ok|]. split; [reflexivity|]. split; [exact ghz_row|]. split; [exact ghz_nonzero|exact ghz_is_mps]. Qed.
Lemma unsupported_case : Forall (ci_ok 3) (demo ++ CG (gi_mcx [0; 2] 1) :: demo) /\
  matrix_only (CG (gi_mcx [0; 2] 1)) = true.
Proof.
  split; [|reflexivity]. apply Forall_app. split; [exact demo_ok|]. constructor; [|exact demo_ok].
  split; [gw|discriminate].
Qed.
Lemma eye8_op : is_op 3 (eye 8) id_op.
Proof. change 8 with (2 ^ 3). rewrite eye_op. apply op_tensor_is. Qed.
