(** Concrete circuits for the gradient theorems. *)
From Coq Require Import List ZArith QArith Reals Lra Lia Bool Arith.
From Verif Require Import PyBase Scalar CInst BigSum Index Tensor Spec SpecFacts GateSpec RunSpec LayerSpec MPSSpec CircuitSpec
  QMath QTN QOperator QGates GateCalls QLayers LayerCalls GateFacts2 GateFacts4 MPSFacts9 LayerFacts4 QCircuit QGradient StateFacts CircuitFacts1 CircuitProofs CircuitCases GradSpec GradFacts1 GradFacts2 GradFacts3 GradFacts4 GradProofs GradProofs2.
Import ListNotations.
Local Close Scope Q_scope.
Local Close Scope R_scope.
Local Open Scope nat_scope.
(** concrete circuits *)
Definition demo_shift : list ci :=
  [CG (gi_rx 1 0); CL (li_rot KYZY [1; 0] [1; 2; 3; 4; 5; 6]%R); CG (gi_u1 1 2); CG (gi_cphase 1 0 2); CL (li_ring [0; 1; 2]); CG (gi_u3 1 2 3 1); CG (gi_cnot 2 1)].
Definition demo_matrix : list ci := [CG (gi_rxx 1 0 2); CL (li_basic 2 [0; 1; 2] (repeat 1%R 18)); CG (gi_mcx [0; 2] 1); CG (gi_rzz 3 1 2)].
Definition demo_pure : list ci := [CL (li_H [0; 1; 2]); CG (gi_ry 1 0); CL (li_rot KXYZ [2; 0] [1; 2; 3; 4; 5; 6]%R); CL (li_ring [0; 1; 2]); CG (gi_u3 1 2 3 1); CG (gi_toffoli 2 1 0); CG (gi_rz 2 2)].
Lemma demo_shift_ok : Forall (ci_ok 3) demo_shift.
Proof. unfold demo_shift. repeat (constructor; [ciok|]). constructor. Qed.
Lemma demo_matrix_ok : Forall (ci_ok 3) demo_matrix.
Proof. unfold demo_matrix. constructor; [ciok|]. constructor; [ciok|]. constructor; [split; [gw|discriminate]|]. constructor; [ciok|]. constructor. Qed.
Lemma demo_pure_ok : Forall (ci_ok 3) demo_pure.
Proof. unfold demo_pure. repeat (constructor; [ciok|]). constructor. Qed.
Lemma y_hermitian : hermitian 3 (ci_op 3 (CG (gi_Y 1))).
Proof.
  unfold hermitian. cbn [ci_op gi_op]. rewrite lift_adj. apply (lift_ext 3 [1]); [intros w [<-|[]]; lia|]. intros r c Hr Hc. cbn in Hr, Hc.
  repeat match goal with H : _ \/ _ |- _ => destruct H as [<-|H] | H : False |- _ => destruct H end; cbn; ceq; cbn; ring.
Qed.
