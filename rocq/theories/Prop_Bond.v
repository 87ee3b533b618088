(** C68: size of matrix product states.  Specifications used in the statements: Spec.v, GateSpec.v, LayerSpec.v, CircuitSpec.v, MPSSpec.v, BondSpec.v.
    Only the shapes of what torch.svd returns are assumed ([svd_shapes]), so the theorems also cover runs in which singular values are cut off. *)
From Coq Require Import List ZArith Reals Lra Lia Bool Arith.
From Verif Require Import PyBase Scalar CInst Tensor Spec SpecFacts QMath QTN QOperator GateSpec QGates GateCalls RunSpec MPSSpec LayerSpec QLayers LayerCalls
  CircuitSpec QCircuit MPSFacts7 MPSCases CircuitFacts1 CircuitProofs CircuitCases BondSpec BondProofs MPSFacts9.
Import ListNotations.
Local Close Scope R_scope.
Local Open Scope nat_scope.

(** what StateVec2MPS returns has no bond larger than the smaller side of its cut *)
Theorem C68_initial : forall (SC : Scalar) svd N t l, svd_shapes svd -> 0 < N -> wf t -> StateVec2MPS svd t N = Ok l -> fits N l.
Proof. exact initial_fits. Qed.
Print Assumptions C68_initial.
Example C68_initial_case : svd_shapes triv_svd /\ wf (mkT [1; 8] (map ghz (bits 3))) /\ exists l, StateVec2MPS triv_svd (mkT [1; 8] (map ghz (bits 3))) 3 = Ok l.
Proof.
  split; [exact (exact_shapes _ some_exact_svd)|]. split; [reflexivity|].
  destruct (MPSFacts9.round_trip (SC := C_scalar) triv_svd 3 (mkT [1; 8] (map ghz (bits 3))) ghz some_exact_svd) as (l & t' & E & _).
  - lia.
  - split; [reflexivity|]. split; [reflexivity|]. intros b Hb. cbn in Hb. repeat (destruct Hb as [<-|Hb]; [reflexivity|]). destruct Hb.
  - exact ghz_nonzero.
  - now exists l.
Qed.

(** TN_evolution keeps that bound, however long the circuit: no site tensor ever has more entries than the state vector *)
Theorem C68_evolved : forall svd n cs c l l', svd_shapes svd -> Forall (ci_ok n) cs -> circuit_of n cs = Ok c -> mps_shape n l -> fits n l ->
  TN_evolution svd c l = Ok l' -> fits n l' /\ small_sites n l'.
Proof. exact evolved_fits. Qed.
Print Assumptions C68_evolved.
Example C68_evolved_case : svd_shapes triv_svd /\ Forall (ci_ok 3) demo /\ mps_shape 3 ghz_mps /\ fits 3 ghz_mps /\ exists c l', circuit_of 3 demo = Ok c /\ TN_evolution triv_svd c ghz_mps = Ok l'.
Proof.
  split; [exact (exact_shapes _ some_exact_svd)|]. split; [exact demo_ok|]. split; [exact (proj1 ghz_is_mps)|]. split.
  - intros [|[|i]] Hi; [| |lia]; cbn; lia.
  - destruct (mps_product triv_svd 3 demo ghz_mps ghz some_exact_svd demo_ok eq_refl ghz_is_mps ghz_nonzero) as (c & l' & E & F & _). exists c, l'. split; [exact E|exact F].
Qed.
(** the whole pipeline *)
Theorem C68_pipeline : forall svd n cs c t l l', svd_shapes svd -> 0 < n -> Forall (ci_ok n) cs -> circuit_of n cs = Ok c -> wf t ->
  StateVec2MPS svd t n = Ok l -> TN_evolution svd c l = Ok l' -> mps_shape n l' /\ fits n l' /\ small_sites n l'.
Proof. exact pipeline_fits. Qed.
Print Assumptions C68_pipeline.

(** an operation that does not act across a cut leaves the bond there as it was *)
Theorem C68_untouched : forall svd n cs c l l' i, svd_shapes svd -> Forall (ci_ok n) cs -> circuit_of n cs = Ok c -> mps_shape n l -> S i < n -> Forall (one_side i) cs ->
  TN_evolution svd c l = Ok l' -> bond l' i = bond l i.
Proof. exact untouched_bond. Qed.
Print Assumptions C68_untouched.
Definition sides : list ci := [CG (gi_ry 1 2); CG (gi_cnot 2 1); CL (li_rot KXZ [0; 2] [1; 2; 3; 4]%R); CG (gi_swap 1 2); CG (gi_H 0)].
Example C68_untouched_case : Forall (ci_ok 3) sides /\ Forall (one_side 0) sides /\ exists c l', circuit_of 3 sides = Ok c /\ TN_evolution triv_svd c ghz_mps = Ok l'.
Proof.
  assert (A : Forall (ci_ok 3) sides) by (unfold sides; repeat (apply Forall_cons; [ciok|]); apply Forall_nil). split; [exact A|]. split.
  - unfold sides. repeat (apply Forall_cons; [cbn; try exact I; (left; intros w Hw; lia) || (right; intros w Hw; lia)|]). apply Forall_nil.
  - destruct (mps_product triv_svd 3 sides ghz_mps ghz some_exact_svd A eq_refl ghz_is_mps ghz_nonzero) as (c & l' & E & F & _). exists c, l'. split; [exact E|exact F].
Qed.
