(** Properties of the evolution of a matrix product state when small singular values are dropped (C54).  Specifications used in the
    statements: Spec.v, MPSSpec.v, MeasSpec.v (rsum, norm2), TruncSpec.v (true_svd, cut_count), TruncRunSpec.v (moves, ci_moves),
    RunSpec.v and CircuitSpec.v.  [svd] stands for torch.svd: a singular value decomposition in exact arithmetic. *)
From Coq Require Import List ZArith QArith Reals Lra Lia Bool Arith.
From Verif Require Import PyBase Scalar CInst BigSum Index Tensor Spec SpecFacts QMath QTN QOperator GateSpec QGates GateCalls RunSpec CircuitSpec QCircuit CircuitCases
  MPSSpec MPSFacts6 MeasSpec TruncSpec TruncFacts2 SVDExist5 TruncRunSpec TruncRun7 TruncRun9.
Import ListNotations.
Local Close Scope Q_scope.
Local Close Scope R_scope.
Local Open Scope nat_scope.

(** C54: gates applied one after the other to the matrix product state of a normalised state vector.  The distance to the state
    given by the matrices is at most 1e-8 times (the root of the number of singular values of the first decomposition plus eight
    for every step that moves or joins neighbouring sites).  cut_count n (n - 1) <= 10^14 holds for every n <= 89 (C48_count). *)
Theorem C54_gates_error_bound : forall svd n gs t (psi : @qstate C_scalar), true_svd svd -> 0 < n -> Forall (gi_ok n) gs -> forallb has_TN gs = true ->
  is_state n [1; 2 ^ n] t psi -> norm2 n psi = 1%R -> (INR (cut_count n (n - 1)) <= 10 ^ 14)%R -> (INR (moves gs) <= 2 * 10 ^ 6)%R ->
  exists os l l' t' phi, mmap (build n) gs = Ok os /\ StateVec2MPS svd t n = Ok l /\ mfold (fun l o => TN_operation svd o l) os l = Ok l' /\
    is_mps n l' phi /\ MPS2StateVec l' = Ok t' /\ is_state n [1; 2 ^ n] t' phi /\
    (sqrt (rsum (bits n) (fun b => Cnorm2 (Csub (act n (gs_op n gs) psi b) (phi b)))) <=
     (sqrt (INR (cut_count n (n - 1))) + 8 * INR (moves gs)) * / 10 ^ 8)%R.
Proof. exact run_true. Qed.
Print Assumptions C54_gates_error_bound.
Example C54_gates_case : let gs := [gi_H 0; gi_cnot 0 2; gi_toffoli 2 0 1; gi_u3 1 2 3 1; gi_swap 2 1] in
  (exists svd : @tensor C_scalar -> _, true_svd svd) /\ Forall (gi_ok 3) gs /\ forallb has_TN gs = true /\
  is_state 3 [1; 2 ^ 3] (mkT [1; 8] (map zero3 (bits 3))) zero3 /\ norm2 3 zero3 = 1%R /\
  (INR (cut_count 3 (3 - 1)) <= 10 ^ 14)%R /\ moves gs = 7 /\ (INR (moves gs) <= 2 * 10 ^ 6)%R.
Proof. exact gates_true_case. Qed.

(** C54: the same for a circuit of gates and layers *)
Theorem C54_circuit_error_bound : forall svd n cs t (psi : @qstate C_scalar), true_svd svd -> 0 < n -> Forall (ci_ok n) cs -> forallb (ci_TN n) cs = true ->
  is_state n [1; 2 ^ n] t psi -> norm2 n psi = 1%R -> (INR (cut_count n (n - 1)) <= 10 ^ 14)%R -> (INR (ci_moves cs) <= 2 * 10 ^ 6)%R ->
  exists c l l' t' phi, circuit_of n cs = Ok c /\ StateVec2MPS svd t n = Ok l /\ TN_evolution svd c l = Ok l' /\
    is_mps n l' phi /\ MPS2StateVec l' = Ok t' /\ is_state n [1; 2 ^ n] t' phi /\
    (sqrt (rsum (bits n) (fun b => Cnorm2 (Csub (act n (cs_op n cs) psi b) (phi b)))) <=
     (sqrt (INR (cut_count n (n - 1))) + 8 * INR (ci_moves cs)) * / 10 ^ 8)%R.
Proof. exact circuit_true. Qed.
Print Assumptions C54_circuit_error_bound.
Example C54_circuit_case : (exists svd : @tensor C_scalar -> _, true_svd svd) /\ Forall (ci_ok 3) demo /\ forallb (ci_TN 3) demo = true /\
  is_state 3 [1; 2 ^ 3] (mkT [1; 8] (map zero3 (bits 3))) zero3 /\ norm2 3 zero3 = 1%R /\
  (INR (cut_count 3 (3 - 1)) <= 10 ^ 14)%R /\ 0 < ci_moves demo /\ (INR (ci_moves demo) <= 2 * 10 ^ 6)%R.
Proof. exact circuit_true_case. Qed.

(** C54: the state must come from StateVec2MPS.  The normalised state |000> as a matrix product state with sites scaled by 1e18,
    1e-9 and 1e-9: cnot on wires 1 and 2 drops every singular value and fails, whatever decomposition is used. *)
Theorem C54_any_gauge_refuted : exists l psi, is_mps 3 l psi /\ norm2 3 psi = 1%R /\ forall svd, true_svd svd ->
  exists g, build 3 (gi_cnot 1 2) = Ok g /\ TN_operation svd g l = Err TorchError.
Proof. exact gauge_refuted. Qed.
Print Assumptions C54_any_gauge_refuted.
