(** Properties of StateVec2MPS when small singular values are dropped (C48).  Specifications used in the statements: Spec.v,
    MPSSpec.v, MeasSpec.v (rsum, norm2), TruncSpec.v.  [svd] stands for torch.svd: what is assumed of it is [true_at]
    (TruncSpec.v), a singular value decomposition in exact arithmetic. *)
From Coq Require Import List ZArith QArith Reals Lra Lia Bool Arith.
From Verif Require Import PyBase Scalar CInst BigSum Index Tensor Spec SpecFacts QMath QTN
  MPSSpec MeasSpec TruncSpec TruncFacts2 SVDExist5.
Import ListNotations.
Local Close Scope Q_scope.
Local Close Scope R_scope.
Local Open Scope nat_scope.

(** C48: from a state vector to a matrix product state and back, every |singular value| <= 1e-8 being dropped.  The squared
    distance is at most 1e-16 for each singular value that can occur, and the norm never grows. *)
Theorem C48_error_bound : forall svd N t (psi : @qstate C_scalar), true_svd svd -> 0 < N -> is_state N [1; 2 ^ N] t psi ->
  (INR (cut_count N (N - 1)) * / 10 ^ 16 < norm2 N psi)%R ->
  exists l t' phi, StateVec2MPS svd t N = Ok l /\ is_mps N l phi /\ MPS2StateVec l = Ok t' /\ is_state N [1; 2 ^ N] t' phi /\
    (rsum (bits N) (fun b => Cnorm2 (Csub (psi b) (phi b))) <= INR (cut_count N (N - 1)) * / 10 ^ 16)%R /\
    (norm2 N phi = norm2 N psi - rsum (bits N) (fun b => Cnorm2 (Csub (psi b) (phi b))))%R.
Proof. exact trunc_true. Qed.
Print Assumptions C48_error_bound.

(** C48: the assumption on the decomposition can be met: some function gives a true decomposition of every matrix *)
Theorem C48_true_svd_exists : exists svd : @tensor C_scalar -> @tensor C_scalar * @tensor C_scalar * @tensor C_scalar, true_svd svd.
Proof. exact true_svd_exists. Qed.
Print Assumptions C48_true_svd_exists.

(** C48: the number of singular values is at most 4 * 2^(N/2) *)
Theorem C48_count : forall N, cut_count N (N - 1) <= 4 * 2 ^ (N / 2).
Proof. exact cut_count_bound. Qed.
Print Assumptions C48_count.
Example C48_count_case : cut_count 6 5 = 20.
Proof. reflexivity. Qed.

(** C48: the decomposition need only be a true one on the matrices that occur (the set [ok]) *)
Theorem C48_error_bound_where_true : forall ok svd N t (psi : @qstate C_scalar) l, (forall A, ok A = true -> true_at svd A) -> 0 < N ->
  is_state N [1; 2 ^ N] t psi -> (INR (cut_count N (N - 1)) * / 10 ^ 16 < norm2 N psi)%R -> StateVec2MPS (strict ok svd) t N = Ok l ->
  StateVec2MPS svd t N = Ok l /\ exists t' phi, is_mps N l phi /\ MPS2StateVec l = Ok t' /\ is_state N [1; 2 ^ N] t' phi /\
    (rsum (bits N) (fun b => Cnorm2 (Csub (psi b) (phi b))) <= INR (cut_count N (N - 1)) * / 10 ^ 16)%R /\
    (norm2 N phi = norm2 N psi - rsum (bits N) (fun b => Cnorm2 (Csub (psi b) (phi b))))%R.
Proof. exact trunc_strict. Qed.
Print Assumptions C48_error_bound_where_true.
(** |00> + 1e-9 |11>: the second singular value is dropped, one bond of size 1 is left *)
Example C48_case : (forall A, nearly_ok A = true -> true_at nearly_svd A) /\
  is_state 2 [1; 2 ^ 2] (mkT [1; 4] (map nearly00 (bits 2))) nearly00 /\
  (INR (cut_count 2 (2 - 1)) * / 10 ^ 16 < norm2 2 nearly00)%R /\
  exists l, StateVec2MPS (strict nearly_ok nearly_svd) (mkT [1; 4] (map nearly00 (bits 2))) 2 = Ok l /\ bond l 0 = 1.
Proof. split; [exact nearly_true|]. split; [exact nearly_state|]. split; [exact nearly_norm|exact nearly_runs]. Qed.

(** C48: a state of norm at most 1e-8 is dropped altogether, and the call fails *)
Theorem C48_tiny_state_rejected : forall svd N t (psi : @qstate C_scalar), true_svd svd -> 1 < N -> is_state N [1; 2 ^ N] t psi ->
  (norm2 N psi <= / 10 ^ 16)%R -> StateVec2MPS svd t N = Err TorchError.
Proof. exact tiny_rejected. Qed.
Print Assumptions C48_tiny_state_rejected.
Example C48_tiny_case : (norm2 2 (fun b => if forallb (Nat.eqb 1) b then RtoC (/ 10 ^ 9) else RtoC 0) <= / 10 ^ 16)%R.
Proof. unfold norm2, Cnorm2. cbn. lra. Qed.
