(** What is assumed of torch.svd when small singular values are dropped.  Specification: uses no model function. *)
From Coq Require Import List ZArith QArith Lia Bool Arith.
From Verif Require Import PyBase Scalar BigSum Index Tensor Spec.
Import ListNotations.
Local Close Scope Q_scope.
Local Open Scope nat_scope.

Section TruncSpec.
  Context {SC : Scalar}.
  Local Open Scope k_scope.

  (** the first k columns of the m-row matrix X are orthonormal *)
  Definition orthonormal (m k : nat) (X : tensor) : Prop :=
    forall l l', (l < k)%nat -> (l' < k)%nat ->
      bigsum (seq 0 m) (fun i => kconj (tget X [i; l]) * tget X [i; l']) = if (l =? l')%nat then 1 else 0.

  (** [svd] gives a singular value decomposition of the matrix [A]: A = U diag(S) V^dagger with k = min(m,n) singular values,
      U and V with orthonormal columns, the singular values above 1e-8 first *)
  Definition true_at (svd : tensor -> tensor * tensor * tensor) (A : tensor) : Prop :=
    forall m n, shape A = [m; n] -> wf A -> (0 < m)%nat -> (0 < n)%nat ->
    let '(U, Sg, V) := svd A in
    let k := Nat.min m n in
    shape U = [m; k] /\ wf U /\ shape Sg = [k] /\ wf Sg /\ shape V = [n; k] /\ wf V /\
    (forall i j, (i < m)%nat -> (j < n)%nat ->
       tget A [i; j] = bigsum (seq 0 k) (fun l => tget U [i; l] * tget Sg [l] * kconj (tget V [j; l]))) /\
    orthonormal m k U /\ orthonormal n k V /\
    exists D, (D <= k)%nat /\ forall l, (l < k)%nat -> kabsgt (tget Sg [l]) (1 # 100000000)%Q = (l <? D)%nat.

  Definition true_svd (svd : tensor -> tensor * tensor * tensor) : Prop := forall A, true_at svd A.
End TruncSpec.

(** the largest possible number of singular values in the first i cuts of an N-qubit state *)
Fixpoint cut_count (N i : nat) : nat :=
  match i with
  | 0 => 0
  | S i' => cut_count N i' + Nat.min (2 ^ i) (2 ^ (N - i))
  end.
