(** What a matrix product state means, and what is assumed of torch.svd.  Specification: uses no model function. *)
From Coq Require Import List ZArith QArith Lia Bool Arith.
From Verif Require Import PyBase Scalar BigSum Index Tensor Spec.
Import ListNotations.
Local Close Scope Q_scope.
Local Open Scope nat_scope.

Section MPSSpec.
  Context {SC : Scalar}.
  Local Open Scope k_scope.

  (** entry (i,j) of the product A_1[b_1] A_2[b_2] ... of the matrices selected by the bits b, where site tensor A_k has
      shape [2; left bond; right bond] *)
  Fixpoint mps_mat (l : list tensor) (b : list nat) (i j : nat) : K :=
    match l, b with
    | t :: l', x :: b' => bigsum (seq 0 (nth 2 (shape t) 0%nat)) (fun k => tget t [x; i; k] * mps_mat l' b' k j)
    | _, _ => if (i =? j)%nat then 1 else 0
    end.

  (** amplitude of the basis string b *)
  Definition mps_amp (l : list tensor) : qstate := fun b => mps_mat l b 0%nat 0%nat.

  (** consecutive site tensors with matching bonds of size at least 1, the outer ones being Dl and Dr *)
  Fixpoint chain (Dl : nat) (l : list tensor) (Dr : nat) : Prop :=
    match l with
    | [] => Dl = Dr
    | t :: l' => exists D, (0 < D)%nat /\ shape t = [2%nat; Dl; D] /\ wf t /\ chain D l' Dr
    end.

  (** [l] is a matrix product state of n qubits: n site tensors, outer bonds 1 *)
  Definition mps_shape (n : nat) (l : list tensor) : Prop := length l = n /\ chain 1 l 1.

  (** ... with the amplitudes of psi *)
  Definition is_mps (n : nat) (l : list tensor) (psi : qstate) : Prop := mps_shape n l /\ st_eq n (mps_amp l) psi.

  (** the size of the bond between tensors i and i+1 *)
  Definition bond (l : list tensor) (i : nat) : nat := nth 2 (shape (nth i l (mkT [] []))) 0%nat.

  (** the product ... A_2 A_1 of one-qubit operators A_k placed on the wires ws_k *)
  Definition obs_op (n : nat) (ws : list nat) (As : list qop) : qop :=
    fold_left (fun B (wa : nat * qop) => mul_op n (lift (snd wa) [fst wa]) B) (combine ws As) id_op.

  (** not the zero vector *)
  Definition nonzero (n : nat) (psi : qstate) : Prop := ~ st_eq n psi (fun _ => 0).

  (** [svd] decomposes the m x n matrix [A] exactly: A = U diag(S) V^dagger with k = min(m,n) singular values, the ones
      above 1e-8 first, the others all zero *)
  Definition exact_at (svd : tensor -> tensor * tensor * tensor) (A : tensor) : Prop :=
    forall m n, shape A = [m; n] -> wf A -> (0 < m)%nat -> (0 < n)%nat ->
    let '(U, Sg, V) := svd A in
    let k := Nat.min m n in
    shape U = [m; k] /\ wf U /\ shape Sg = [k] /\ wf Sg /\ shape V = [n; k] /\ wf V /\
    (forall i j, (i < m)%nat -> (j < n)%nat ->
       tget A [i; j] = bigsum (seq 0 k) (fun l => tget U [i; l] * tget Sg [l] * kconj (tget V [j; l]))) /\
    exists D, (D <= k)%nat /\ forall l, (l < k)%nat ->
      if (l <? D)%nat then kabsgt (tget Sg [l]) (1 # 100000000)%Q = true
      else kabsgt (tget Sg [l]) (1 # 100000000)%Q = false /\ tget Sg [l] = 0.

  (** [svd] returns tensors of the right shapes (reduced SVD) *)
  Definition svd_shapes (svd : tensor -> tensor * tensor * tensor) : Prop :=
    forall A m n, shape A = [m; n] -> wf A -> (0 < m)%nat -> (0 < n)%nat ->
    let '(U, Sg, V) := svd A in
    let k := Nat.min m n in
    shape U = [m; k] /\ wf U /\ shape Sg = [k] /\ wf Sg /\ shape V = [n; k] /\ wf V.

  Definition exact_svd (svd : tensor -> tensor * tensor * tensor) : Prop := forall A, exact_at svd A.

  (** the decomposition that refuses the matrices outside [ok]: nothing can be done with its result.  A run with
      [strict ok svd] that succeeds has only decomposed matrices inside [ok]. *)
  Definition strict (ok : tensor -> bool) (svd : tensor -> tensor * tensor * tensor) (A : tensor) : tensor * tensor * tensor :=
    if ok A then svd A else (mkT [] [], mkT [] [], mkT [] []).
End MPSSpec.
