(** What a matrix product density operator means.  Specification: uses no model function. *)
From Coq Require Import List ZArith QArith Lia Bool Arith.
From Verif Require Import PyBase Scalar BigSum Index Tensor Spec.
Import ListNotations.
Local Close Scope Q_scope.
Local Open Scope nat_scope.

Section MPDOSpec.
  Context {SC : Scalar}.
  Local Open Scope k_scope.

  (** entry (i,j) of the product A_1[r_1,c_1] A_2[r_2,c_2] ... of the matrices selected by the row bits r and the column bits c,
      where site tensor A_k has shape [2; 2; left bond; right bond] *)
  Fixpoint mpo_mat (l : list tensor) (r c : list nat) (i j : nat) : K :=
    match l, r, c with
    | t :: l', x :: r', y :: c' => bigsum (seq 0 (nth 3 (shape t) 0%nat)) (fun k => tget t [x; y; i; k] * mpo_mat l' r' c' k j)
    | _, _, _ => if (i =? j)%nat then 1 else 0
    end.

  (** matrix element (r,c) *)
  Definition mpo_op (l : list tensor) : qop := fun r c => mpo_mat l r c 0%nat 0%nat.

  (** consecutive site tensors with matching bonds of size at least 1, the outer ones being Dl and Dr *)
  Fixpoint chain4 (Dl : nat) (l : list tensor) (Dr : nat) : Prop :=
    match l with
    | [] => Dl = Dr
    | t :: l' => exists D, (0 < D)%nat /\ shape t = [2%nat; 2%nat; Dl; D] /\ wf t /\ chain4 D l' Dr
    end.

  (** [l] is a matrix product operator of n qubits with the matrix elements of A *)
  Definition is_mpo (n : nat) (l : list tensor) (A : qop) : Prop := length l = n /\ chain4 1 l 1 /\ op_eq n (mpo_op l) A.

  (** the decomposition of a column of at least two entries has a real singular value and a real right factor: LAPACK applies
      no reflection from the right to a matrix of one column *)
  Definition real_col (svd : tensor -> tensor * tensor * tensor) : Prop :=
    forall A m, shape A = [m; 1%nat] -> wf A -> (2 <= m)%nat ->
    let '(_, Sg, V) := svd A in kconj (tget Sg [0%nat]) = tget Sg [0%nat] /\ kconj (tget V [0%nat; 0%nat]) = tget V [0%nat; 0%nat].
End MPDOSpec.
