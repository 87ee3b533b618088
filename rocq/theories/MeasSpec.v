(** What the measured values and the predicates mean.  Specification only: it uses no definition of the model. *)
From Coq Require Import List ZArith Reals Lra Lia Bool Arith.
From Verif Require Import PyBase Scalar CInst BigSum Tensor Spec.
Import ListNotations.
Local Open Scope nat_scope.

(** finite sum of real numbers *)
Fixpoint rsum {A} (l : list A) (f : A -> R) : R := match l with [] => 0%R | a :: l' => (f a + rsum l' f)%R end.

(** outcome of a Z measurement of qubit i on the basis string b: +1 for bit 0, -1 for bit 1 *)
Definition zsign (i : nat) (b : list nat) : R := if nth i b 0 =? 0 then 1%R else (-1)%R.

(** mean outcome on a state vector (the probability of b being |psi_b|^2) and on a density matrix (rho_bb) *)
Definition zmean (n : nat) (psi : qstate) (i : nat) : R := rsum (bits n) (fun b => zsign i b * Cnorm2 (psi b))%R.
Definition zmean_rho (n : nat) (A : qop) (i : nat) : R := rsum (bits n) (fun b => zsign i b * Re (A b b))%R.

(** |psi|^2, |psi><psi| *)
Definition norm2 (n : nat) (psi : qstate) : R := rsum (bits n) (fun b => Cnorm2 (psi b)).
Definition outer (psi : qstate) : qop := fun r c => Cmul (psi r) (Cconj (psi c)).

(** row i times the conjugate of row k *)
Definition row_dot (n : nat) (t : tensor) (i k : nat) : C := bigsum (SC := C_scalar) (seq 0 n) (fun j => Cmul (tget t [i; j]) (Cconj (tget t [k; j]))).

(** one dimension of size 2^n, all others of size 1: what squeeze() turns into a vector *)
Definition vector_shape (n : nat) (s : list nat) : Prop := filter (fun d => negb (d =? 1)) s = [2 ^ n].

(** the basis state b *)
Definition ket (b : list nat) : qstate := fun r => if list_eq_dec Nat.eq_dec r b then RtoC 1 else RtoC 0.
