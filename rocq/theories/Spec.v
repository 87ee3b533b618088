(** What operations on qubits mean.  This file is the specification: it uses no definition of the model
    (only sums over lists, list update, and [tget]/[data] to read a tensor).

    A basis state of n qubits is the list of its n bits, qubit 0 first.  As a row/column number of a
    matrix or a position in a state vector it is read as a binary number, qubit 0 most significant. *)
From Coq Require Import List ZArith Lia Bool Arith.
From Verif Require Import PyBase Scalar BigSum Tensor.
Import ListNotations.

(** all bit strings of length n, in increasing binary order *)
Fixpoint bits (n : nat) : list (list nat) :=
  match n with
  | 0 => [[]]
  | S m => map (cons 0) (bits m) ++ map (cons 1) (bits m)
  end.

(** binary value *)
Definition bval (b : list nat) : nat := fold_left (fun a x => 2 * a + x) b 0.

(** the bits of [b] at the wires [ws] *)
Definition rd (b ws : list nat) : list nat := map (fun w => nth w b 0) ws.

(** [b] with the bits at the wires [ws] replaced by [c] *)
Fixpoint wr (b ws c : list nat) : list nat :=
  match ws, c with
  | w :: ws', x :: c' => wr (set_nth w x b) ws' c'
  | _, _ => b
  end.

(** wires of an n-qubit register: distinct and in range *)
Definition good_wires (n : nat) (ws : list nat) : Prop := NoDup ws /\ forall w, In w ws -> w < n.

(** [r] and [c] have the same bits outside the wires [ws] *)
Definition same_off (ws r c : list nat) : bool :=
  forallb (fun i => existsb (Nat.eqb i) ws || (nth i r 0 =? nth i c 0)) (seq 0 (length r)).

(** all the bits of [b] at the wires [cs] are 1 *)
Definition all_one (cs b : list nat) : bool := forallb (fun w => nth w b 0 =? 1) cs.

(** [b] with the bits at wires [i] and [j] exchanged *)
Definition swapped (i j : nat) (b : list nat) : list nat := wr b [i; j] [nth j b 0; nth i b 0].

Section Spec.
  Context {SC : Scalar}.
  Local Open Scope k_scope.

  (** a state: the amplitude of every basis string *)
  Definition qstate := list nat -> K.
  (** an operator: the matrix element <r|A|c> for basis strings r, c *)
  Definition qop := list nat -> list nat -> K.

  (** the k-qubit operator M acting on the wires ws of a register: bits outside ws are untouched *)
  Definition apply_on (M : qop) (ws : list nat) (psi : qstate) : qstate :=
    fun b => bigsum (bits (length ws)) (fun c => M (rd b ws) c * psi (wr b ws c)).

  (** the same as an operator on the whole register *)
  Definition lift (M : qop) (ws : list nat) : qop :=
    fun r c => if same_off ws r c then M (rd r ws) (rd c ws) else 0.

  Definition id_op : qop := fun r c => if list_eq_dec Nat.eq_dec r c then 1 else 0.
  (** the one-qubit operator with matrix [[a,b],[c,d]] *)
  Definition op2 (a b c d : K) : qop := fun r s =>
    match r, s with
    | [O], [O] => a
    | [O], [S O] => b
    | [S O], [O] => c
    | [S O], [S O] => d
    | _, _ => 0
    end.
  (** [A] controlled by the wires [cs]: acts on the basis states whose control bits are all 1 *)
  Definition ctrl (cs : list nat) (A : qop) : qop := fun r c => if all_one cs c then A r c else id_op r c.
  (** exchange of two qubits *)
  Definition swap_op (i j : nat) : qop := fun r c => id_op r (swapped i j c).
  Definition add_op (A B : qop) : qop := fun r c => A r c + B r c.
  Definition scale_op (z : K) (A : qop) : qop := fun r c => z * A r c.
  Definition mul_op (n : nat) (A B : qop) : qop := fun r c => bigsum (bits n) (fun m => A r m * B m c).
  Definition adj_op (A : qop) : qop := fun r c => kconj (A c r).
  Definition act (n : nat) (A : qop) (psi : qstate) : qstate := fun r => bigsum (bits n) (fun c => A r c * psi c).

  (** equality of n-qubit operators / states *)
  Definition op_eq (n : nat) (A B : qop) : Prop := forall r c, In r (bits n) -> In c (bits n) -> A r c = B r c.
  Definition st_eq (n : nat) (f g : qstate) : Prop := forall b, In b (bits n) -> f b = g b.

  Definition unitary (n : nat) (A : qop) : Prop :=
    op_eq n (mul_op n (adj_op A) A) id_op /\ op_eq n (mul_op n A (adj_op A)) id_op.

  (** <f|g> *)
  Definition inner (n : nat) (f g : qstate) : K := bigsum (bits n) (fun b => kconj (f b) * g b).

  (** the n-qubit operator held by a 2^n x 2^n tensor *)
  Definition op_of (t : tensor) : qop := fun r c => tget t [bval r; bval c].

  (** [t] is a 2^n x 2^n matrix whose entries are those of [A] *)
  Definition is_op (n : nat) (t : tensor) (A : qop) : Prop :=
    shape t = [(2 ^ n)%nat; (2 ^ n)%nat] /\ wf t /\ op_eq n (op_of t) A.

  (** the state held by a tensor with 2^n elements, whatever its shape *)
  Definition amp (t : tensor) : qstate := fun b => nth (bval b) (data t) 0.

  (** [t] has the given shape and holds the state [psi] of n qubits *)
  Definition is_state (n : nat) (s : list nat) (t : tensor) (psi : qstate) : Prop :=
    shape t = s /\ length (data t) = (2 ^ n)%nat /\ st_eq n (amp t) psi.
End Spec.
