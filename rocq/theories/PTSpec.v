(** What tracing out qubits means.  Specification only: it uses no definition of the model. *)
From Coq Require Import List ZArith Lia Bool Arith.
From Verif Require Import PyBase Scalar BigSum Tensor Spec.
Import ListNotations.

(** the qubits of an n-qubit register that are not in [ts], in increasing order *)
Definition kept (n : nat) (ts : list nat) : list nat := filter (fun i => negb (existsb (Nat.eqb i) ts)) (seq 0 n).

Section PTSpec.
  Context {SC : Scalar}.
  Local Open Scope k_scope.

  (** the operator on the kept qubits after tracing out [ts]: <r|..|c> is the sum of <x|A|y> over all the basis
      strings x of the register whose kept bits are r, y being x with the kept bits replaced by c *)
  Definition ptr (n : nat) (ts : list nat) (A : qop) : qop := fun r c =>
    bigsum (bits n) (fun x => if list_eq_dec Nat.eq_dec (rd x (kept n ts)) r then A x (wr x (kept n ts) c) else 0).

  (** the trace *)
  Definition trace_op (n : nat) (A : qop) : K := bigsum (bits n) (fun x => A x x).

  (** <v|A|v> *)
  Definition qform (n : nat) (A : qop) (v : qstate) : K :=
    bigsum (bits n) (fun r => bigsum (bits n) (fun c => kconj (v r) * A r c * v c)).
End PTSpec.

(** the numbers, in the original register, of the qubits that are at the positions [us] of the register left after tracing out [ts] *)
Definition orig (n : nat) (ts us : list nat) : list nat := map (fun j => nth j (kept n ts) 0) us.

(** What the code does with an arbitrary list l_0 <= l_1 <= ...: at step k it traces out the qubit at position l_k - k of
    the register then left.  The result lists the numbers these qubits have in the register of [n] qubits before step [k]. *)
Fixpoint removed (n k : nat) (l : list nat) : list nat :=
  match l with
  | [] => []
  | q :: l' => (q - k) :: orig n [q - k] (removed (n - 1) (S k) l')
  end.
