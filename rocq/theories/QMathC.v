(** Model of the parts of deepquantum/gates/qmath.py and qtensornetwork.py that take real parts, moduli or quotients:
    IsUnitary, IsNormalized, IsHermitian, expval, measure, MPS_expec, MPS2Rho. *)
From Coq Require Import List ZArith QArith Qreals Reals Lia Bool Arith.
From Verif Require Import PyBase Scalar CInst BigSum Index Tensor QMath QTN QOperator QGates.
Import ListNotations.
Local Close Scope Q_scope.
Local Close Scope R_scope.
Local Open Scope nat_scope.

(** [torch.abs(z) ** 2], a real number *)
Definition abs2 (z : C) : R := (Cabs z * Cabs z)%R.
(** a [for] loop accumulating a real number, [summ = 0.0; summ += f i] *)
Definition rloop (n : nat) (f : nat -> R) : R := fold_left (fun s i => (s + f i)%R) (seq 0 n) 0%R.
(** [torch.abs(x) > q] for real x *)
Definition rabsgt (x : R) (q : Q) : bool := if Rlt_dec (Q2R q) (Rabs x) then true else false.

(** qmath.py:29-57 IsUnitary.  Indexing [in_matrix.shape[1]] of a tensor of rank < 2 raises IndexError.
    Simplification: rank > 2 with equal first two sizes is rejected with TorchError (the code compares tensors element by
    element there, which torch refuses unless they have one element). *)
Definition IsUnitary (in_matrix : tensor) : res bool :=
  match shape in_matrix with
  | [n; m] =>
      raise_if (negb (n =? m)) ValueError (Ok (
        forallb (fun i => negb (rabsgt (rloop n (fun j => abs2 (tget in_matrix [i; j])) - 1)%R (1 # 1000000))) (seq 0 n) &&
        forallb (fun i => forallb (fun k =>
            negb (Cabsgt (fold_left (fun s j => Cadd s (Cmul (tget in_matrix [i; j]) (Cconj (tget in_matrix [k; j]))))
                            (seq 0 n) (RtoC 0)) (1 # 1000000)))
          (seq (i + 1) (n - (i + 1)))) (seq 0 (n - 1))))
  | n :: m :: _ => raise_if (negb (n =? m)) ValueError (Err TorchError)
  | _ => Err IndexError
  end.

(** qmath.py:61-79 IsNormalized.  Simplification: the code applies torch.abs to the python float 0.0 - 1 when the vector is
    empty, a TypeError. *)
Definition IsNormalized (vector : tensor) : res bool :=
  match shape vector with
  | [n] => if n =? 0 then Err TypeError else
      Ok (negb (rabsgt (rloop n (fun i => abs2 (tget vector [i])) - 1)%R (1 # 1000000)))
  | _ => Err ValueError
  end.

(** qmath.py:83-97 IsHermitian; rank as in IsUnitary *)
Definition IsHermitian (matrix : tensor) : res bool :=
  match shape matrix with
  | [n; m] =>
      raise_if (negb (n =? m)) ValueError (Ok (
        forallb (fun i => forallb (fun j =>
            negb (Cabsgt (Csub (tget matrix [i; j]) (Cconj (tget matrix [j; i]))) (1 # 1000000)))
          (seq i (n - i))) (seq 0 n)))
  | n :: m :: _ => raise_if (negb (n =? m)) ValueError (Err TorchError)
  | _ => Err IndexError
  end.

(** the argument [ith] of measure: None, an int, or a list *)
Inductive ith_arg := INone | IInt (i : Z) | IList (l : list Z).

(** qmath.py:207-222 _Zmeasure: [not ith] holds for None, 0 and [] *)
Definition Zmeasure (n_qubit : Z) (ith : ith_arg) : res (list tensor) :=
  let Mi i := do g <- PauliZ n_qubit (WInt i); U_expand g in
  match ith with
  | INone | IInt 0%Z | IList [] => mmap Mi (zrange (Z.to_nat n_qubit))
  | IInt i => do m <- Mi i; Ok [m]
  | IList l => mmap Mi l
  end.

(** qmath.py:225-239 expval, a real number (a 0-dimensional tensor in the code).  After [view(-1,1)] the product
    is 1x1, so diag/squeeze give its only entry. *)
Definition expval (state M : tensor) (rho : bool) : res R :=
  if rho then
    do tr <- ttrace state;
    raise_if (Cabsgt (Csub tr (RtoC 1)) (1 # 10000)) ValueError (
    do p <- matmul state M; do t <- ttrace p; Ok (Re t))
  else
    do state <- view state [(-1)%Z; 1%Z];
    do d <- dag state;
    do a <- matmul d M; do m1 <- matmul a state;
    do r <- diag m1;
    Ok (Re (nth 0 (data (squeeze r)) (RtoC 0))).

(** qmath.py:242-253 measure: the entries of the returned tensor *)
Definition measure (n_qubit : Z) (state : tensor) (ith : ith_arg) : res (list R) :=
  let state := squeeze state in
  let rho := negb (length (shape state) =? 1) in
  do M_lst <- Zmeasure n_qubit ith;
  mmap (fun Mi => expval state Mi rho) M_lst.

(** qtensornetwork.py:198-211 MPS_expec: [.real] of the value of QTN.v, and the caller's list after the call *)
Definition MPS_expec_real (MPS : list tensor) (wires : list Z) (obs : list tensor) : res (R * list tensor) :=
  do r <- MPS_expec MPS wires obs; Ok (Re (fst r), snd r).

(** qtensornetwork.py:280-297 MPS2Rho: the raw matrix of QTN.v divided by the real part of its trace *)
Definition MPS2Rho (MPS : list tensor) : res tensor :=
  do rho <- MPS2Rho_raw MPS;
  do trace <- ttrace rho;
  if Req_EM_T (Re trace) 0 then Err NotFinite else
  Ok (tscale (RtoC (/ Re trace)) rho).
