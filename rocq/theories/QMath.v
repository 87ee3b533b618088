(** Model of deepquantum/gates/qmath.py, the parts that only add/multiply/conjugate/compare numbers.
    ([expval], [measure], the [Is*] predicates take real parts or squares of moduli: see QMathC.v.)
    Simplification: numbers of qubits are natural numbers here (the callers pass non-negative ints). *)
From Coq Require Import List ZArith QArith Lia Bool Arith.
From Verif Require Import PyBase Scalar BigSum Index Tensor.
Import ListNotations.
Local Close Scope Q_scope.
Local Open Scope nat_scope.

Section QMath.
  Context {SC : Scalar}.

  (** qmath.py:10-15 multi_kron.  [lst[0]] on an empty list raises IndexError. *)
  Definition multi_kron (lst : list tensor) : res tensor :=
    match lst with
    | [] => Err IndexError
    | t :: ts => Ok (fold_left kron ts t)
    end.

  (** qmath.py:18-26 dag *)
  Definition dag (x : tensor) : res tensor :=
    raise_if (negb (length (shape x) =? 2)) ValueError
      (permute (tconj x) [1%Z; 0%Z]).

  (** qmath.py:102-118 ptrace: keeps the first dimA qubits.  [pout = 0] then [pout += p]: adding the python
      integer 0 leaves p unchanged, modelled by adding a 0-dimensional zero tensor. *)
  Definition ptrace (rhoAB : tensor) (dimA dimB : nat) : res tensor :=
    let id1 := eye (2 ^ dimA) in
    let id2 := eye (2 ^ dimB) in
    mfold (fun pout i =>
      do row <- tselect id2 (Z.of_nat i);
      do a <- matmul (kron id1 row) rhoAB;
      do col <- view row [Z.of_nat (2 ^ dimB); 1%Z];
      do p <- matmul a (kron id1 col);
      tadd pout p) (seq 0 (2 ^ dimB)) (mkT [] [k0]).

  (** the input checks shared by partial_trace and partial_trace_old (qmath.py:129-134, 159-164) *)
  Definition pt_checks {A} (rho : tensor) (N : nat) (trace_lst : list Z) (k : res A) : res A :=
    do tr <- ttrace rho;
    raise_if (kabsgt (ksub tr k1) (1 # 10000)) ValueError (
    raise_if (negb (hd 0 (shape rho) =? 2 ^ N)) ValueError (
    raise_if (negb (length trace_lst =? 0) &&
              match py_max trace_lst with Ok m => (Z.of_nat N - 1 <? m)%Z | Err _ => false end) ValueError k)).

  (** qmath.py:124-150 partial_trace_old.  [fuel] bounds the recursion; the wrapper passes the length of the list,
      which suffices since every call removes one element.  [2**negative] is a float, which torch.eye rejects
      with TypeError. *)
  Fixpoint partial_trace_old_rec (fuel : nat) (rho : tensor) (N : nat) (trace_lst : list Z) : res tensor :=
    pt_checks rho N trace_lst (
    match zsort trace_lst with
    | [] => Ok rho
    | q :: rest =>
        if (q <? 0)%Z then Err TypeError else
        let i := Z.to_nat q in
        let id1 := eye (2 ^ i) in
        let id2 := eye (2 ^ (N - 1 - i)) in
        let id3 := eye 2 in
        do rho_nxt <- mfold (fun acc b =>
            do e <- tselect id3 (Z.of_nat b);
            let A := kron (kron id1 e) id2 in
            do x <- matmul A rho;
            do Ad <- dag A;
            do y <- matmul x Ad;
            tadd acc y) [0; 1] (mkT [] [k0]);
        match fuel with
        | 0 => Err TypeError
        | S fuel' => partial_trace_old_rec fuel' rho_nxt (N - 1) (map (fun j => (j - 1)%Z) rest)
        end
    end).
  (** qmath.py:124-150 *)
  Definition partial_trace_old (rho : tensor) (N : nat) (trace_lst : list Z) : res tensor :=
    partial_trace_old_rec (length trace_lst) rho N trace_lst.

  (** qmath.py:172-179: the two index lists *)
  Definition index_lst (N i : nat) (bit : nat) : list nat :=
    flat_map (fun idx => map (fun idy => idx * 2 ^ (N - i) + idy + bit * 2 ^ (N - i - 1)) (seq 0 (2 ^ (N - i - 1))))
             (seq 0 (2 ^ i)).

  (** qmath.py:154-203 partial_trace.  [range(2**negative)] raises TypeError. *)
  Fixpoint partial_trace_rec (fuel : nat) (rho : tensor) (N : nat) (trace_lst : list Z) : res tensor :=
    pt_checks rho N trace_lst (
    match zsort trace_lst with
    | [] => Ok rho
    | q :: rest =>
        if (q <? 0)%Z then Err TypeError else
        let i := Z.to_nat q in
        let index_lst0 := index_lst N i 0 in
        let index_lst1 := index_lst N i 1 in
        do M0 <- index_select rho 0 index_lst0;
        do M1 <- index_select rho 0 index_lst1;
        do M00 <- index_select M0 1 index_lst0;
        do M11 <- index_select M1 1 index_lst1;
        do rho_nxt <- tadd M00 M11;
        match fuel with
        | 0 => Err TypeError
        | S fuel' => partial_trace_rec fuel' rho_nxt (N - 1) (map (fun j => (j - 1)%Z) rest)
        end
    end).
  (** qmath.py:154-203 *)
  Definition partial_trace (rho : tensor) (N : nat) (trace_lst : list Z) : res tensor :=
    partial_trace_rec (length trace_lst) rho N trace_lst.

  (** qmath.py:166 [trace_lst.sort()] sorts the caller's list in place once the checks have passed: the content of
      the caller's list after the call. *)
  Definition partial_trace_list_after (rho : tensor) (N : nat) (trace_lst : list Z) : list Z :=
    match pt_checks rho N trace_lst (Ok tt) with
    | Ok _ => zsort trace_lst
    | Err _ => trace_lst
    end.
End QMath.
