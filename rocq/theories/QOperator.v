(** Model of deepquantum/gates/qoperator.py: the code shared by the gate classes, with the gate's matrix as an
    argument.  The classes themselves (matrices with sin/cos, parameters) are in QGates.v. *)
From Coq Require Import List ZArith QArith Lia Bool Arith.
From Verif Require Import PyBase Scalar BigSum Index Tensor QMath QTN.
Import ListNotations.
Local Close Scope Q_scope.
Local Open Scope nat_scope.

(** the attribute [wires]: an integer (-1 when unset) or a list *)
Inductive pywires := WInt (z : Z) | WList (l : list Z).

(** [self.wires == -1] *)
Definition wires_unset (w : pywires) : bool :=
  match w with WInt z => (z =? -1)%Z | WList _ => false end.
(** [self.nqubits == -1 or self.wires == -1] *)
Definition unset (N : Z) (w : pywires) : bool := (N =? -1)%Z || wires_unset w.
(** [self.wires[i]]: an int is not subscriptable *)
Definition wire_at (w : pywires) (i : Z) : res Z :=
  match w with WInt _ => Err TypeError | WList l => py_nth l i end.
(** [self.wires] used as an integer: comparing or indexing with a list raises TypeError *)
Definition wire_int (w : pywires) : res Z :=
  match w with WInt z => Ok z | WList _ => Err TypeError end.
(** [self.wires] used as a list *)
Definition wire_list (w : pywires) : res (list Z) :=
  match w with WInt _ => Err TypeError | WList l => Ok l end.

Section QOperator.
  Context {SC : Scalar}.

  (** [torch.eye(2,2)] and the constant 2x2 matrices |a><b| *)
  Definition eye2 : tensor := eye 2.
  (** qoperator.py:50 *)
  Definition zero_zero : tensor := mat_of [[k1; k0]; [k0; k0]].
  (** qoperator.py:51 *)
  Definition one_one : tensor := mat_of [[k0; k0]; [k0; k1]].
  (** qoperator.py:1739 *)
  Definition zero_one : tensor := mat_of [[k0; k1]; [k0; k0]].
  (** qoperator.py:1740 *)
  Definition one_zero : tensor := mat_of [[k0; k0]; [k1; k0]].
  (** qoperator.py:1033 *)
  Definition sigma_x : tensor := mat_of [[k0; k1]; [k1; k0]].
  (** qoperator.py:1252 *)
  Definition sigma_z : tensor := mat_of [[k1; k0]; [k0; kopp k1]].

  (** [[torch.eye(2,2)]*N]: empty for N <= 0 *)
  Definition eyes (N : Z) : list tensor := repeat eye2 (Z.to_nat N).

  (** qoperator.py:16-26 Operator.gate_expand_1toN *)
  Definition gate_expand_1toN (gate : tensor) (N index : Z) : res tensor :=
    raise_if (N <? 1)%Z ValueError (
    raise_if ((index <? 0)%Z || (N - 1 <? index)%Z) ValueError (
    do lst1 <- py_set (eyes N) index gate;
    multi_kron lst1)).

  (** qoperator.py:33-59 Operation.two_qubit_control_gate *)
  Definition two_qubit_control_gate (U : tensor) (N control target : Z) : res tensor :=
    raise_if (N <? 1)%Z ValueError (
    raise_if (N - 1 <? Z.max control target)%Z ValueError (
    raise_if (Z.min control target <? 0)%Z ValueError (
    raise_if (control =? target)%Z ValueError (
    do lst1 <- py_set (eyes N) control zero_zero;
    do lst2 <- py_set (eyes N) control one_one;
    do lst2 <- py_set lst2 target U;
    do m1 <- multi_kron lst1;
    do m2 <- multi_kron lst2;
    tadd m1 m2)))).

  (** qoperator.py:64-96 Operation.multi_control_gate *)
  Definition multi_control_gate (U : tensor) (N : Z) (control_lst : list Z) (target : Z) : res tensor :=
    raise_if (N <? 1)%Z ValueError (
    do mx <- py_max control_lst;
    raise_if (N - 1 <? Z.max mx target)%Z ValueError (
    do mn <- py_min control_lst;
    raise_if (Z.min mn target <? 0)%Z ValueError (
    raise_if (existsb (fun each => each =? target)%Z control_lst) ValueError (
    do lst1 <- mfold (fun l each => py_set l each one_one) control_lst (eyes N);
    do lst1 <- py_set lst1 target U;
    let lst2 := eyes N in
    do lst3 <- mfold (fun l each => py_set l each one_one) control_lst (eyes N);
    do m2 <- multi_kron lst2;
    do m3 <- multi_kron lst3;
    do d <- tsub m2 m3;
    do m1 <- multi_kron lst1;
    tadd d m1)))).

  (** qoperator.py:1732-1760 SWAP.U_expand (no check of the wires at all) *)
  Definition swap_U (N qbit1 qbit2 : Z) : res tensor :=
    let put a b := do l <- py_set (eyes N) qbit1 a; do l <- py_set l qbit2 b; multi_kron l in
    do m1 <- put zero_zero zero_zero;
    do m2 <- put one_zero zero_one;
    do m3 <- put zero_one one_zero;
    do m4 <- put one_one one_one;
    do a <- tadd m1 m2;
    do b <- tadd a m3;
    tadd b m4.

  (** qoperator.py:627-642 rxx.U_expand, 760-775 ryy, 896-911 rzz, after the [-1] test.  [P] is the Pauli matrix, [c] and
      [s] the numbers cos(params/2) and -1j*sin(params/2).  The second comparison of wires[0] with nqubits-1 is
      the code's (it never looks at the upper bound of wires[1]). *)
  Definition rpp_U (P : tensor) (c s : K) (N w0 w1 : Z) : res tensor :=
    raise_if (N <? 1)%Z ValueError (
    raise_if ((w0 <? 0)%Z || (N - 1 <? w0)%Z || (w1 <? 0)%Z || (N - 1 <? w0)%Z) ValueError (
    raise_if (w0 =? w1)%Z ValueError (
    let lst1 := eyes N in
    do lst2 <- py_set (eyes N) w0 P;
    do lst2 <- py_set lst2 w1 P;
    do m1 <- multi_kron lst1;
    do m2 <- multi_kron lst2;
    tadd (tscale c m1) (tscale s m2)))).

  (** ** TN_contract: acting on a rank-N tensor (or rank N+1 with a batch dimension first) *)

  (** qoperator.py:127-147 SingleGateOperation.TN_contract: both branches are this code with
      (n,w) = (N,wires) and (N+1,wires+1) *)
  Definition contract1_at (M : tensor) (n w : Z) (MPS : tensor) : res tensor :=
    do p <- py_set (zrange (Z.to_nat n)) w (n - 1)%Z;
    do p <- py_set p (n - 1)%Z w;
    do t <- permute MPS p;
    do t <- unsqueeze t (-1);
    do t <- matmul M t;
    do t <- squeeze_dim t (-1);
    permute t p.
  (** qoperator.py:127-147 SingleGateOperation.TN_contract *)
  Definition single_TN_contract (M : tensor) (N : Z) (wires : pywires) (MPS : tensor) (batch_mod : bool) : res tensor :=
    raise_if (unset N wires) ValueError (
    do w <- wire_int wires;
    if batch_mod then contract1_at M (N + 1) (w + 1) MPS else contract1_at M N w MPS).

  (** [permute_shape.pop()] *)
  Definition pop_last {A} (l : list A) : res (list A) := py_pop l (-1)%Z.

  (** qoperator.py:644-712 rxx.TN_contract; same code in ryy (778-845), rzz (914-981), cnot (1136-1204), cz (1288-1356),
      cphase (1441-1510), cu3 (1604-1674).  Both branches are this code, [n] being the rank,
      c, t the tensor dimensions and [vshape] the shape given to view. *)
  Definition contract2_at (M : tensor) (n c t : Z) (vshape : tensor -> list Z) (MPS : tensor) : res tensor :=
    do p <- py_remove (zrange (Z.to_nat n)) c;
    do p <- py_remove p t;
    let p := p ++ [c; t] in
    do T <- permute MPS p;
    let s := map Z.of_nat (shape T) in
    do a <- py_nth s (-2); do b <- py_nth s (-1);
    do s <- py_set s (-2) (a * b)%Z;
    do s <- py_set s (-1) 1%Z;
    do T1 <- view T s;
    do T2 <- matmul M T1;
    do T3 <- view T2 (vshape T1);
    do q <- pop_last (zrange (Z.to_nat n));
    do q <- pop_last q;
    let q := if (c <? t)%Z then py_insert (py_insert q c (n - 2)%Z) t (n - 1)%Z
             else py_insert (py_insert q t (n - 1)%Z) c (n - 2)%Z in
    permute T3 q.
  (** qoperator.py:644-712 and the copies named above *)
  Definition double_TN_contract (M : tensor) (N : Z) (wires : pywires) (MPS : tensor) (batch_mod : bool) : res tensor :=
    raise_if (unset N wires) ValueError (
    do c <- wire_at wires 0;
    do t <- wire_at wires 1;
    assert_ (negb (c =? t)%Z) (
    if batch_mod
    then assert_ (Z.of_nat (rank MPS) =? N + 1)%Z
           (contract2_at M (N + 1) (c + 1) (t + 1)
              (fun T => Z.of_nat (nth 0 (shape T) 0) :: repeat 2%Z (Z.to_nat N)) MPS)
    else assert_ (Z.of_nat (rank MPS) =? N)%Z
           (contract2_at M N c t (fun _ => repeat 2%Z (Z.to_nat N)) MPS))).

  (** qoperator.py:1801-1851 SWAP.TN_contract *)
  Definition swap_contract_at (n c t : Z) (MPS : tensor) : res tensor :=
    do p <- py_set (zrange (Z.to_nat n)) c t;
    do p <- py_set p t c;
    permute MPS p.
  (** qoperator.py:1801-1851 SWAP.TN_contract *)
  Definition swap_TN_contract (N : Z) (wires : pywires) (MPS : tensor) (batch_mod : bool) : res tensor :=
    raise_if (unset N wires) ValueError (
    do c <- wire_at wires 0;
    do t <- wire_at wires 1;
    assert_ (negb (c =? t)%Z) (
    if batch_mod
    then assert_ (Z.of_nat (rank MPS) =? N + 1)%Z (swap_contract_at (N + 1) (c + 1) (t + 1) MPS)
    else assert_ (Z.of_nat (rank MPS) =? N)%Z (swap_contract_at N c t MPS))).

  (** qoperator.py:1993-2102 toffoli.TN_contract *)
  Definition contract3_at (M : tensor) (n c1 c2 t : Z) (vshape : tensor -> list Z) (MPS : tensor) : res tensor :=
    do p <- py_remove (zrange (Z.to_nat n)) c1;
    do p <- py_remove p c2;
    do p <- py_remove p t;
    let p := p ++ [c1; c2; t] in
    do T <- permute MPS p;
    let s := map Z.of_nat (shape T) in
    do a <- py_nth s (-3); do b <- py_nth s (-2); do d <- py_nth s (-1);
    do s <- py_set s (-3) (a * b * d)%Z;
    do s <- py_set s (-2) 1%Z;
    do s <- py_set s (-1) 1%Z;
    do T1 <- view T s;
    do T1' <- squeeze_dim T1 (-1);
    do T2 <- matmul M T1';
    do T3 <- view T2 (vshape T1);
    do q <- pop_last (zrange (Z.to_nat n));
    do q <- pop_last q;
    do q <- pop_last q;
    let i1 q := py_insert q c1 (n - 3)%Z in
    let i2 q := py_insert q c2 (n - 2)%Z in
    let i3 q := py_insert q t (n - 1)%Z in
    let q := if (c1 <? c2)%Z && (c2 <? t)%Z then i3 (i2 (i1 q))
             else if (c1 <? t)%Z && (t <? c2)%Z then i2 (i3 (i1 q))
             else if (c2 <? t)%Z && (t <? c1)%Z then i1 (i3 (i2 q))
             else if (c2 <? c1)%Z && (c1 <? t)%Z then i3 (i1 (i2 q))
             else if (t <? c1)%Z && (c1 <? c2)%Z then i2 (i1 (i3 q))
             else if (t <? c2)%Z && (c2 <? c1)%Z then i1 (i2 (i3 q))
             else q in
    permute T3 q.
  (** qoperator.py:1994-2105 toffoli.TN_contract *)
  Definition triple_TN_contract (M : tensor) (N : Z) (wires : pywires) (MPS : tensor) (batch_mod : bool) : res tensor :=
    raise_if (unset N wires) ValueError (
    do c1 <- wire_at wires 0;
    do c2 <- wire_at wires 1;
    do t <- wire_at wires 2;
    assert_ (negb (c1 =? t)%Z && negb (c2 =? t)%Z && negb (c1 =? c2)%Z) (
    if batch_mod
    then assert_ (Z.of_nat (rank MPS) =? N + 1)%Z
           (contract3_at M (N + 1) (c1 + 1) (c2 + 1) (t + 1)
              (fun T => Z.of_nat (nth 0 (shape T) 0) :: repeat 2%Z (Z.to_nat N)) MPS)
    else assert_ (Z.of_nat (rank MPS) =? N)%Z
           (contract3_at M N c1 c2 t (fun _ => repeat 2%Z (Z.to_nat N)) MPS))).

  (** ** TN_operation: acting on a list of site tensors *)
  Variable svd : tensor -> tensor * tensor * tensor.

  (** qoperator.py:115-124 SingleGateOperation.TN_operation *)
  Definition single_TN_operation (M : tensor) (N : Z) (wires : pywires) (MPS : list tensor) : res (list tensor) :=
    raise_if (unset N wires) ValueError (
    do w <- wire_int wires;
    do s <- py_nth MPS w;
    do s' <- einsum_ab_bcd M s;
    py_set MPS w s').

  (** merging two neighbouring sites, applying a 4x4 matrix and splitting again: qoperator.py:1052-1062 (cnot), 1098-1108,
      1269-1281 (cz), 1421-1433 (cphase), 1585-1597 (cu3), 1775-1780 and 1788-1793 (SWAP) *)
  Definition two_site (M : tensor) (MPS : list tensor) (i j : Z) : res (list tensor) :=
    do a <- py_nth MPS i;
    do b <- py_nth MPS j;
    do a1 <- unsqueeze a 1;
    do b1 <- unsqueeze b 0;
    do t <- matmul a1 b1;
    do t <- permute t [2%Z; 3%Z; 0%Z; 1%Z];
    let s := map Z.of_nat (shape t) in
    do s0 <- py_nth s 0; do s1 <- py_nth s 1; do s2 <- py_nth s 2; do s3 <- py_nth s 3;
    do t <- view t [s0; s1; (s2 * s3)%Z; 1%Z];
    do t <- matmul M t;
    do t <- view t [s0; s1; s2; s3];
    do t <- permute t [2%Z; 3%Z; 0%Z; 1%Z];
    do rs <- TensorDecompAfterTwoQbitGate svd t;
    do MPS1 <- py_set MPS i (fst rs);
    py_set MPS1 j (snd rs).

  (** qoperator.py:1725-1728 *)
  Definition swap_matrix : tensor :=
    mat_of [[k1; k0; k0; k0]; [k0; k0; k1; k0]; [k0; k1; k0; k0]; [k0; k0; k0; k1]].

  (** qoperator.py:1763-1799 SWAP.TN_operation *)
  Definition swap_TN_operation (N : Z) (wires : pywires) (MPS : list tensor) : res (list tensor) :=
    raise_if (unset N wires) ValueError (
    do l <- wire_list wires;
    raise_if (negb (length l =? 2)) ValueError (
    do upqbit <- py_min l;
    do downqbit <- py_max l;
    do MPS <- mfold (fun MPS i => two_site swap_matrix MPS i (i + 1)%Z) (zrange2 upqbit downqbit) MPS;
    mfold (fun MPS i => two_site swap_matrix MPS (i - 1)%Z i) (zrange_down (downqbit - 1) upqbit) MPS)).

  (** [SWAP(self.nqubits,[i,j]).TN_operation(MPS)] *)
  Definition swap_step (N : Z) (MPS : list tensor) (i j : Z) : res (list tensor) :=
    swap_TN_operation N (WList [i; j]) MPS.

  (** qoperator.py:1260-1286 cz.TN_operation; same code in cphase (1410-1438) and cu3 (1574-1601).
      [M] is self.matrix, [Mrev] the matrix used when the control is the lower wire. *)
  Definition ctrl_TN_operation (M : tensor) (Mrev : res tensor) (N : Z) (wires : pywires) (MPS : list tensor)
    : res (list tensor) :=
    raise_if (unset N wires) ValueError (
    do l <- wire_list wires;
    raise_if (negb (length l =? 2)) ValueError (
    do upqbit <- py_min l;
    do downqbit <- py_max l;
    do MPS <- mfold (fun MPS i => swap_step N MPS i (i + 1)%Z) (zrange2 upqbit (downqbit - 1)) MPS;
    do w0 <- py_nth l 0;
    do G <- (if (w0 =? upqbit)%Z then Ok M else Mrev);
    do MPS <- two_site G MPS (downqbit - 1)%Z downqbit;
    mfold (fun MPS i => swap_step N MPS (i - 1)%Z i) (zrange_down (downqbit - 1) upqbit) MPS)).

  (** qoperator.py:1040-1133 cnot.TN_operation *)
  Definition cnot_TN_operation (M : tensor) (Mrev : res tensor) (N : Z) (wires : pywires) (MPS : list tensor)
    : res (list tensor) :=
    raise_if (unset N wires) ValueError (
    do l <- wire_list wires;
    do upqbit <- py_min l;
    do downqbit <- py_max l;
    if (upqbit + 1 =? downqbit)%Z then
      do w0 <- py_nth l 0;
      do G <- (if (w0 =? upqbit)%Z then Ok M else Mrev);
      two_site G MPS upqbit downqbit
    else
      do MPS <- mfold (fun MPS i => swap_step N MPS i (i + 1)%Z) (zrange2 upqbit (downqbit - 1)) MPS;
      do w0 <- py_nth l 0;
      do G <- (if (w0 =? upqbit)%Z then Ok M else Mrev);
      do MPS <- two_site G MPS (downqbit - 1)%Z downqbit;
      mfold (fun MPS i => swap_step N MPS (i - 1)%Z i) (zrange_down (downqbit - 1) upqbit) MPS).

  (** qoperator.py:1946-1961: the three-site step of toffoli *)
  Definition three_site (G : res tensor) (MPS : list tensor) (m : Z) : res (list tensor) :=
    do a <- py_nth MPS (m - 1)%Z;
    do b <- py_nth MPS m;
    do c <- py_nth MPS (m + 1)%Z;
    do a <- unsqueeze a 1; do a <- unsqueeze a 1;
    do b <- unsqueeze b 1; do b <- unsqueeze b 0;
    do ab <- matmul a b;
    do c <- unsqueeze c 0; do c <- unsqueeze c 0;
    do t <- matmul ab c;
    do t <- permute t [3%Z; 4%Z; 0%Z; 1%Z; 2%Z];
    let s := map Z.of_nat (shape t) in
    do s0 <- py_nth s 0; do s1 <- py_nth s 1; do s2 <- py_nth s 2; do s3 <- py_nth s 3; do s4 <- py_nth s 4;
    do t <- view t [s0; s1; (s2 * s3 * s4)%Z; 1%Z];
    do g <- G;
    do t <- matmul g t;
    do t <- view t [s0; s1; s2; s3; s4];
    do t <- permute t [2%Z; 3%Z; 4%Z; 0%Z; 1%Z];
    do rs <- TensorDecompAfterThreeQbitGate svd t;
    let '(r0, r1, r2) := rs in
    do MPS <- py_set MPS (m - 1)%Z r0;
    do MPS <- py_set MPS m r1;
    py_set MPS (m + 1)%Z r2.

  (** qoperator.py:1918-1990 toffoli.TN_operation.  [Mmid], [Mup]: toffoli(3,[0,2,1]).U_expand(), toffoli(3,[1,2,0]).U_expand() *)
  Definition toffoli_TN_operation (M : tensor) (Mmid Mup : res tensor) (N : Z) (wires : pywires) (MPS : list tensor)
    : res (list tensor) :=
    raise_if (unset N wires) ValueError (
    do l <- wire_list wires;
    let sw := zsort l in
    do upqbit <- py_nth sw 0;
    do midqbit <- py_nth sw 1;
    do downqbit <- py_nth sw 2;
    do MPS <- mfold (fun MPS i => swap_step N MPS i (i + 1)%Z) (zrange2 upqbit (midqbit - 1)) MPS;
    do MPS <- mfold (fun MPS i => swap_step N MPS (i - 1)%Z i) (zrange_down downqbit (midqbit + 1)) MPS;
    do w2 <- py_nth l 2;
    do MPS <- three_site (if (downqbit =? w2)%Z then Ok M else if (midqbit =? w2)%Z then Mmid else Mup) MPS midqbit;
    do MPS <- mfold (fun MPS i => swap_step N MPS (i - 1)%Z i) (zrange_down (midqbit - 1) upqbit) MPS;
    mfold (fun MPS i => swap_step N MPS i (i + 1)%Z) (zrange2 (midqbit + 1) downqbit) MPS).
End QOperator.
