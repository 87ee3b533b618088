(** Tensors with a memory layout, and the functions that call [view].

    In Tensor.v a tensor is its shape and its elements, so [view] there never fails on account of the memory
    layout.  In torch [view] does not copy: it succeeds only when the strides of its argument allow it.  Here a
    tensor also carries its strides, [view] follows torch's rule, and the functions of qtensornetwork.py and
    qoperator.py that call [view] are modelled again on top of it.

    Layouts produced by torch kernels.  [cat], [index_select], [diag] allocate a new contiguous tensor.  A matrix
    product gives a new tensor that is contiguous or, when torch multiplies the transposed operands, contiguous up
    to an exchange of the last two dimensions: which of the two is the argument [mmT].  The layouts that
    [torch.svd] and [torch.einsum] give their results are the arguments [svd_lay] and [ein_lay].  Storage offsets
    are not modelled: they play no part in the
    rule; torch has no negative strides. *)
From Coq Require Import List ZArith QArith Lia Bool Arith.
From Verif Require Import PyBase Scalar BigSum Index Tensor QTN QOperator.
Import ListNotations.
Local Close Scope Q_scope.
Local Open Scope nat_scope.

(** ** torch's rule for view *)

(** The inner loop of torch's computeStride, from the last dimension of the new shape on: dimensions of the new
    shape are laid over a block of [tn] elements [base] apart, [vn] elements being covered so far.  Gives their
    strides, the number of elements covered and the remaining dimensions. *)
Fixpoint fill (base tn vn : nat) (new : list nat) : list nat * nat * list nat :=
  match new with
  | [] => ([], vn, [])
  | s :: new' =>
      if (vn <? tn) || (s =? 1)
      then let '(st, v, r) := fill base tn (vn * s) new' in (vn * base :: st, v, r)
      else ([], vn, new)
  end.

(** The outer loop: [old] are the (size, stride) pairs of the tensor and [new] the sizes of the view, both from the
    last dimension on; the current block has the elements of [tn] so far, [base] apart. *)
Fixpoint lay_out (old : list (nat * nat)) (base tn : nat) (new : list nat) : option (list nat) :=
  match old with
  | [] => None
  | (s, _) :: old' =>
      let tn := tn * s in
      let finish :=
        let '(st, v, r) := fill base tn 1 new in
        if v =? tn
        then match old' with
             | [] => match r with [] => Some st | _ => None end
             | (_, st') :: _ =>
                 match lay_out old' st' 1 r with Some st2 => Some (st ++ st2) | None => None end
             end
        else None in
      match old' with
      | [] => finish
      | (s', st') :: _ =>
          if negb (s' =? 1) && negb (st' =? tn * base) then finish else lay_out old' base tn new
      end
  end.

(** strides of a contiguous tensor *)
Fixpoint cstrides (s : list nat) : list nat :=
  match s with [] => [] | _ :: s' => prodn s' :: cstrides s' end.

(** the strides of the view of shape [new] of a tensor of shape [s] and strides [st]; None where torch refuses.
    A tensor without elements, and one of rank 0, has a view of every shape of the same number of elements. *)
Definition view_strides (s st new : list nat) : option (list nat) :=
  if (prodn s =? 0) || (length s =? 0) then Some (cstrides new) else
  let old := rev (combine s st) in
  match lay_out old (snd (hd (0, 0) old)) 1 (rev new) with
  | Some l => Some (rev l)
  | None => None
  end.

(** not in the code: the last two entries exchanged *)
Definition swap_last (l : list nat) : list nat :=
  match rev l with a :: b :: l' => rev (b :: a :: l') | _ => l end.

Section QStride.
  Context {SC : Scalar}.

  (** a tensor with the strides of its memory *)
  Record stensor := mkS { val : tensor; strd : list nat }.

  (** a newly allocated tensor *)
  Definition fresh (t : tensor) : stensor := mkS t (cstrides (shape t)).

  (** ** torch primitives *)
  Definition s_view (x : stensor) (dims : list Z) : res stensor :=
    match infer_shape (prodn (shape (val x))) dims with
    | None => Err TorchError
    | Some s =>
        match view_strides (shape (val x)) (strd x) s with
        | None => Err TorchError
        | Some st => Ok (mkS (mkT s (data (val x))) st)
        end
    end.
  (** [reshape]: a view where possible, otherwise a copy *)
  Definition s_reshape (x : stensor) (dims : list Z) : res stensor :=
    match infer_shape (prodn (shape (val x))) dims with
    | None => Err TorchError
    | Some s =>
        match view_strides (shape (val x)) (strd x) s with
        | None => Ok (fresh (mkT s (data (val x))))
        | Some st => Ok (mkS (mkT s (data (val x))) st)
        end
    end.
  (** [permute] *)
  Definition s_permute (x : stensor) (dims : list Z) : res stensor :=
    do r <- permute (val x) dims;
    do p <- mmap (dim_index (rank (val x))) dims;
    Ok (mkS r (map (fun d => nth d (strd x) 0) p)).
  (** [unsqueeze] *)
  Definition s_unsqueeze (x : stensor) (d : Z) : res stensor :=
    do r <- unsqueeze (val x) d;
    do k <- dim_index (S (rank (val x))) d;
    let st := if k <? rank (val x) then nth k (shape (val x)) 0 * nth k (strd x) 0 else 1 in
    Ok (mkS r (firstn k (strd x) ++ st :: skipn k (strd x))).
  (** [squeeze(d)] *)
  Definition s_squeeze_dim (x : stensor) (d : Z) : res stensor :=
    do r <- squeeze_dim (val x) d;
    do k <- dim_index (rank (val x)) d;
    Ok (mkS r (if nth k (shape (val x)) 0 =? 1 then firstn k (strd x) ++ skipn (S k) (strd x) else strd x)).
  (** [squeeze()] *)
  Definition s_squeeze (x : stensor) : stensor :=
    mkS (squeeze (val x))
        (map snd (filter (fun p => negb (fst p =? 1)) (combine (shape (val x)) (strd x)))).
  (** [conj()] *)
  Definition s_conj (x : stensor) : stensor := mkS (tconj (val x)) (strd x).
  (** [t[i]] *)
  Definition s_select (x : stensor) (i : Z) : res stensor :=
    do r <- tselect (val x) i; Ok (mkS r (tl (strd x))).
  (** [t[a:b]] along one dimension *)
  Definition s_slice (x : stensor) (d start len : nat) : stensor := mkS (tslice (val x) d start len) (strd x).
  (** [torch.chunk] *)
  Definition s_chunk (x : stensor) (k d : nat) : res (list stensor) :=
    do l <- chunk (val x) k d; Ok (map (fun t => mkS t (strd x)) l).
  (** [torch.cat] *)
  Definition s_cat (d : nat) (l : list stensor) : res stensor :=
    do r <- cat d (map val l); Ok (fresh r).
  (** [torch.index_select] *)
  Definition s_index_select (x : stensor) (d : nat) (l : list nat) : res stensor :=
    do r <- index_select (val x) d l; Ok (fresh r).
  (** [torch.diag] *)
  Definition s_diag (x : stensor) : res stensor := do r <- diag (val x); Ok (fresh r).

  (** the external choices described at the head of the file *)
  Variable svd : tensor -> tensor * tensor * tensor.
  Variable svd_lay : stensor -> list nat * list nat * list nat.
  Variable mmT : stensor -> stensor -> bool.
  Variable ein_lay : stensor -> stensor -> list nat.

  (** [a @ b] *)
  Definition s_matmul (a b : stensor) : res stensor :=
    do r <- matmul (val a) (val b);
    Ok (mkS r (if mmT a b then swap_last (cstrides (swap_last (shape r))) else cstrides (shape r))).
  (** [torch.svd] (qtensornetwork.py:35, 98, 137, 259) *)
  Definition s_svd (x : stensor) : stensor * stensor * stensor :=
    let '(U, Sg, V) := svd (val x) in
    let '(lu, ls, lv) := svd_lay x in (mkS U lu, mkS Sg ls, mkS V lv).
  (** [torch.einsum('ab,bcd->acd', ...)] (qoperator.py:123) *)
  Definition s_einsum_ab_bcd (a b : stensor) : res stensor :=
    do r <- einsum_ab_bcd (val a) (val b); Ok (mkS r (ein_lay a b)).

  (** ** qtensornetwork.py *)

  (** qtensornetwork.py:35-46, 98-109,117, 137-143,146 and 259-267 (as QTN.svd_cut) *)
  Definition s_svd_cut (c : stensor) : res (stensor * stensor) :=
    let '(U, Sg, V) := s_svd c in
    do Vp <- s_permute V [1%Z; 0%Z];
    let V_d := s_conj Vp in
    let D := length (filter (fun z => kabsgt z (1 # 100000000)) (data (val Sg))) in
    do Sd <- s_diag Sg;
    do US <- (if D <? nth 0 (shape (val Sd)) 0
              then do U' <- s_index_select U 1 (seq 0 D);
                   do S' <- s_index_select Sd 0 (seq 0 D);
                   Ok (U', S')
              else Ok (U, Sd));
    do c' <- s_matmul (snd US) V_d;
    Ok (fst US, c').

  (** qtensornetwork.py:27-28, 118-119, 134-135 *)
  Definition s_fold_cols (c : stensor) : res stensor :=
    do bl <- s_chunk c 2 1;
    do b0 <- py_nth bl 0;
    do b1 <- py_nth bl 1;
    s_cat 0 [b0; b1].

  (** [t.view(2,-1,t.shape[1])] (qtensornetwork.py:32, 45, 115, 120, 144, 148) *)
  Definition s_view_site (t : stensor) : res stensor := s_view t [2%Z; (-1)%Z; zdim (val t) 1].

  (** qtensornetwork.py:15-48 StateVec2MPS *)
  Definition s_StateVec2MPS (psi : stensor) (N : nat) : res (list stensor) :=
    raise_if (negb (length (shape (val psi)) =? 2)) ValueError (
    raise_if (negb (nth 0 (shape (val psi)) 0 =? 1) || negb (nth 1 (shape (val psi)) 0 =? 2 ^ N)) ValueError (
    do r <- mfold (fun (st : stensor * list stensor) i =>
        do c <- s_fold_cols (fst st);
        if i =? N - 1
        then do s <- s_view_site c; Ok (c, snd st ++ [s])
        else do uc <- s_svd_cut c;
             do s <- s_view_site (fst uc);
             Ok (snd uc, snd st ++ [s])) (seq 0 N) (psi, []);
    Ok (snd r))).

  (** qtensornetwork.py:52-61 MatrixProductState *)
  Definition s_MatrixProductState (psi : stensor) (N : nat) : res stensor :=
    raise_if (negb (length (shape (val psi)) =? 2)) ValueError (
    raise_if (negb (nth 0 (shape (val psi)) 0 =? 1) || negb (nth 1 (shape (val psi)) 0 =? 2 ^ N)) ValueError (
    s_view psi (repeat 2%Z N))).

  (** qtensornetwork.py:66-80 MPS2StateVec(return_sv=True) *)
  Definition s_MPS2StateVec (l : list stensor) : res stensor :=
    match l with
    | [] => Err UnboundLocalError
    | t0 :: ts =>
        do c <- mfold (fun c t =>
            do temp <- s_unsqueeze t 0;
            do c1 <- s_unsqueeze c 1;
            do c2 <- s_matmul c1 temp;
            let s := shape (val c2) in
            s_view c2 [Z.of_nat (nth 0 s 0 * nth 1 s 0); zdim (val c2) 2; zdim (val c2) 3]) ts t0;
        do c1 <- s_view c [(-1)%Z];
        s_view c1 [1%Z; (-1)%Z]
    end.

  (** [tensor[i,j]] (qtensornetwork.py:94-95) *)
  Definition s_sel2 (t : stensor) (i j : nat) : res stensor :=
    do a <- s_select t (Z.of_nat i); s_select a (Z.of_nat j).
  (** [tensor[i,j,k]] (qtensornetwork.py:127-128) *)
  Definition s_sel3 (t : stensor) (i j k : nat) : res stensor :=
    do a <- s_sel2 t i j; s_select a (Z.of_nat k).

  (** qtensornetwork.py:93-122 TensorDecompAfterTwoQbitGate *)
  Definition s_TensorDecompAfterTwoQbitGate (t : stensor) : res (stensor * stensor) :=
    do t00 <- s_sel2 t 0 0; do t01 <- s_sel2 t 0 1;
    do block1 <- s_cat 1 [t00; t01];
    do t10 <- s_sel2 t 1 0; do t11 <- s_sel2 t 1 1;
    do block2 <- s_cat 1 [t10; t11];
    do c <- s_cat 0 [block1; block2];
    do uc <- s_svd_cut c;
    do rst1 <- s_view_site (fst uc);
    do f <- s_fold_cols (snd uc);
    do rst2 <- s_view_site f;
    Ok (rst1, rst2).

  (** qtensornetwork.py:124-149 TensorDecompAfterThreeQbitGate *)
  Definition s_TensorDecompAfterThreeQbitGate (t : stensor) : res (stensor * stensor * stensor) :=
    raise_if (negb (length (shape (val t)) =? 5)) ValueError (
    do t000 <- s_sel3 t 0 0 0; do t001 <- s_sel3 t 0 0 1; do t010 <- s_sel3 t 0 1 0; do t011 <- s_sel3 t 0 1 1;
    do blk0 <- s_cat 1 [t000; t001; t010; t011];
    do t100 <- s_sel3 t 1 0 0; do t101 <- s_sel3 t 1 0 1; do t110 <- s_sel3 t 1 1 0; do t111 <- s_sel3 t 1 1 1;
    do blk1 <- s_cat 1 [t100; t101; t110; t111];
    do c <- s_cat 0 [blk0; blk1];
    do uc0 <- s_svd_cut c;
    do r0 <- s_view_site (fst uc0);
    do c1 <- s_fold_cols (snd uc0);
    do uc1 <- s_svd_cut c1;
    do r1 <- s_view_site (fst uc1);
    do c2 <- s_fold_cols (snd uc1);
    do r2 <- s_view_site c2;
    Ok (r0, r1, r2)).

  (** qtensornetwork.py:215-276 Rho2MPS *)
  Definition s_Rho2MPS (Rho : stensor) (N : nat) : res (list stensor) :=
    raise_if (negb (length (shape (val Rho)) =? 2)) ValueError (
    raise_if (negb (nth 0 (shape (val Rho)) 0 =? 2 ^ N) || negb (nth 1 (shape (val Rho)) 0 =? 2 ^ N)) ValueError (
    do r0 <- s_view Rho [1%Z; (-1)%Z];
    do r <- mfold (fun (st : stensor * list stensor) i =>
        do ch <- s_chunk (fst st) 2 1;
        do r <- s_cat 0 ch;
        do lst <- mmap (fun j =>
            let h := nth 0 (shape (val r)) 0 / 2 in
            let block := s_slice r 0 (j * h) h in
            do blks <- s_chunk block (2 ^ (N - i)) 1;
            do e <- s_cat 1 (evens blks);
            do o <- s_cat 1 (odds blks);
            s_cat 0 [e; o]) [0; 1];
        do r <- s_cat 0 lst;
        do uc <- s_svd_cut r;
        do s <- s_view (fst uc) [2%Z; 2%Z; (-1)%Z; zdim (val (fst uc)) 1];
        Ok (snd uc, snd st ++ [s])) (seq 0 N) (r0, []);
    Ok (snd r))).

  (** qtensornetwork.py:280-290 MPS2Rho up to the normalisation by the trace *)
  Definition s_MPS2Rho_raw (MPS : list stensor) : res stensor :=
    match MPS with
    | [] => Err UnboundLocalError
    | t0 :: ts =>
        do rho <- mfold (fun rho t =>
            do a <- s_unsqueeze rho 1; do a <- s_unsqueeze a 3;
            do b <- s_unsqueeze t 0; do b <- s_unsqueeze b 2;
            do r <- s_matmul a b;
            let s := shape (val r) in
            s_view r [Z.of_nat (nth 0 s 0 * nth 1 s 0); Z.of_nat (nth 2 s 0 * nth 3 s 0);
                      zdim (val r) 4; zdim (val r) 5]) ts t0;
        Ok (s_squeeze rho)
    end.

  (** qtensornetwork.py:301-313 MatrixProductDensityOperator *)
  Definition s_MatrixProductDensityOperator (rho : stensor) (N : nat) : res stensor :=
    raise_if (negb (length (shape (val rho)) =? 2)) ValueError (
    raise_if (negb (nth 0 (shape (val rho)) 0 =? 2 ^ N) || negb (nth 1 (shape (val rho)) 0 =? 2 ^ N)) ValueError (
    do r <- s_view rho (repeat 2%Z (2 * N));
    assert_ (length (shape (val r)) =? 2 * N) (Ok r))).

  (** ** qoperator.py, TN_contract *)

  (** qoperator.py:127-147 *)
  Definition s_contract1_at (M : stensor) (n w : Z) (MPS : stensor) : res stensor :=
    do p <- py_set (zrange (Z.to_nat n)) w (n - 1)%Z;
    do p <- py_set p (n - 1)%Z w;
    do t <- s_permute MPS p;
    do t <- s_unsqueeze t (-1);
    do t <- s_matmul M t;
    do t <- s_squeeze_dim t (-1);
    s_permute t p.
  (** qoperator.py:127-147 SingleGateOperation.TN_contract *)
  Definition s_single_TN_contract (M : stensor) (N : Z) (wires : pywires) (MPS : stensor) (batch_mod : bool)
    : res stensor :=
    raise_if (unset N wires) ValueError (
    do w <- wire_int wires;
    if batch_mod then s_contract1_at M (N + 1) (w + 1) MPS else s_contract1_at M N w MPS).

  (** qoperator.py:644-712, 778-845, 914-981, 1136-1204, 1288-1356, 1441-1510, 1604-1674: [reshape], then [view] *)
  Definition s_contract2_at (M : stensor) (n c t : Z) (vshape : tensor -> list Z) (MPS : stensor) : res stensor :=
    do p <- py_remove (zrange (Z.to_nat n)) c;
    do p <- py_remove p t;
    let p := p ++ [c; t] in
    do T <- s_permute MPS p;
    let s := map Z.of_nat (shape (val T)) in
    do a <- py_nth s (-2); do b <- py_nth s (-1);
    do s <- py_set s (-2) (a * b)%Z;
    do s <- py_set s (-1) 1%Z;
    do T1 <- s_reshape T s;
    do T2 <- s_matmul M T1;
    do T3 <- s_view T2 (vshape (val T1));
    do q <- pop_last (zrange (Z.to_nat n));
    do q <- pop_last q;
    let q := if (c <? t)%Z then py_insert (py_insert q c (n - 2)%Z) t (n - 1)%Z
             else py_insert (py_insert q t (n - 1)%Z) c (n - 2)%Z in
    s_permute T3 q.
  (** qoperator.py:644-712 and its copies, see [double_TN_contract] *)
  Definition s_double_TN_contract (M : stensor) (N : Z) (wires : pywires) (MPS : stensor) (batch_mod : bool)
    : res stensor :=
    raise_if (unset N wires) ValueError (
    do c <- wire_at wires 0;
    do t <- wire_at wires 1;
    assert_ (negb (c =? t)%Z) (
    if batch_mod
    then assert_ (Z.of_nat (rank (val MPS)) =? N + 1)%Z
           (s_contract2_at M (N + 1) (c + 1) (t + 1)
              (fun T => Z.of_nat (nth 0 (shape T) 0) :: repeat 2%Z (Z.to_nat N)) MPS)
    else assert_ (Z.of_nat (rank (val MPS)) =? N)%Z
           (s_contract2_at M N c t (fun _ => repeat 2%Z (Z.to_nat N)) MPS))).

  (** qoperator.py:1801-1851 SWAP.TN_contract *)
  Definition s_swap_contract_at (n c t : Z) (MPS : stensor) : res stensor :=
    do p <- py_set (zrange (Z.to_nat n)) c t;
    do p <- py_set p t c;
    s_permute MPS p.
  (** qoperator.py:1801-1851 SWAP.TN_contract *)
  Definition s_swap_TN_contract (N : Z) (wires : pywires) (MPS : stensor) (batch_mod : bool) : res stensor :=
    raise_if (unset N wires) ValueError (
    do c <- wire_at wires 0;
    do t <- wire_at wires 1;
    assert_ (negb (c =? t)%Z) (
    if batch_mod
    then assert_ (Z.of_nat (rank (val MPS)) =? N + 1)%Z (s_swap_contract_at (N + 1) (c + 1) (t + 1) MPS)
    else assert_ (Z.of_nat (rank (val MPS)) =? N)%Z (s_swap_contract_at N c t MPS))).

  (** qoperator.py:1993-2102 toffoli.TN_contract *)
  Definition s_contract3_at (M : stensor) (n c1 c2 t : Z) (vshape : tensor -> list Z) (MPS : stensor) : res stensor :=
    do p <- py_remove (zrange (Z.to_nat n)) c1;
    do p <- py_remove p c2;
    do p <- py_remove p t;
    let p := p ++ [c1; c2; t] in
    do T <- s_permute MPS p;
    let s := map Z.of_nat (shape (val T)) in
    do a <- py_nth s (-3); do b <- py_nth s (-2); do d <- py_nth s (-1);
    do s <- py_set s (-3) (a * b * d)%Z;
    do s <- py_set s (-2) 1%Z;
    do s <- py_set s (-1) 1%Z;
    do T1 <- s_reshape T s;
    do T1' <- s_squeeze_dim T1 (-1);
    do T2 <- s_matmul M T1';
    do T3 <- s_view T2 (vshape (val T1));
    do q <- pop_last (zrange (Z.to_nat n));
    do q <- pop_last q;
    do q <- pop_last q;
    let i1 q := py_insert q c1 (n - 3)%Z in
    let i2 q := py_insert q c2 (n - 2)%Z in
    let i3 q := py_insert q t (n - 1)%Z in
    let q := if (c1 <? c2)%Z && (c2 <? t)%Z then i3 (i2 (i1 q))
             else if (c1 <? t)%Z && (t <? c2)%Z then i2 (i3 (i1 q))
             else if (c2 <? t)%Z && (t <? c1)%Z then i1 (i3 (i2 q))
             else if (c2 <? c1)%Z && (c1 <? t)%Z then i3 (i1 (i2 q))
             else if (t <? c1)%Z && (c1 <? c2)%Z then i2 (i1 (i3 q))
             else if (t <? c2)%Z && (c2 <? c1)%Z then i1 (i2 (i3 q))
             else q in
    s_permute T3 q.
  (** qoperator.py:1994-2105 toffoli.TN_contract *)
  Definition s_triple_TN_contract (M : stensor) (N : Z) (wires : pywires) (MPS : stensor) (batch_mod : bool)
    : res stensor :=
    raise_if (unset N wires) ValueError (
    do c1 <- wire_at wires 0;
    do c2 <- wire_at wires 1;
    do t <- wire_at wires 2;
    assert_ (negb (c1 =? t)%Z && negb (c2 =? t)%Z && negb (c1 =? c2)%Z) (
    if batch_mod
    then assert_ (Z.of_nat (rank (val MPS)) =? N + 1)%Z
           (s_contract3_at M (N + 1) (c1 + 1) (c2 + 1) (t + 1)
              (fun T => Z.of_nat (nth 0 (shape T) 0) :: repeat 2%Z (Z.to_nat N)) MPS)
    else assert_ (Z.of_nat (rank (val MPS)) =? N)%Z
           (s_contract3_at M N c1 c2 t (fun _ => repeat 2%Z (Z.to_nat N)) MPS))).

  (** ** qoperator.py, TN_operation *)

  (** qoperator.py:115-124 *)
  Definition s_single_TN_operation (M : stensor) (N : Z) (wires : pywires) (MPS : list stensor) : res (list stensor) :=
    raise_if (unset N wires) ValueError (
    do w <- wire_int wires;
    do s <- py_nth MPS w;
    do s' <- s_einsum_ab_bcd M s;
    py_set MPS w s').

  (** qoperator.py:1052-1062, 1098-1108, 1269-1281, 1421-1433, 1585-1597, 1775-1780, 1788-1793 *)
  Definition s_two_site (M : stensor) (MPS : list stensor) (i j : Z) : res (list stensor) :=
    do a <- py_nth MPS i;
    do b <- py_nth MPS j;
    do a1 <- s_unsqueeze a 1;
    do b1 <- s_unsqueeze b 0;
    do t <- s_matmul a1 b1;
    do t <- s_permute t [2%Z; 3%Z; 0%Z; 1%Z];
    let s := map Z.of_nat (shape (val t)) in
    do s0 <- py_nth s 0; do s1 <- py_nth s 1; do s2 <- py_nth s 2; do s3 <- py_nth s 3;
    do t <- s_view t [s0; s1; (s2 * s3)%Z; 1%Z];
    do t <- s_matmul M t;
    do t <- s_view t [s0; s1; s2; s3];
    do t <- s_permute t [2%Z; 3%Z; 0%Z; 1%Z];
    do rs <- s_TensorDecompAfterTwoQbitGate t;
    do MPS1 <- py_set MPS i (fst rs);
    py_set MPS1 j (snd rs).

  (** qoperator.py:1763-1799 SWAP.TN_operation *)
  Definition s_swap_TN_operation (N : Z) (wires : pywires) (MPS : list stensor) : res (list stensor) :=
    raise_if (unset N wires) ValueError (
    do l <- wire_list wires;
    raise_if (negb (length l =? 2)) ValueError (
    do upqbit <- py_min l;
    do downqbit <- py_max l;
    do MPS <- mfold (fun MPS i => s_two_site (fresh swap_matrix) MPS i (i + 1)%Z) (zrange2 upqbit downqbit) MPS;
    mfold (fun MPS i => s_two_site (fresh swap_matrix) MPS (i - 1)%Z i) (zrange_down (downqbit - 1) upqbit) MPS)).
  (** [SWAP(N,[i,j]).TN_operation(MPS)] *)
  Definition s_swap_step (N : Z) (MPS : list stensor) (i j : Z) : res (list stensor) :=
    s_swap_TN_operation N (WList [i; j]) MPS.

  (** qoperator.py:1260-1286, 1410-1438, 1574-1601 *)
  Definition s_ctrl_TN_operation (M : stensor) (Mrev : res stensor) (N : Z) (wires : pywires) (MPS : list stensor)
    : res (list stensor) :=
    raise_if (unset N wires) ValueError (
    do l <- wire_list wires;
    raise_if (negb (length l =? 2)) ValueError (
    do upqbit <- py_min l;
    do downqbit <- py_max l;
    do MPS <- mfold (fun MPS i => s_swap_step N MPS i (i + 1)%Z) (zrange2 upqbit (downqbit - 1)) MPS;
    do w0 <- py_nth l 0;
    do G <- (if (w0 =? upqbit)%Z then Ok M else Mrev);
    do MPS <- s_two_site G MPS (downqbit - 1)%Z downqbit;
    mfold (fun MPS i => s_swap_step N MPS (i - 1)%Z i) (zrange_down (downqbit - 1) upqbit) MPS)).

  (** qoperator.py:1040-1133 *)
  Definition s_cnot_TN_operation (M : stensor) (Mrev : res stensor) (N : Z) (wires : pywires) (MPS : list stensor)
    : res (list stensor) :=
    raise_if (unset N wires) ValueError (
    do l <- wire_list wires;
    do upqbit <- py_min l;
    do downqbit <- py_max l;
    if (upqbit + 1 =? downqbit)%Z then
      do w0 <- py_nth l 0;
      do G <- (if (w0 =? upqbit)%Z then Ok M else Mrev);
      s_two_site G MPS upqbit downqbit
    else
      do MPS <- mfold (fun MPS i => s_swap_step N MPS i (i + 1)%Z) (zrange2 upqbit (downqbit - 1)) MPS;
      do w0 <- py_nth l 0;
      do G <- (if (w0 =? upqbit)%Z then Ok M else Mrev);
      do MPS <- s_two_site G MPS (downqbit - 1)%Z downqbit;
      mfold (fun MPS i => s_swap_step N MPS (i - 1)%Z i) (zrange_down (downqbit - 1) upqbit) MPS).

  (** qoperator.py:1946-1961 *)
  Definition s_three_site (G : res stensor) (MPS : list stensor) (m : Z) : res (list stensor) :=
    do a <- py_nth MPS (m - 1)%Z;
    do b <- py_nth MPS m;
    do c <- py_nth MPS (m + 1)%Z;
    do a <- s_unsqueeze a 1; do a <- s_unsqueeze a 1;
    do b <- s_unsqueeze b 1; do b <- s_unsqueeze b 0;
    do ab <- s_matmul a b;
    do c <- s_unsqueeze c 0; do c <- s_unsqueeze c 0;
    do t <- s_matmul ab c;
    do t <- s_permute t [3%Z; 4%Z; 0%Z; 1%Z; 2%Z];
    let s := map Z.of_nat (shape (val t)) in
    do s0 <- py_nth s 0; do s1 <- py_nth s 1; do s2 <- py_nth s 2; do s3 <- py_nth s 3; do s4 <- py_nth s 4;
    do t <- s_view t [s0; s1; (s2 * s3 * s4)%Z; 1%Z];
    do g <- G;
    do t <- s_matmul g t;
    do t <- s_view t [s0; s1; s2; s3; s4];
    do t <- s_permute t [2%Z; 3%Z; 4%Z; 0%Z; 1%Z];
    do rs <- s_TensorDecompAfterThreeQbitGate t;
    let '(r0, r1, r2) := rs in
    do MPS <- py_set MPS (m - 1)%Z r0;
    do MPS <- py_set MPS m r1;
    py_set MPS (m + 1)%Z r2.

  (** qoperator.py:1918-1990 toffoli.TN_operation *)
  Definition s_toffoli_TN_operation (M : stensor) (Mmid Mup : res stensor) (N : Z) (wires : pywires)
    (MPS : list stensor) : res (list stensor) :=
    raise_if (unset N wires) ValueError (
    do l <- wire_list wires;
    let sw := zsort l in
    do upqbit <- py_nth sw 0;
    do midqbit <- py_nth sw 1;
    do downqbit <- py_nth sw 2;
    do MPS <- mfold (fun MPS i => s_swap_step N MPS i (i + 1)%Z) (zrange2 upqbit (midqbit - 1)) MPS;
    do MPS <- mfold (fun MPS i => s_swap_step N MPS (i - 1)%Z i) (zrange_down downqbit (midqbit + 1)) MPS;
    do w2 <- py_nth l 2;
    do MPS <- s_three_site (if (downqbit =? w2)%Z then Ok M else if (midqbit =? w2)%Z then Mmid else Mup) MPS midqbit;
    do MPS <- mfold (fun MPS i => s_swap_step N MPS (i - 1)%Z i) (zrange_down (midqbit - 1) upqbit) MPS;
    mfold (fun MPS i => s_swap_step N MPS i (i + 1)%Z) (zrange2 (midqbit + 1) downqbit) MPS).
End QStride.
Arguments stensor : clear implicits.
Arguments stensor {SC}.
