(** Model of deepquantum/gates/qtensornetwork.py.
    [svd] is torch.svd: an argument of the model; nothing is assumed about it here. *)
From Coq Require Import List ZArith QArith Lia Bool Arith.
From Verif Require Import PyBase Scalar BigSum Index Tensor.
Import ListNotations.
Local Close Scope Q_scope.
Local Open Scope nat_scope.

Section QTN.
  Context {SC : Scalar}.
  Variable svd : tensor -> tensor * tensor * tensor.

  (** [t.shape[i]] *)
  Definition zdim (t : tensor) (i : nat) : Z := Z.of_nat (nth i (shape t) 0).

  (** the truncated SVD used at qtensornetwork.py:35-46, 98-109,117, 137-143,146 and 259-267:
      U restricted to the D singular values above 1e-8, and diag(S)@V^dagger restricted likewise *)
  Definition svd_cut (c : tensor) : res (tensor * tensor) :=
    let '(U, Sg, V) := svd c in
    do Vp <- permute V [1%Z; 0%Z];
    let V_d := tconj Vp in
    let D := length (filter (fun z => kabsgt z (1 # 100000000)) (data Sg)) in
    do Sd <- diag Sg;
    do US <- (if D <? nth 0 (shape Sd) 0
              then do U' <- index_select U 1 (seq 0 D);
                   do S' <- index_select Sd 0 (seq 0 D);
                   Ok (U', S')
              else Ok (U, Sd));
    do c' <- matmul (snd US) V_d;
    Ok (fst US, c').

  (** [torch.chunk(c,2,dim=1)] then [torch.cat((b[0],b[1]),dim=0)] (qtensornetwork.py:27-28, 118-119, 134-135) *)
  Definition fold_cols (c : tensor) : res tensor :=
    do bl <- chunk c 2 1;
    do b0 <- py_nth bl 0;
    do b1 <- py_nth bl 1;
    cat 0 [b0; b1].

  (** [t.view(2,-1,t.shape[1])] *)
  Definition view_site (t : tensor) : res tensor := view t [2%Z; (-1)%Z; zdim t 1].

  (** qtensornetwork.py:15-48 StateVec2MPS (d is unused) *)
  Definition StateVec2MPS (psi : tensor) (N : nat) : res (list tensor) :=
    raise_if (negb (length (shape psi) =? 2)) ValueError (
    raise_if (negb (nth 0 (shape psi) 0 =? 1) || negb (nth 1 (shape psi) 0 =? 2 ^ N)) ValueError (
    do r <- mfold (fun (st : tensor * list tensor) i =>
        do c <- fold_cols (fst st);
        if i =? N - 1
        then do s <- view_site c; Ok (c, snd st ++ [s])
        else do uc <- svd_cut c;
             do s <- view_site (fst uc);
             Ok (snd uc, snd st ++ [s])) (seq 0 N) (psi, []);
    Ok (snd r))).

  (** qtensornetwork.py:52-61 MatrixProductState *)
  Definition MatrixProductState (psi : tensor) (N : nat) : res tensor :=
    raise_if (negb (length (shape psi) =? 2)) ValueError (
    raise_if (negb (nth 0 (shape psi) 0 =? 1) || negb (nth 1 (shape psi) 0 =? 2 ^ N)) ValueError (
    view psi (repeat 2%Z N))).

  (** qtensornetwork.py:66-80 MPS2StateVec(return_sv=True).  With no tensor at all [c_tensor] is unbound. *)
  Definition MPS2StateVec (l : list tensor) : res tensor :=
    match l with
    | [] => Err UnboundLocalError
    | t0 :: ts =>
        do c <- mfold (fun c t =>
            do temp <- unsqueeze t 0;
            do c1 <- unsqueeze c 1;
            do c2 <- matmul c1 temp;
            view c2 [Z.of_nat (nth 0 (shape c2) 0 * nth 1 (shape c2) 0); zdim c2 2; zdim c2 3]) ts t0;
        do c1 <- view c [(-1)%Z];
        view c1 [1%Z; (-1)%Z]
    end.

  (** qtensornetwork.py:81-90 MPS2StateVec(return_sv=False) *)
  Definition MPS2StateTensor (l : list tensor) : res tensor :=
    match l with
    | [] => Err UnboundLocalError
    | t0 :: ts =>
        do c <- mfold (fun (st : nat * tensor) t =>
            let '(i, c) := st in
            do temp <- unsqueeze t 0;
            do c1 <- unsqueeze c (Z.of_nat i);
            do c2 <- matmul c1 temp;
            Ok (S i, c2)) ts (1, t0);
        let r := squeeze (snd c) in
        assert_ (length (shape r) =? length l) (Ok r)
    end.

  (** [tensor[i,j]] *)
  Definition tsel2 (t : tensor) (i j : nat) : res tensor :=
    do a <- tselect t (Z.of_nat i); tselect a (Z.of_nat j).
  (** [tensor[i,j,k]] (qtensornetwork.py:127-128) *)
  Definition tsel3 (t : tensor) (i j k : nat) : res tensor :=
    do a <- tsel2 t i j; tselect a (Z.of_nat k).

  (** qtensornetwork.py:93-122 TensorDecompAfterTwoQbitGate *)
  Definition TensorDecompAfterTwoQbitGate (t : tensor) : res (tensor * tensor) :=
    do t00 <- tsel2 t 0 0; do t01 <- tsel2 t 0 1;
    do block1 <- cat 1 [t00; t01];
    do t10 <- tsel2 t 1 0; do t11 <- tsel2 t 1 1;
    do block2 <- cat 1 [t10; t11];
    do c <- cat 0 [block1; block2];
    do uc <- svd_cut c;
    do rst1 <- view_site (fst uc);
    do f <- fold_cols (snd uc);
    do rst2 <- view_site f;
    Ok (rst1, rst2).

  (** qtensornetwork.py:124-149 TensorDecompAfterThreeQbitGate (the loop over i = 0,1,2 unrolled) *)
  Definition TensorDecompAfterThreeQbitGate (t : tensor) : res (tensor * tensor * tensor) :=
    raise_if (negb (length (shape t) =? 5)) ValueError (
    do t000 <- tsel3 t 0 0 0; do t001 <- tsel3 t 0 0 1; do t010 <- tsel3 t 0 1 0; do t011 <- tsel3 t 0 1 1;
    do blk0 <- cat 1 [t000; t001; t010; t011];
    do t100 <- tsel3 t 1 0 0; do t101 <- tsel3 t 1 0 1; do t110 <- tsel3 t 1 1 0; do t111 <- tsel3 t 1 1 1;
    do blk1 <- cat 1 [t100; t101; t110; t111];
    do c <- cat 0 [blk0; blk1];
    do uc0 <- svd_cut c;
    do r0 <- view_site (fst uc0);
    do c1 <- fold_cols (snd uc0);
    do uc1 <- svd_cut c1;
    do r1 <- view_site (fst uc1);
    do c2 <- fold_cols (snd uc1);
    do r2 <- view_site c2;
    Ok (r0, r1, r2)).

  (** qtensornetwork.py:151-196 MPS_inner_product.  [braMPS[i]] beyond its end raises IndexError; with fewer than
      two tensors [t] is unbound. *)
  Definition ip_site (k b : tensor) : res tensor :=
    do t1 <- permute k [1%Z; 2%Z; 0%Z];
    do t2 <- permute b [1%Z; 2%Z; 0%Z];
    do t1 <- unsqueeze t1 1; do t2 <- unsqueeze t2 0;
    do t1 <- unsqueeze t1 3; do t2 <- unsqueeze t2 2;
    do t1 <- unsqueeze t1 5; do t2 <- unsqueeze t2 4;
    do q <- matmul (tconj t2) t1;
    Ok (squeeze q).
  (** qtensornetwork.py:151-196 MPS_inner_product *)
  Definition MPS_inner_product (ketMPS braMPS : list tensor) : res K :=
    let N := length ketMPS in
    do lst <- mmap (fun i =>
        do k <- py_nth ketMPS (Z.of_nat i);
        do b <- py_nth braMPS (Z.of_nat i);
        ip_site k b) (seq 0 N);
    do t0 <- match lst with t :: _ :: _ => Ok t | _ => Err UnboundLocalError end;
    (* i from 0 to len-3: the intermediate steps *)
    do t <- mfold (fun t i =>
        do t_nxt <- py_nth lst (Z.of_nat (S i));
        do t_nxt <- permute t_nxt [2%Z; 3%Z; 0%Z; 1%Z];
        do t <- unsqueeze t (-2); do t <- unsqueeze t (-4);
        do t_nxt <- unsqueeze t_nxt (-1); do t_nxt <- unsqueeze t_nxt (-3);
        do temp <- matmul t t_nxt;
        einsum_abii (squeeze temp)) (seq 0 (N - 2)) t0;
    (* i = len-2: the last step *)
    do t_nxt <- py_nth lst (Z.of_nat (N - 1));
    do t <- unsqueeze t (-2); do t <- unsqueeze t (-4);
    do t_nxt <- unsqueeze t_nxt (-1); do t_nxt <- unsqueeze t_nxt (-3);
    do temp <- matmul t t_nxt;
    ttrace (squeeze temp).

  (** qtensornetwork.py:205-209: the loop of MPS_expec that replaces the caller's tensors *)
  Definition MPS_expec_apply (MPS : list tensor) (wires : list Z) (obs : list tensor) : res (list tensor) :=
    mfold (fun MPS (iq : nat * Z) =>
      let '(i, q) := iq in
      do temp <- py_nth MPS q;
      do temp <- permute temp [1%Z; 2%Z; 0%Z];
      do temp <- unsqueeze temp (-1);
      do o <- py_nth obs (Z.of_nat i);
      do temp <- matmul o temp;
      do temp <- squeeze_dim temp 3;
      do temp <- permute temp [2%Z; 0%Z; 1%Z];
      py_set MPS q temp) (combine (seq 0 (length wires)) wires) MPS.

  (** qtensornetwork.py:198-211 MPS_expec: the value before [.real], and the caller's list after the call *)
  Definition MPS_expec (MPS : list tensor) (wires : list Z) (obs : list tensor) : res (K * list tensor) :=
    do s0 <- MPS2StateVec MPS;
    do SV0 <- view s0 [1%Z; (-1)%Z];
    do MPS' <- MPS_expec_apply MPS wires obs;
    do s1 <- MPS2StateVec MPS';
    do SV1 <- view s1 [(-1)%Z; 1%Z];
    do e <- matmul (tconj SV0) SV1;
    Ok (nth 0 (data (squeeze e)) k0, MPS').

  (** even- and odd-numbered elements of a list (qtensornetwork.py:241-245) *)
  Fixpoint evens {A} (l : list A) : list A :=
    match l with [] => [] | x :: [] => [x] | x :: _ :: l' => x :: evens l' end.
  (** qtensornetwork.py:241-245 *)
  Definition odds {A} (l : list A) : list A := match l with [] => [] | _ :: l' => evens l' end.

  (** qtensornetwork.py:215-276 Rho2MPS: MPS_lst, and the last r_tensor (a local of the code, dropped by it) *)
  Definition Rho2MPS_full (Rho : tensor) (N : nat) : res (tensor * list tensor) :=
    raise_if (negb (length (shape Rho) =? 2)) ValueError (
    raise_if (negb (nth 0 (shape Rho) 0 =? 2 ^ N) || negb (nth 1 (shape Rho) 0 =? 2 ^ N)) ValueError (
    do r0 <- view Rho [1%Z; (-1)%Z];
    mfold (fun (st : tensor * list tensor) i =>
        do ch <- chunk (fst st) 2 1;
        do r <- cat 0 ch;
        do lst <- mmap (fun j =>
            let h := nth 0 (shape r) 0 / 2 in
            let block := tslice r 0 (j * h) h in
            do blks <- chunk block (2 ^ (N - i)) 1;
            do e <- cat 1 (evens blks);
            do o <- cat 1 (odds blks);
            cat 0 [e; o]) [0; 1];
        do r <- cat 0 lst;
        do uc <- svd_cut r;
        do s <- view (fst uc) [2%Z; 2%Z; (-1)%Z; zdim (fst uc) 1];
        Ok (snd uc, snd st ++ [s])) (seq 0 N) (r0, []))).
  (** qtensornetwork.py:215-276 Rho2MPS *)
  Definition Rho2MPS (Rho : tensor) (N : nat) : res (list tensor) :=
    do r <- Rho2MPS_full Rho N; Ok (snd r).

  (** qtensornetwork.py:280-290 MPS2Rho up to the normalisation by the trace (see QMathC.v for the latter) *)
  Definition MPS2Rho_raw (MPS : list tensor) : res tensor :=
    match MPS with
    | [] => Err UnboundLocalError
    | t0 :: ts =>
        do rho <- mfold (fun rho t =>
            do a <- unsqueeze rho 1; do a <- unsqueeze a 3;
            do b <- unsqueeze t 0; do b <- unsqueeze b 2;
            do r <- matmul a b;
            view r [Z.of_nat (nth 0 (shape r) 0 * nth 1 (shape r) 0);
                    Z.of_nat (nth 2 (shape r) 0 * nth 3 (shape r) 0); zdim r 4; zdim r 5]) ts t0;
        Ok (squeeze rho)
    end.

  (** qtensornetwork.py:301-313 MatrixProductDensityOperator *)
  Definition MatrixProductDensityOperator (rho : tensor) (N : nat) : res tensor :=
    raise_if (negb (length (shape rho) =? 2)) ValueError (
    raise_if (negb (nth 0 (shape rho) 0 =? 2 ^ N) || negb (nth 1 (shape rho) 0 =? 2 ^ N)) ValueError (
    do r <- view rho (repeat 2%Z (2 * N));
    assert_ (length (shape r) =? 2 * N) (Ok r))).
End QTN.
