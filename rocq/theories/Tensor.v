(** Model of torch tensors: a shape and the elements in row-major order, and of the torch primitives the
    code calls.  Strides/contiguity are not modelled ([view] behaves as [reshape]); dtype and autograd neither.
    Any error raised by torch is [TorchError]. *)
From Coq Require Import List ZArith QArith Lia Bool Arith.
From Verif Require Import PyBase Scalar BigSum Index.
Import ListNotations.
Local Close Scope Q_scope.
Local Open Scope nat_scope.

Section Tensor.
  Context {SC : Scalar}.

  Record tensor := mkT { shape : list nat; data : list K }.

  (** element at a multi-index *)
  Definition tget (t : tensor) (idx : list nat) : K := nth (flat (shape t) idx) (data t) k0.

  (** the tensor of the given shape with element [f idx] at [idx] *)
  Definition tbuild (s : list nat) (f : list nat -> K) : tensor := mkT s (map f (all_idx s)).

  (** the number of elements fits the shape *)
  Definition wf (t : tensor) : Prop := length (data t) = prodn (shape t).

  Definition rank (t : tensor) : nat := length (shape t).

  (** [torch.tensor([[...],...])] *)
  Definition mat_of (rows : list (list K)) : tensor :=
    mkT [length rows; length (hd [] rows)] (concat rows).

  (** [torch.eye(n,n)] *)
  Definition eye (n : nat) : tensor :=
    tbuild [n; n] (fun idx => if nth 0 idx 0 =? nth 1 idx 0 then k1 else k0).

  (** [torch.zeros(s)] *)
  Definition zeros (s : list nat) : tensor := tbuild s (fun _ => k0).

  (** target shape of [view]/[reshape]; one dimension may be -1 *)
  Definition infer_shape (n : nat) (dims : list Z) : option (list nat) :=
    if existsb (fun d => (d <? -1)%Z) dims then None else
    let known := filter (fun d => negb (d =? -1)%Z) dims in
    let pk := prodn (map Z.to_nat known) in
    match length dims - length known with
    | 0 => if pk =? n then Some (map Z.to_nat dims) else None
    | 1 => if pk =? 0 then None
           else if n mod pk =? 0
                then Some (map (fun d => if (d =? -1)%Z then n / pk else Z.to_nat d) dims)
                else None
    | _ => None
    end.

  (** [t.view(dims)], [t.reshape(dims)] *)
  Definition view (t : tensor) (dims : list Z) : res tensor :=
    match infer_shape (prodn (shape t)) dims with
    | Some s => Ok (mkT s (data t))
    | None => Err TorchError
    end.

  (** dimension arguments: negative ones count from the end *)
  Definition dim_index (n : nat) (d : Z) : res nat :=
    match py_index n d with Ok k => Ok k | Err _ => Err TorchError end.

  Fixpoint index_of (d : nat) (p : list nat) : nat :=
    match p with
    | [] => 0
    | x :: p' => if x =? d then 0 else S (index_of d p')
    end.

  Definition is_perm (p : list nat) (n : nat) : bool :=
    (length p =? n) && forallb (fun d => existsb (Nat.eqb d) p) (seq 0 n).

  Definition unperm (p idx : list nat) : list nat :=
    map (fun d => nth (index_of d p) idx 0) (seq 0 (length p)).

  (** [t.permute(dims)] *)
  Definition permute (t : tensor) (dims : list Z) : res tensor :=
    do p <- mmap (dim_index (rank t)) dims;
    if is_perm p (rank t)
    then Ok (tbuild (map (fun d => nth d (shape t) 0) p) (fun idx => tget t (unperm p idx)))
    else Err TorchError.

  (** [t.unsqueeze(d)] *)
  Definition unsqueeze (t : tensor) (d : Z) : res tensor :=
    do k <- dim_index (S (rank t)) d;
    Ok (mkT (firstn k (shape t) ++ 1 :: skipn k (shape t)) (data t)).

  (** [t.squeeze()] *)
  Definition squeeze (t : tensor) : tensor :=
    mkT (filter (fun n => negb (n =? 1)) (shape t)) (data t).

  (** [t.squeeze(d)] *)
  Definition squeeze_dim (t : tensor) (d : Z) : res tensor :=
    do k <- dim_index (rank t) d;
    if nth k (shape t) 0 =? 1
    then Ok (mkT (firstn k (shape t) ++ skipn (S k) (shape t)) (data t))
    else Ok t.

  (** broadcasting of shapes, given last dimension first *)
  Fixpoint bcast_rev (s1 s2 : list nat) : option (list nat) :=
    match s1, s2 with
    | [], _ => Some s2
    | _, [] => Some s1
    | a :: s1', b :: s2' =>
        match bcast_rev s1' s2' with
        | None => None
        | Some s => if a =? b then Some (a :: s)
                    else if a =? 1 then Some (b :: s)
                    else if b =? 1 then Some (a :: s) else None
        end
    end.
  Definition bcast (s1 s2 : list nat) : option (list nat) :=
    match bcast_rev (rev s1) (rev s2) with Some s => Some (rev s) | None => None end.

  Fixpoint zip0 (s idx : list nat) : list nat :=
    match s, idx with
    | n :: s', i :: idx' => (if n =? 1 then 0 else i) :: zip0 s' idx'
    | _, _ => []
    end.

  (** the index into an operand of shape [s] used for the broadcast index [idx] *)
  Definition bidx (s idx : list nat) : list nat := zip0 s (skipn (length idx - length s) idx).

  (** elementwise binary operations with broadcasting *)
  Definition map2b (f : K -> K -> K) (a b : tensor) : res tensor :=
    match bcast (shape a) (shape b) with
    | Some s => Ok (tbuild s (fun idx => f (tget a (bidx (shape a) idx)) (tget b (bidx (shape b) idx))))
    | None => Err TorchError
    end.
  Definition tadd := map2b kadd.
  Definition tsub := map2b ksub.

  (** elementwise unary operations; [c*t]; [t.conj()] *)
  Definition tmap (f : K -> K) (t : tensor) : tensor := mkT (shape t) (map f (data t)).
  Definition tscale (c : K) (t : tensor) : tensor := tmap (kmul c) t.
  Definition tconj (t : tensor) : tensor := tmap kconj t.

  (** [a @ b] for operands of rank >= 2, batch dimensions broadcast.  (Rank-1 operands never occur in the
      modelled code; they are rejected here.) *)
  Definition matmul (a b : tensor) : res tensor :=
    match rev (shape a), rev (shape b) with
    | k :: m :: ra, n :: k' :: rb =>
        if k =? k' then
          match bcast (rev ra) (rev rb) with
          | Some bs =>
              Ok (tbuild (bs ++ [m; n]) (fun idx =>
                    let bi := firstn (length bs) idx in
                    let i := nth (length bs) idx 0 in
                    let j := nth (S (length bs)) idx 0 in
                    bigsum (seq 0 k) (fun l =>
                      kmul (tget a (bidx (rev ra) bi ++ [i; l])) (tget b (bidx (rev rb) bi ++ [l; j])))))
          | None => Err TorchError
          end
        else Err TorchError
    | _, _ => Err TorchError
    end.

  (** [torch.kron(a,b)]: the operand of smaller rank gets leading dimensions of size 1 *)
  Definition padl (n : nat) (s : list nat) : list nat := repeat 1 (n - length s) ++ s.
  Fixpoint map2n (f : nat -> nat -> nat) (l1 l2 : list nat) : list nat :=
    match l1, l2 with
    | x :: l1', y :: l2' => f x y :: map2n f l1' l2'
    | _, _ => []
    end.
  Definition kron (a b : tensor) : tensor :=
    let r := Nat.max (rank a) (rank b) in
    let sa := padl r (shape a) in
    let sb := padl r (shape b) in
    tbuild (map2n Nat.mul sa sb) (fun idx =>
      kmul (tget (mkT sa (data a)) (map2n Nat.div idx sb))
           (tget (mkT sb (data b)) (map2n Nat.modulo idx sb))).

  (** [t[i]] (first dimension) *)
  Definition tselect (t : tensor) (i : Z) : res tensor :=
    match shape t with
    | [] => Err TorchError
    | n :: s =>
        match py_index n i with
        | Ok k => Ok (tbuild s (fun idx => tget t (k :: idx)))
        | Err _ => Err TorchError
        end
    end.

  (** elements [start, start+len) along dimension [d] *)
  Definition tslice (t : tensor) (d start len : nat) : tensor :=
    tbuild (set_nth d len (shape t))
           (fun idx => tget t (set_nth d (start + nth d idx 0) idx)).

  (** [torch.chunk(t, chunks=k, dim=d)] *)
  Definition chunk (t : tensor) (k d : nat) : res (list tensor) :=
    match nth_error (shape t) d with
    | None => Err TorchError
    | Some n =>
        if k =? 0 then Err TorchError else
        if n =? 0 then Ok (repeat t k) else
        let c := (n + k - 1) / k in
        Ok (map (fun i => tslice t d (i * c) (Nat.min c (n - i * c))) (seq 0 ((n + c - 1) / c)))
    end.

  (** [torch.cat((a,b),dim=d)] *)
  Definition cat2 (d : nat) (a b : tensor) : res tensor :=
    match nth_error (shape a) d, nth_error (shape b) d with
    | Some na, Some nb =>
        if list_eq_dec Nat.eq_dec (set_nth d 0 (shape a)) (set_nth d 0 (shape b))
        then Ok (tbuild (set_nth d (na + nb) (shape a)) (fun idx =>
               let i := nth d idx 0 in
               if i <? na then tget a idx else tget b (set_nth d (i - na) idx)))
        else Err TorchError
    | _, _ => Err TorchError
    end.
  (** [torch.cat(ts,dim=d)] *)
  Definition cat (d : nat) (ts : list tensor) : res tensor :=
    match ts with
    | [] => Err TorchError
    | t :: ts' => mfold (cat2 d) ts' t
    end.

  (** [torch.index_select(t, d, torch.tensor(l))].  [torch.tensor([])] is a float tensor, which
      index_select rejects. *)
  Definition index_select (t : tensor) (d : nat) (l : list nat) : res tensor :=
    match nth_error (shape t) d with
    | None => Err TorchError
    | Some n =>
        if (length l =? 0) || existsb (fun i => n <=? i) l then Err TorchError else
        Ok (tbuild (set_nth d (length l) (shape t))
                   (fun idx => tget t (set_nth d (nth (nth d idx 0) l 0) idx)))
    end.

  (** [torch.diag(t)] of a vector or of a matrix *)
  Definition diag (t : tensor) : res tensor :=
    match shape t with
    | [n] => Ok (tbuild [n; n] (fun idx => if nth 0 idx 0 =? nth 1 idx 0 then tget t [nth 0 idx 0] else k0))
    | [m; n] => Ok (tbuild [Nat.min m n] (fun idx => tget t [nth 0 idx 0; nth 0 idx 0]))
    | _ => Err TorchError
    end.

  (** [torch.trace(t)] (0-dimensional result, given as its element) *)
  Definition ttrace (t : tensor) : res K :=
    match shape t with
    | [m; n] => Ok (bigsum (seq 0 (Nat.min m n)) (fun i => tget t [i; i]))
    | _ => Err TorchError
    end.

  (** [torch.einsum('ab,bcd->acd', a, b)] *)
  Definition einsum_ab_bcd (a b : tensor) : res tensor :=
    match shape a, shape b with
    | [m; k], [k'; c; d] =>
        if k =? k' then
          Ok (tbuild [m; c; d] (fun idx =>
                bigsum (seq 0 k) (fun l => kmul (tget a [nth 0 idx 0; l])
                                                (tget b [l; nth 1 idx 0; nth 2 idx 0]))))
        else Err TorchError
    | _, _ => Err TorchError
    end.

  (** [torch.einsum('abii->ab', t)] *)
  Definition einsum_abii (t : tensor) : res tensor :=
    match shape t with
    | [a; b; i; i'] =>
        if i =? i' then
          Ok (tbuild [a; b] (fun idx =>
                bigsum (seq 0 i) (fun l => tget t [nth 0 idx 0; nth 1 idx 0; l; l])))
        else Err TorchError
    | _ => Err TorchError
    end.
End Tensor.
Arguments tensor : clear implicits.
Arguments tensor {SC}.
