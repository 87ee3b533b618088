(** Model of class parameter_shift of deepquantum/gates/qcircuit.py (lines 265-436).
    The methods change the gates of the circuit they are given: the model returns the circuit as it is left.  Simplifications:
    numbers are exact reals; parameters are tensors without requires_grad (an in-place [p[i] = ...] on a leaf that requires
    a gradient raises); [p] is a private copy, so its sharing with the gate's params is not modelled. *)
From Coq Require Import List ZArith QArith Reals Bool Arith.
From Verif Require Import PyBase Scalar CInst BigSum Index Tensor QMath QTN QOperator QGates QLayers QCircuit.
Import ListNotations.
Local Close Scope Q_scope.
Local Close Scope R_scope.
Local Open Scope nat_scope.

(** params_update of a gate or layer; a number given to a layer is outside the model *)
Definition o_params_update (o : oper) (p : pval) : res oper :=
  match o, p with
  | OG g, p => do g' <- params_update g p; Ok (OG g')
  | OL l, PV v => do l' <- layer_params_update l v; Ok (OL l')
  | OL _, PS _ => Err TypeError
  end.
(** [self.cir.gate[idx].params_update(p)] *)
Definition update_gate (c : circuit) (idx : nat) (p : pval) : res circuit :=
  match nth_error (c_gate c) idx with
  | Some o => do o' <- o_params_update o p; Ok (mkC (c_N c) (set_nth idx o' (c_gate c)) (c_params c) (c_num c))
  | None => Err IndexError
  end.
(** [p[i] = p[i] + x] *)
Definition padd (p : list R) (i : nat) (x : R) : list R := set_nth i (nth i p 0%R + x)%R p.

Section Grad.
  Variable svd : tensor -> tensor * tensor * tensor.
  Variables init_state M : tensor.

  (** qcircuit.py:287-295: one parameter *)
  Definition shift_one (c : circuit) (idx : nat) (p : R) : res (circuit * R) :=
    do c1 <- update_gate c idx (PS (p + / 2 * PI)%R);
    do e1 <- cir_expectation svd c1 init_state M true;
    do c2 <- update_gate c1 idx (PS (p - / 2 * PI)%R);
    do e2 <- cir_expectation svd c2 init_state M true;
    do c3 <- update_gate c2 idx (PS p);
    Ok (c3, (/ 2 * (e1 - e2))%R).

  (** qcircuit.py:297-312: the body of the loop over the entries of a 1-dimensional parameter *)
  Definition shift_entry (idx : nat) (st : circuit * list R * list R) (i : nat) : res (circuit * list R * list R) :=
    let '(c, p, grads) := st in
    let p1 := padd p i (/ 2 * PI) in
    do c1 <- update_gate c idx (PV p1);
    do e1 <- cir_expectation svd c1 init_state M true;
    let p2 := padd p1 i (- PI) in
    do c2 <- update_gate c1 idx (PV p2);
    do e2 <- cir_expectation svd c2 init_state M true;
    let p3 := padd p2 i (/ 2 * PI) in
    do c3 <- update_gate c2 idx (PV p3);
    Ok (c3, p3, grads ++ [(/ 2 * (e1 - e2))%R]).

  (** qcircuit.py:281-314: the body of the loop over the gates *)
  Definition shift_gate (st : circuit * list R) (idx : nat) : res (circuit * list R) :=
    let '(c, grads) := st in
    match nth_error (c_gate c) idx with
    | None => Err IndexError
    | Some gate =>
        if o_num_params gate =? 0 then Ok (c, grads) else
        do p <- dict_get (c_params c) idx;
        match p with
        | None => Err AttributeError
        | Some (PS x) => do r <- shift_one c idx x; Ok (fst r, grads ++ [snd r])
        | Some (PV l) => do r <- mfold (shift_entry idx) (seq 0 (length l)) (c, l, grads); let '(c', _, grads') := r in Ok (c', grads')
        end
    end.

  (** qcircuit.py:279-316 cal_params_grad *)
  Definition cal_params_grad (c : circuit) : res (list R * circuit) :=
    do r <- mfold shift_gate (seq 0 (length (c_gate c))) (c, []);
    let '(c', grads) := r in
    assert_ (length grads =? c_num c') (Ok (grads, c')).
End Grad.

(** operation_dagger; a layer without one returns python's None *)
Definition o_dagger (o : oper) : res (option oper) :=
  match o with
  | OG g => do g' <- operation_dagger g; Ok (Some (OG g'))
  | OL l => do l' <- layer_dagger l; Ok (match l' with Some l' => Some (OL l') | None => None end)
  end.

Section Grad2.
  Variable svd : tensor -> tensor * tensor * tensor.
  Variable init_state : tensor.
  (** save_dict of qcircuit.py:320-371 *)
  Definition mid := list (nat * list tensor).

  (** qcircuit.py:333-341: the forward loop *)
  Definition forward_step (gate : list oper) (st : list tensor * mid) (idx : nat) : res (list tensor * mid) :=
    let '(MPS, save_dict) := st in
    match nth_error gate idx with
    | None => Err IndexError
    | Some oper =>
        if o_supportTN oper then
          do MPS <- o_TN_operation svd oper MPS;
          Ok (MPS, match nth_error gate (S idx) with
                   | Some next => if o_num_params next =? 0 then save_dict else dict_set save_dict idx MPS
                   | None => save_dict
                   end)
        else Err ValueError
    end.
  (** qcircuit.py:353-364: the backward loop; [nth_error gate (idx - 1)] is read only when idx is not 0 *)
  Definition backward_step (gate : list oper) (st : list tensor * mid) (idx : nat) : res (list tensor * mid) :=
    let '(MPS, save_dict) := st in
    match nth_error gate idx with
    | None => Err IndexError
    | Some g =>
        do d <- o_dagger g;
        match d with
        | None => Err AttributeError
        | Some oper =>
            if o_supportTN oper then
              do MPS <- o_TN_operation svd oper MPS;
              Ok (MPS, if idx =? 0 then save_dict else
                       match nth_error gate (idx - 1) with
                       | Some prev => if o_num_params prev =? 0 then save_dict else dict_set save_dict (2 * length gate - idx - 1) MPS
                       | None => save_dict
                       end)
            else Err ValueError
        end
    end.
  (** qcircuit.py:320-371 save_mid_MPS; M_oper is a gate or layer *)
  Definition save_mid_MPS (c : circuit) (M_oper : oper) : res (mid * tensor) :=
    do MPS <- StateVec2MPS svd init_state (c_N c);
    raise_if (negb (length MPS =? c_N c)) ValueError (
    do st <- mfold (forward_step (c_gate c)) (seq 0 (length (c_gate c))) (MPS, []);
    let '(MPS, save_dict) := st in
    do sv_f <- MPS2StateVec MPS;
    do MPS <- o_TN_operation svd M_oper MPS;
    do last <- py_nth (c_gate c) (Z.of_nat (length (c_gate c)) - 1);
    let save_dict := if o_num_params last =? 0 then save_dict else dict_set save_dict (length (c_gate c) - 1) MPS in
    do st <- mfold (backward_step (c_gate c)) (rev (seq 0 (length (c_gate c)))) (MPS, save_dict);
    Ok (snd st, sv_f)).

  (** qcircuit.py:401-402: [-1.0 * (psi2.conj() @ psi1.view(-1,1)).squeeze().real] *)
  Definition minus_overlap (psi2 psi1 : tensor) : res R :=
    do v <- view psi1 [(-1)%Z; 1%Z];
    do y <- matmul (tconj psi2) v;
    match data y with [z] => Ok (- Re z)%R | _ => Err TorchError end.

  (** qcircuit.py:391-405 and 416-428: one shifted gate against the saved state *)
  Definition overlap_at (init_MPS : list tensor) (save_dict : mid) (c : circuit) (idx : nat) : res R :=
    match nth_error (c_gate c) idx with
    | None => Err IndexError
    | Some gate =>
        do MPS <- (if idx =? 0 then o_TN_operation svd gate init_MPS
                   else do m <- dict_get save_dict (idx - 1); o_TN_operation svd gate m);
        do psi1 <- MPS2StateVec MPS;
        do m2 <- dict_get save_dict (2 * length (c_gate c) - idx - 2);
        do psi2 <- MPS2StateVec m2;
        minus_overlap psi2 psi1
    end.

  (** qcircuit.py:411-434: the body of the loop over the entries of a 1-dimensional parameter *)
  Definition grad2_entry (init_MPS : list tensor) (save_dict : mid) (idx : nat) (st : circuit * list R * list R) (i : nat)
    : res (circuit * list R * list R) :=
    let '(c, p, grads) := st in
    let p1 := padd p i (- PI) in
    do c1 <- update_gate c idx (PV p1);
    do e <- overlap_at init_MPS save_dict c1 idx;
    let p2 := padd p1 i PI in
    do c2 <- update_gate c1 idx (PV p2);
    Ok (c2, p2, grads ++ [e]).

  (** qcircuit.py:380-432: the body of the loop over the gates *)
  Definition grad2_gate (init_MPS : list tensor) (save_dict : mid) (st : circuit * list R) (idx : nat) : res (circuit * list R) :=
    let '(c, grads) := st in
    match nth_error (c_gate c) idx with
    | None => Err IndexError
    | Some gate =>
        if o_num_params gate =? 0 then Ok (c, grads) else
        do p <- dict_get (c_params c) idx;
        match p with
        | None => Err AttributeError
        | Some (PS x) =>
            do c1 <- update_gate c idx (PS (x - PI)%R);
            do e <- overlap_at init_MPS save_dict c1 idx;
            do c2 <- update_gate c1 idx (PS (x - PI + PI)%R);
            Ok (c2, grads ++ [e])
        | Some (PV l) => do r <- mfold (grad2_entry init_MPS save_dict idx) (seq 0 (length l)) (c, l, grads);
                         let '(c', _, grads') := r in Ok (c', grads')
        end
    end.

  (** qcircuit.py:375-436 cal_params_grad2 *)
  Definition cal_params_grad2 (c : circuit) (save_dict : mid) : res (list R * circuit) :=
    do init_MPS <- StateVec2MPS svd init_state (c_N c);
    do r <- mfold (grad2_gate init_MPS save_dict) (seq 0 (length (c_gate c))) (c, []);
    let '(c', grads) := r in
    assert_ (length grads =? c_num c') (Ok (grads, c')).
End Grad2.
