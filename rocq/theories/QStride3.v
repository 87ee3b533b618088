(** The parameter-shift gradient with memory layouts, on top of QStride2.v; [update_gate] and [padd] are those of QGradient.v. *)
From Coq Require Import List ZArith QArith Reals Lia Bool Arith.
From Verif Require Import PyBase Scalar CInst BigSum Index Tensor QTN QOperator QGates QLayers QCircuit QGradient QStride QStride2.
Import ListNotations.
Local Close Scope Q_scope.
Local Open Scope nat_scope.

Section QStride3.
  Variable svd : tensor -> tensor * tensor * tensor.
  Variable svd_lay : stensor -> list nat * list nat * list nat.
  Variable mmT : stensor -> stensor -> bool.
  Variable ein_lay : stensor -> stensor -> list nat.
  Variable lay : tensor -> list nat.
  Variables init_state M : stensor.

  (** qcircuit.py:287-295: one parameter *)
  Definition s_shift_one (c : circuit) (idx : nat) (p : R) : res (circuit * R) :=
    do c1 <- update_gate c idx (PS (p + / 2 * PI)%R);
    do e1 <- s_cir_expectation svd svd_lay mmT ein_lay lay c1 init_state M true;
    do c2 <- update_gate c1 idx (PS (p - / 2 * PI)%R);
    do e2 <- s_cir_expectation svd svd_lay mmT ein_lay lay c2 init_state M true;
    do c3 <- update_gate c2 idx (PS p);
    Ok (c3, (/ 2 * (e1 - e2))%R).

  (** qcircuit.py:297-312: the body of the loop over the entries of a 1-dimensional parameter *)
  Definition s_shift_entry (idx : nat) (st : circuit * list R * list R) (i : nat) : res (circuit * list R * list R) :=
    let '(c, p, grads) := st in
    let p1 := padd p i (/ 2 * PI) in
    do c1 <- update_gate c idx (PV p1);
    do e1 <- s_cir_expectation svd svd_lay mmT ein_lay lay c1 init_state M true;
    let p2 := padd p1 i (- PI) in
    do c2 <- update_gate c1 idx (PV p2);
    do e2 <- s_cir_expectation svd svd_lay mmT ein_lay lay c2 init_state M true;
    let p3 := padd p2 i (/ 2 * PI) in
    do c3 <- update_gate c2 idx (PV p3);
    Ok (c3, p3, grads ++ [(/ 2 * (e1 - e2))%R]).

  (** qcircuit.py:281-314: the body of the loop over the gates *)
  Definition s_shift_gate (st : circuit * list R) (idx : nat) : res (circuit * list R) :=
    let '(c, grads) := st in
    match nth_error (c_gate c) idx with
    | None => Err IndexError
    | Some gate =>
        if o_num_params gate =? 0 then Ok (c, grads) else
        do p <- dict_get (c_params c) idx;
        match p with
        | None => Err AttributeError
        | Some (PS x) => do r <- s_shift_one c idx x; Ok (fst r, grads ++ [snd r])
        | Some (PV l) => do r <- mfold (s_shift_entry idx) (seq 0 (length l)) (c, l, grads); let '(c', _, grads') := r in Ok (c', grads')
        end
    end.

  (** qcircuit.py:279-316 cal_params_grad *)
  Definition s_cal_params_grad (c : circuit) : res (list R * circuit) :=
    do r <- mfold s_shift_gate (seq 0 (length (c_gate c))) (c, []);
    let '(c', grads) := r in
    assert_ (length grads =? c_num c') (Ok (grads, c')).
End QStride3.

(** The gradient from saved states with memory layouts.  [copy.deepcopy] of a tensor keeps its strides. *)
Section QStrideSaved.
  Variable svd : tensor -> tensor * tensor * tensor.
  Variable svd_lay : stensor -> list nat * list nat * list nat.
  Variable mmT : stensor -> stensor -> bool.
  Variable ein_lay : stensor -> stensor -> list nat.
  Variable lay : tensor -> list nat.
  Variable init_state : stensor.
  (** save_dict of qcircuit.py:320-371 *)
  Definition smid := list (nat * list stensor).

  (** qcircuit.py:333-341: the forward loop *)
  Definition s_forward_step (gate : list oper) (st : list stensor * smid) (idx : nat) : res (list stensor * smid) :=
    let '(MPS, save_dict) := st in
    match nth_error gate idx with
    | None => Err IndexError
    | Some oper =>
        if o_supportTN oper then
          do MPS <- s_o_TN_operation svd svd_lay mmT ein_lay lay oper MPS;
          Ok (MPS, match nth_error gate (S idx) with
                   | Some next => if o_num_params next =? 0 then save_dict else dict_set save_dict idx MPS
                   | None => save_dict
                   end)
        else Err ValueError
    end.
  (** qcircuit.py:353-364: the backward loop *)
  Definition s_backward_step (gate : list oper) (st : list stensor * smid) (idx : nat) : res (list stensor * smid) :=
    let '(MPS, save_dict) := st in
    match nth_error gate idx with
    | None => Err IndexError
    | Some g =>
        do d <- o_dagger g;
        match d with
        | None => Err AttributeError
        | Some oper =>
            if o_supportTN oper then
              do MPS <- s_o_TN_operation svd svd_lay mmT ein_lay lay oper MPS;
              Ok (MPS, if idx =? 0 then save_dict else
                       match nth_error gate (idx - 1) with
                       | Some prev => if o_num_params prev =? 0 then save_dict else dict_set save_dict (2 * length gate - idx - 1) MPS
                       | None => save_dict
                       end)
            else Err ValueError
        end
    end.
  (** qcircuit.py:320-371 save_mid_MPS *)
  Definition s_save_mid_MPS (c : circuit) (M_oper : oper) : res (smid * stensor) :=
    do MPS <- s_StateVec2MPS svd svd_lay mmT init_state (c_N c);
    raise_if (negb (length MPS =? c_N c)) ValueError (
    do st <- mfold (s_forward_step (c_gate c)) (seq 0 (length (c_gate c))) (MPS, []);
    let '(MPS, save_dict) := st in
    do sv_f <- s_MPS2StateVec mmT MPS;
    do MPS <- s_o_TN_operation svd svd_lay mmT ein_lay lay M_oper MPS;
    do last <- py_nth (c_gate c) (Z.of_nat (length (c_gate c)) - 1);
    let save_dict := if o_num_params last =? 0 then save_dict else dict_set save_dict (length (c_gate c) - 1) MPS in
    do st <- mfold (s_backward_step (c_gate c)) (rev (seq 0 (length (c_gate c)))) (MPS, save_dict);
    Ok (snd st, sv_f)).

  (** qcircuit.py:401-402: [-1.0 * (psi2.conj() @ psi1.view(-1,1)).squeeze().real] *)
  Definition s_minus_overlap (psi2 psi1 : stensor) : res R :=
    do v <- s_view psi1 [(-1)%Z; 1%Z];
    do y <- s_matmul mmT (s_conj psi2) v;
    match data (val y) with [z] => Ok (- Re z)%R | _ => Err TorchError end.

  (** qcircuit.py:391-405 and 416-428: one shifted gate against the saved state *)
  Definition s_overlap_at (init_MPS : list stensor) (save_dict : smid) (c : circuit) (idx : nat) : res R :=
    match nth_error (c_gate c) idx with
    | None => Err IndexError
    | Some gate =>
        do MPS <- (if idx =? 0 then s_o_TN_operation svd svd_lay mmT ein_lay lay gate init_MPS
                   else do m <- dict_get save_dict (idx - 1); s_o_TN_operation svd svd_lay mmT ein_lay lay gate m);
        do psi1 <- s_MPS2StateVec mmT MPS;
        do m2 <- dict_get save_dict (2 * length (c_gate c) - idx - 2);
        do psi2 <- s_MPS2StateVec mmT m2;
        s_minus_overlap psi2 psi1
    end.

  (** qcircuit.py:411-434: the body of the loop over the entries of a 1-dimensional parameter *)
  Definition s_grad2_entry (init_MPS : list stensor) (save_dict : smid) (idx : nat) (st : circuit * list R * list R) (i : nat)
    : res (circuit * list R * list R) :=
    let '(c, p, grads) := st in
    let p1 := padd p i (- PI) in
    do c1 <- update_gate c idx (PV p1);
    do e <- s_overlap_at init_MPS save_dict c1 idx;
    let p2 := padd p1 i PI in
    do c2 <- update_gate c1 idx (PV p2);
    Ok (c2, p2, grads ++ [e]).

  (** qcircuit.py:380-432: the body of the loop over the gates *)
  Definition s_grad2_gate (init_MPS : list stensor) (save_dict : smid) (st : circuit * list R) (idx : nat) : res (circuit * list R) :=
    let '(c, grads) := st in
    match nth_error (c_gate c) idx with
    | None => Err IndexError
    | Some gate =>
        if o_num_params gate =? 0 then Ok (c, grads) else
        do p <- dict_get (c_params c) idx;
        match p with
        | None => Err AttributeError
        | Some (PS x) =>
            do c1 <- update_gate c idx (PS (x - PI)%R);
            do e <- s_overlap_at init_MPS save_dict c1 idx;
            do c2 <- update_gate c1 idx (PS (x - PI + PI)%R);
            Ok (c2, grads ++ [e])
        | Some (PV l) => do r <- mfold (s_grad2_entry init_MPS save_dict idx) (seq 0 (length l)) (c, l, grads);
                         let '(c', _, grads') := r in Ok (c', grads')
        end
    end.

  (** qcircuit.py:375-436 cal_params_grad2 *)
  Definition s_cal_params_grad2 (c : circuit) (save_dict : smid) : res (list R * circuit) :=
    do init_MPS <- s_StateVec2MPS svd svd_lay mmT init_state (c_N c);
    do r <- mfold (s_grad2_gate init_MPS save_dict) (seq 0 (length (c_gate c))) (c, []);
    let '(c', grads) := r in
    assert_ (length grads =? c_num c') (Ok (grads, c')).
End QStrideSaved.
