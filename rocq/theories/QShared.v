(** Model of deepquantum/gates/qcircuit.py:22-160 and 265-436 with gates and layers as objects: a circuit holds references, so that the
    same object may occur several times in one circuit or in several circuits.  [heap] lists the existing objects, a reference is a
    position in it.  The methods that only read the gates are those of QCircuit.v on the present values of the objects. *)
From Coq Require Import List ZArith QArith Reals Bool Arith.
From Verif Require Import PyBase Scalar CInst BigSum Index Tensor QMath QTN QOperator QGates QLayers QCircuit QGradient.
Import ListNotations.
Local Close Scope Q_scope.
Local Close Scope R_scope.
Local Open Scope nat_scope.

(** the gate and layer objects that circuits refer to (qcircuit.py:26, self.gate) *)
Definition heap := list oper.
(** qcircuit.py:23-28: the attributes of Circuit *)
Record scircuit := mkS { s_N : nat; s_gate : list nat; s_params : list (nat * option pval); s_num : nat }.
(** a reference to no object does not exist in python; the error stands for it *)
Definition at_ref (h : heap) (r : nat) : res oper := match nth_error h r with Some o => Ok o | None => Err UnboundLocalError end.
(** qcircuit.py:23-28 __init__ *)
Definition s_Circuit (N : nat) : scircuit := mkS N [] [] 0.
(** qcircuit.py:43-49 add(gate) *)
Definition s_add (h : heap) (c : scircuit) (r : nat) : res scircuit :=
  do o <- at_ref h r;
  Ok (if o_num_params o =? 0
      then mkS (s_N c) (s_gate c ++ [r]) (dict_set (s_params c) (length (s_gate c)) None) (s_num c)
      else mkS (s_N c) (s_gate c ++ [r]) (dict_set (s_params c) (length (s_gate c)) (o_params o)) (s_num c + o_num_params o)).
(** the circuit with the present values of its objects *)
Definition value (h : heap) (c : scircuit) : res circuit :=
  do os <- mmap (at_ref h) (s_gate c);
  Ok (mkC (s_N c) os (s_params c) (s_num c)).
(** [object.params_update(p)]: every reference to the object sees the change *)
Definition s_update (h : heap) (r : nat) (p : pval) : res heap :=
  do o <- at_ref h r;
  do o' <- o_params_update o p;
  Ok (set_nth r o' h).
(** [self.cir.gate[idx].params_update(p)] *)
Definition s_update_gate (h : heap) (c : scircuit) (idx : nat) (p : pval) : res heap :=
  match nth_error (s_gate c) idx with Some r => s_update h r p | None => Err IndexError end.

Section SGrad.
  Variable svd : tensor -> tensor * tensor * tensor.
  Variables init_state M : tensor.
  Variable c : scircuit.

  (** qcircuit.py:98-115 cir_expectation *)
  Definition s_expectation (h : heap) : res R := do v <- value h c; cir_expectation svd v init_state M true.

  (** qcircuit.py:287-295 *)
  Definition s_shift_one (h : heap) (idx : nat) (p : R) : res (heap * R) :=
    do h1 <- s_update_gate h c idx (PS (p + / 2 * PI)%R);
    do e1 <- s_expectation h1;
    do h2 <- s_update_gate h1 c idx (PS (p - / 2 * PI)%R);
    do e2 <- s_expectation h2;
    do h3 <- s_update_gate h2 c idx (PS p);
    Ok (h3, (/ 2 * (e1 - e2))%R).
  (** qcircuit.py:297-312 *)
  Definition s_shift_entry (idx : nat) (st : heap * list R * list R) (i : nat) : res (heap * list R * list R) :=
    let '(h, p, grads) := st in
    let p1 := padd p i (/ 2 * PI) in
    do h1 <- s_update_gate h c idx (PV p1);
    do e1 <- s_expectation h1;
    let p2 := padd p1 i (- PI) in
    do h2 <- s_update_gate h1 c idx (PV p2);
    do e2 <- s_expectation h2;
    let p3 := padd p2 i (/ 2 * PI) in
    do h3 <- s_update_gate h2 c idx (PV p3);
    Ok (h3, p3, grads ++ [(/ 2 * (e1 - e2))%R]).
  (** qcircuit.py:281-314 *)
  Definition s_shift_gate (st : heap * list R) (idx : nat) : res (heap * list R) :=
    let '(h, grads) := st in
    match nth_error (s_gate c) idx with
    | None => Err IndexError
    | Some r =>
        do gate <- at_ref h r;
        if o_num_params gate =? 0 then Ok (h, grads) else
        do p <- dict_get (s_params c) idx;
        match p with
        | None => Err AttributeError
        | Some (PS x) => do r <- s_shift_one h idx x; Ok (fst r, grads ++ [snd r])
        | Some (PV l) => do r <- mfold (s_shift_entry idx) (seq 0 (length l)) (h, l, grads); let '(h', _, grads') := r in Ok (h', grads')
        end
    end.
  (** qcircuit.py:279-316 cal_params_grad *)
  Definition s_cal_params_grad (h : heap) : res (list R * heap) :=
    do r <- mfold s_shift_gate (seq 0 (length (s_gate c))) (h, []);
    let '(h', grads) := r in
    assert_ (length grads =? s_num c) (Ok (grads, h')).

  (** qcircuit.py:320-371 save_mid_MPS reads the gates only *)
  Definition s_save_mid_MPS (h : heap) (M_oper : oper) : res (mid * tensor) := do v <- value h c; save_mid_MPS svd init_state v M_oper.
  (** qcircuit.py:391-405 and 416-428: [gate.TN_operation] is that of the object as it is now *)
  Definition s_overlap_at (init_MPS : list tensor) (save_dict : mid) (h : heap) (idx : nat) : res R :=
    match nth_error (s_gate c) idx with
    | None => Err IndexError
    | Some r =>
        do gate <- at_ref h r;
        do MPS <- (if idx =? 0 then o_TN_operation svd gate init_MPS
                   else do m <- dict_get save_dict (idx - 1); o_TN_operation svd gate m);
        do psi1 <- MPS2StateVec MPS;
        do m2 <- dict_get save_dict (2 * length (s_gate c) - idx - 2);
        do psi2 <- MPS2StateVec m2;
        minus_overlap psi2 psi1
    end.
  (** qcircuit.py:411-434 *)
  Definition s_grad2_entry (init_MPS : list tensor) (save_dict : mid) (idx : nat) (st : heap * list R * list R) (i : nat) : res (heap * list R * list R) :=
    let '(h, p, grads) := st in
    let p1 := padd p i (- PI) in
    do h1 <- s_update_gate h c idx (PV p1);
    do e <- s_overlap_at init_MPS save_dict h1 idx;
    let p2 := padd p1 i PI in
    do h2 <- s_update_gate h1 c idx (PV p2);
    Ok (h2, p2, grads ++ [e]).
  (** qcircuit.py:380-432 *)
  Definition s_grad2_gate (init_MPS : list tensor) (save_dict : mid) (st : heap * list R) (idx : nat) : res (heap * list R) :=
    let '(h, grads) := st in
    match nth_error (s_gate c) idx with
    | None => Err IndexError
    | Some r =>
        do gate <- at_ref h r;
        if o_num_params gate =? 0 then Ok (h, grads) else
        do p <- dict_get (s_params c) idx;
        match p with
        | None => Err AttributeError
        | Some (PS x) =>
            do h1 <- s_update_gate h c idx (PS (x - PI)%R);
            do e <- s_overlap_at init_MPS save_dict h1 idx;
            do h2 <- s_update_gate h1 c idx (PS (x - PI + PI)%R);
            Ok (h2, grads ++ [e])
        | Some (PV l) => do r <- mfold (s_grad2_entry init_MPS save_dict idx) (seq 0 (length l)) (h, l, grads);
                         let '(h', _, grads') := r in Ok (h', grads')
        end
    end.
  (** qcircuit.py:375-436 cal_params_grad2 *)
  Definition s_cal_params_grad2 (h : heap) (save_dict : mid) : res (list R * heap) :=
    do init_MPS <- StateVec2MPS svd init_state (s_N c);
    do r <- mfold (s_grad2_gate init_MPS save_dict) (seq 0 (length (s_gate c))) (h, []);
    let '(h', grads) := r in
    assert_ (length grads =? s_num c) (Ok (grads, h')).
End SGrad.
