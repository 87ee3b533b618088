(** Model of what parameter_shift.cal_params_grad2 (deepquantum/gates/qcircuit.py:375-436) leaves behind when it raises: the circuit
    after the call together with the value or exception. *)
From Coq Require Import List ZArith Reals Bool Arith.
From Verif Require Import PyBase Scalar CInst Index Tensor QMath QTN QOperator QGates QLayers QCircuit QGradient QFailed.
Import ListNotations.
Local Close Scope R_scope.
Local Open Scope nat_scope.

Section FGrad2.
  Variable svd : tensor -> tensor * tensor * tensor.
  Variables (init_MPS : list tensor) (save_dict : mid).
  (** qcircuit.py:392-402 and 416-425: reads the circuit only *)
  Definition f_overlap (idx : nat) : stm R := fun c => (c, overlap_at svd init_MPS save_dict c idx).
  (** qcircuit.py:387-407 *)
  Definition f_grad2_one (idx : nat) (p : R) : stm R :=
    sbind (f_update idx (PS (p - PI)%R)) (fun _ =>
    sbind (f_overlap idx) (fun e =>
    sbind (f_update idx (PS (p - PI + PI)%R)) (fun _ =>
    sret e))).
  (** qcircuit.py:411-431 *)
  Definition f_grad2_entry (idx : nat) (pg : list R * list R) (i : nat) : stm (list R * list R) :=
    let (p, grads) := pg in
    let p1 := padd p i (- PI) in
    sbind (f_update idx (PV p1)) (fun _ =>
    sbind (f_overlap idx) (fun e =>
    let p2 := padd p1 i PI in
    sbind (f_update idx (PV p2)) (fun _ =>
    sret (p2, grads ++ [e])))).
  (** qcircuit.py:380-433 *)
  Definition f_grad2_gate (grads : list R) (idx : nat) : stm (list R) := fun c =>
    match nth_error (c_gate c) idx with
    | None => (c, Err IndexError)
    | Some gate =>
        if o_num_params gate =? 0 then (c, Ok grads) else
        match dict_get (c_params c) idx with
        | Err e => (c, Err e)
        | Ok None => (c, Err AttributeError)
        | Ok (Some (PS x)) => sbind (f_grad2_one idx x) (fun g => sret (grads ++ [g])) c
        | Ok (Some (PV l)) => sbind (sfold (f_grad2_entry idx) (seq 0 (length l)) (l, grads)) (fun pg => sret (snd pg)) c
        end
    end.
End FGrad2.
(** qcircuit.py:375-436 cal_params_grad2 *)
Definition f_cal_params_grad2 (svd : tensor -> tensor * tensor * tensor) (init_state : tensor) (save_dict : mid) : stm (list R) := fun c =>
  match StateVec2MPS svd init_state (c_N c) with
  | Err e => (c, Err e)
  | Ok init_MPS =>
      sbind (sfold (f_grad2_gate svd init_MPS save_dict) (seq 0 (length (c_gate c))) [])
        (fun grads c' => (c', assert_ (length grads =? c_num c') (Ok grads))) c
  end.
