(** Model of what calls that raise leave behind: parameter_shift.cal_params_grad (deepquantum/gates/qcircuit.py:279-316) and the
    params_update methods (deepquantum/gates/qoperator.py, deepquantum/layers/qlayers.py), as functions returning the object
    after the call together with the value or exception. *)
From Coq Require Import List ZArith Reals Bool Arith.
From Verif Require Import PyBase Scalar CInst Index Tensor QMath QTN QOperator QGates QLayers QCircuit QGradient.
Import ListNotations.
Local Close Scope R_scope.
Local Open Scope nat_scope.

(** a statement acting on the circuit: the circuit afterwards, and the value or the exception *)
Definition stm (A : Type) := circuit -> circuit * res A.
(** not in the code: a statement that leaves the circuit as it is *)
Definition sret {A} (a : A) : stm A := fun c => (c, Ok a).
(** not in the code: one statement after another; an exception skips the second *)
Definition sbind {A B} (s : stm A) (f : A -> stm B) : stm B :=
  fun c => let (c1, r) := s c in match r with Ok a => f a c1 | Err e => (c1, Err e) end.
(** not in the code: a [for] loop of statements (used for the loops of qcircuit.py:279-316) *)
Fixpoint sfold {A B} (f : B -> A -> stm B) (l : list A) (b : B) : stm B :=
  match l with [] => sret b | a :: l' => sbind (f b a) (fun b' => sfold f l' b') end.

Section FGrad.
  Variable svd : tensor -> tensor * tensor * tensor.
  Variables init_state M : tensor.
  (** [self.cir.gate[idx].params_update(p)].  A params_update that raises is modelled here as changing nothing; with the angles that
      the circuit recorded it does not raise.  What it does otherwise is in [after_update] and [basic_after_update] below. *)
  Definition f_update (idx : nat) (p : pval) : stm unit := fun c => match update_gate c idx p with Ok c' => (c', Ok tt) | Err e => (c, Err e) end.
  (** [self.cir.cir_expectation(self.init_state, self.M)] *)
  Definition f_expect : stm R := fun c => (c, cir_expectation svd c init_state M true).
  (** qcircuit.py:287-295 *)
  Definition f_shift_one (idx : nat) (p : R) : stm R :=
    sbind (f_update idx (PS (p + / 2 * PI)%R)) (fun _ =>
    sbind f_expect (fun e1 =>
    sbind (f_update idx (PS (p - / 2 * PI)%R)) (fun _ =>
    sbind f_expect (fun e2 =>
    sbind (f_update idx (PS p)) (fun _ =>
    sret (/ 2 * (e1 - e2))%R))))).
  (** qcircuit.py:297-312 *)
  Definition f_shift_entry (idx : nat) (pg : list R * list R) (i : nat) : stm (list R * list R) :=
    let (p, grads) := pg in
    let p1 := padd p i (/ 2 * PI) in
    sbind (f_update idx (PV p1)) (fun _ =>
    sbind f_expect (fun e1 =>
    let p2 := padd p1 i (- PI) in
    sbind (f_update idx (PV p2)) (fun _ =>
    sbind f_expect (fun e2 =>
    let p3 := padd p2 i (/ 2 * PI) in
    sbind (f_update idx (PV p3)) (fun _ =>
    sret (p3, grads ++ [(/ 2 * (e1 - e2))%R])))))).
  (** qcircuit.py:281-314 *)
  Definition f_shift_gate (grads : list R) (idx : nat) : stm (list R) := fun c =>
    match nth_error (c_gate c) idx with
    | None => (c, Err IndexError)
    | Some gate =>
        if o_num_params gate =? 0 then (c, Ok grads) else
        match dict_get (c_params c) idx with
        | Err e => (c, Err e)
        | Ok None => (c, Err AttributeError)
        | Ok (Some (PS x)) => sbind (f_shift_one idx x) (fun g => sret (grads ++ [g])) c
        | Ok (Some (PV l)) => sbind (sfold (f_shift_entry idx) (seq 0 (length l)) (l, grads)) (fun pg => sret (snd pg)) c
        end
    end.
  (** qcircuit.py:279-316 cal_params_grad *)
  Definition f_cal_params_grad : stm (list R) := fun c =>
    sbind (sfold f_shift_gate (seq 0 (length (c_gate c))) []) (fun grads c' => (c', assert_ (length grads =? c_num c') (Ok grads))) c.
End FGrad.

(** params_update of a gate, qoperator.py:371-374 (rx, and ry, rz, rxx, ryy, rzz alike), 584-598 (u3), 1684-1698 (cu3): the angles are
    stored before the matrices are computed, which raises when they are too few or not a number.  u1 and cphase (524-529, 1526-1533)
    compute first; the other gates do nothing. *)
Definition after_update (g : gate) (p : pval) : gate * option exn :=
  match params_update g p with
  | Ok g' => (g', None)
  | Err e => (match g_cls g with cu1 | ccphase => g | _ => with_params g p (g_matrix g) (g_umatrix g) end, Some e)
  end.

(** qlayers.py:1018-1021: the parts made before an exception *)
Fixpoint parts_made (N : Z) (wires : list Z) (params : list R) (is : list nat) (ps : list slayer * list ring) : (list slayer * list ring) * option exn :=
  match is with
  | [] => (ps, None)
  | i :: is' =>
      let L := 3 * length wires in
      match new_slayer YZYLayer N wires (pslice params (i * L) ((i + 1) * L)) with
      | Err e => (ps, Some e)
      | Ok y => match new_ring N wires with
                | Err e => ((fst ps ++ [y], snd ps), Some e)
                | Ok c => parts_made N wires params is' (fst ps ++ [y], snd ps ++ [c])
                end
      end
  end.
(** qlayers.py:1014-1021 BasicEntangleLayer.params_update *)
Definition basic_after_update (b : basic) (params : list R) : basic * option exn :=
  let (ps, e) := parts_made (b_N b) (b_wires b) params (seq 0 (Z.to_nat (b_repeat b))) ([], []) in
  (mkB (b_N b) (b_wires b) params (b_repeat b) (fst ps) (snd ps), e).
