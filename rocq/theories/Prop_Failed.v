(** Property C77: what calls that raise leave behind. *)
From Coq Require Import List ZArith Reals Lra Lia Bool Arith.
From Verif Require Import PyBase Scalar CInst Index Tensor Spec GateSpec LayerSpec MPSSpec CircuitSpec GradSpec QGates GateCalls QLayers QCircuit QGradient GradFacts2 GradFacts3 CircuitFacts1 QFailed FailedFacts FailedProofs.
Import ListNotations.
Local Close Scope R_scope.
Local Open Scope nat_scope.

(** the gradient as a function that keeps the circuit when it raises is the gradient of the other theorems *)
Theorem C77_gradient_is_gradient : forall svd t m c,
  cal_params_grad svd t m c = match f_cal_params_grad svd t m c with (c', Ok g) => Ok (g, c') | (_, Err e) => Err e end.
Proof. exact failed_agrees. Qed.
Print Assumptions C77_gradient_is_gradient.

(** when it raises, for whatever reason, exactly one angle of the circuit is off, by a quarter turn; the recorded angles stay *)
Theorem C77_gradient_raises : forall svd n cs t m c c' e, Forall (ci_ok n) cs -> circuit_of n cs = Ok c -> f_cal_params_grad svd t m c = (c', Err e) ->
  exists k d c2, k < length (cs_angles cs) /\ (d = PI / 2 \/ d = - (PI / 2))%R /\
    circuit_of n (cs_with cs (set_at k (nth k (cs_angles cs) 0 + d)%R (cs_angles cs))) = Ok c2 /\
    c_N c' = n /\ c_gate c' = c_gate c2 /\ c_params c' = c_params c /\ c_num c' = c_num c.
Proof. exact failed_left. Qed.
Print Assumptions C77_gradient_raises.
(** when it returns, the circuit is unchanged *)
Theorem C77_gradient_returns : forall svd n cs t m c c' g, Forall (ci_ok n) cs -> circuit_of n cs = Ok c -> f_cal_params_grad svd t m c = (c', Ok g) ->
  c' = c /\ length g = length (cs_angles cs).
Proof. exact returned_left. Qed.
Print Assumptions C77_gradient_returns.

(** a state or an observable of a wrong shape: ValueError, and the first angle of the first operation with angles is a quarter turn further *)
Theorem C77_bad_arguments : forall svd n pre x post t m c,
  Forall (ci_ok n) (pre ++ x :: post) -> cs_angles pre = [] -> ci_angles x <> [] ->
  (exists a b r, shape t = a :: b :: r /\ (a <> 1 \/ b <> 2 ^ n)) \/ (shape t = [1; 2 ^ n] /\ exists a b r, shape m = a :: b :: r /\ a <> b) ->
  circuit_of n (pre ++ x :: post) = Ok c ->
  exists c' c2, f_cal_params_grad svd t m c = (c', Err ValueError) /\
    circuit_of n (pre ++ ci_with x (set_at 0 (nth 0 (ci_angles x) 0 + PI / 2)%R (ci_angles x)) :: post) = Ok c2 /\
    c_N c' = n /\ c_gate c' = c_gate c2 /\ c_params c' = c_params c /\ c_num c' = c_num c.
Proof. exact bad_arguments_left. Qed.
Print Assumptions C77_bad_arguments.

(** a later call that can run returns, and leaves the circuit as it was built *)
Theorem C77_next_call_repairs : forall svd n cs t m t' psi m' M c c' e, exact_svd svd -> 0 < n -> Forall (ci_ok n) cs ->
  existsb matrix_only cs = true \/ (forallb (ci_TN n) cs = true /\ nonzero n psi) -> is_state n [1; 2 ^ n] t' psi -> is_op n m' M ->
  circuit_of n cs = Ok c -> f_cal_params_grad svd t m c = (c', Err e) ->
  exists g, f_cal_params_grad svd t' m' c' = (c, Ok g) /\ length g = length (cs_angles cs).
Proof. exact failed_repaired. Qed.
Print Assumptions C77_next_call_repairs.

(** a Hadamard gate, a rotation and a u3 on two qubits, with a state of the wrong length *)
Definition C77_ops : list ci := [CG (gi_H 0); CG (gi_rx 1 1); CG (gi_u3 1 2 3 0)].
Example C77_case : Forall (ci_ok 2) C77_ops /\ cs_angles [CG (gi_H 0)] = [] /\ ci_angles (CG (gi_rx 1 1)) <> [] /\
  (exists a b r, shape (zeros [1; 3]) = a :: b :: r /\ (a <> 1 \/ b <> 2 ^ 2)) /\
  (exists c c' svd, circuit_of 2 C77_ops = Ok c /\ f_cal_params_grad svd (zeros [1; 3]) (zeros [4; 4]) c = (c', Err ValueError) /\ c_gate c' <> c_gate c).
Proof.
  assert (G : forall y, Forall (ci_ok 2) [CG (gi_H 0); CG (gi_rx y 1); CG (gi_u3 1 2 3 0)]).
  { intros y. assert (W : forall w, w < 2 -> good_wires 2 [w]) by (intros w Hw; split; [constructor; [intros []|constructor]|intros v [<-|[]]; exact Hw]).
    constructor; [split; [apply W; lia|exact I]|]. constructor; [split; [apply W; lia|exact I]|]. constructor; [split; [apply W; lia|exact I]|constructor]. }
  pose proof (G 1%R) as H. fold C77_ops in H.
  split; [exact H|]. split; [reflexivity|]. split; [discriminate|]. split; [exists 1, 3, []; split; [reflexivity|right; cbn; lia]|].
  exists (circ 2 C77_ops). set (svd := fun u : tensor => (u, u, u)).
  destruct (bad_arguments_left svd 2 [CG (gi_H 0)] (CG (gi_rx 1 1)) [CG (gi_u3 1 2 3 0)] (zeros [1; 3]) (zeros [4; 4]) (circ 2 C77_ops)) as (c' & c2 & E & E2 & _ & E3 & _).
  - exact H.
  - reflexivity.
  - discriminate.
  - left. exists 1, 3, []. split; [reflexivity|right; cbn; lia].
  - now apply circuit_of_ok.
  - exists c', svd. split; [now apply circuit_of_ok|]. split; [exact E|]. rewrite E3, circ_gate.
    change (circuit_of 2 [CG (gi_H 0); CG (gi_rx (1 + PI / 2) 1); CG (gi_u3 1 2 3 0)] = Ok c2) in E2. rewrite circuit_of_ok in E2 by apply G. injection E2 as <-. rewrite circ_gate.
    intros X. pose proof (f_equal (fun l => nth 1 l (oobj 2 (CG (gi_H 0)))) X) as Y. cbn [nth map oobj C77_ops] in Y.
    assert (Z : g_params (GateFacts2.obj 2 (gi_rx (1 + PI / 2) 1)) = g_params (GateFacts2.obj 2 (gi_rx 1 1))) by congruence.
    cbn in Z. assert (V : (1 + PI / 2 = 1)%R) by congruence. pose proof PI_RGT_0. lra.
Qed.

(** params_update of a gate, and of a layer, with what remains of the object: the one of the other theorems *)
Theorem C77_gate_update_is_update : forall g p, params_update g p = match after_update g p with (g', None) => Ok g' | (_, Some e) => Err e end.
Proof. exact after_agrees. Qed.
Print Assumptions C77_gate_update_is_update.
Theorem C77_layer_update_is_update : forall b params,
  basic_params_update b params = match basic_after_update b params with (b', None) => Ok b' | (_, Some e) => Err e end.
Proof. exact basic_agrees. Qed.
Print Assumptions C77_layer_update_is_update.

(** u3 and cu3 with fewer than three angles: IndexError; the matrix is the old one while the angles read are the new ones, so the
    object still acts as before and its inverse cannot be built, until it is given three angles *)
Theorem C77_u3_update_raises : forall n g o l, (exists t p q w, g = gi_u3 t p q w) \/ (exists t p q a b, g = gi_cu3 t p q a b) -> length l < 3 -> build n g = Ok o ->
  exists o', after_update o (PV l) = (o', Some IndexError) /\ g_params o' = Some (PV l) /\
    U_expand o' = U_expand o /\ (forall MPS b, TN_contract o' MPS b = TN_contract o MPS b) /\ (forall svd MPS, TN_operation svd o' MPS = TN_operation svd o MPS) /\
    operation_dagger o' = Err IndexError /\
    forall x y z, after_update o' (PV [x; y; z]) = match build n (gi_with g [x; y; z]) with Ok r => (r, None) | Err e => (o', Some e) end.
Proof. exact u3_left. Qed.
Print Assumptions C77_u3_update_raises.
Example C77_u3_case : exists o, build 2 (gi_cu3 1 2 3 1 0) = Ok o /\ length [1%R; 2%R] < 3.
Proof. eexists. split; [apply GateFacts2.build_ok|cbn; lia]. Qed.

(** BasicEntangleLayer with too few angles: ValueError, and the object cannot be multiplied out until it is given the right number *)
Theorem C77_layer_update_raises : forall n rep ws ps qs b, good_wires n ws -> 2 <= length ws -> 1 <= rep -> length ps = 3 * length ws * rep -> length qs < 3 * length ws * rep ->
  new_basic (Z.of_nat n) (map Z.of_nat ws) ps (Z.of_nat rep) = Ok b ->
  exists b', basic_after_update b qs = (b', Some ValueError) /\ b_params b' = qs /\ basic_U b' = Err IndexError /\
    forall rs, length rs = 3 * length ws * rep -> exists b2, new_basic (Z.of_nat n) (map Z.of_nat ws) rs (Z.of_nat rep) = Ok b2 /\ basic_after_update b' rs = (b2, None).
Proof. exact basic_left. Qed.
Print Assumptions C77_layer_update_raises.
(** with too many angles it does not raise: the extra ones are stored and not used *)
Theorem C77_layer_update_extra : forall n rep ws ps qs b, good_wires n ws -> 2 <= length ws -> 1 <= rep -> length ps = 3 * length ws * rep -> 3 * length ws * rep <= length qs ->
  new_basic (Z.of_nat n) (map Z.of_nat ws) ps (Z.of_nat rep) = Ok b ->
  exists b' b2, basic_after_update b qs = (b', None) /\ b_params b' = qs /\
    new_basic (Z.of_nat n) (map Z.of_nat ws) (firstn (3 * length ws * rep) qs) (Z.of_nat rep) = Ok b2 /\ basic_U b' = basic_U b2.
Proof. exact basic_more. Qed.
Print Assumptions C77_layer_update_extra.
Example C77_layer_case : good_wires 3 [2; 0] /\ 2 <= length [2; 0] /\ length (repeat 1%R 12) = 3 * length [2; 0] * 2 /\
  length (repeat 1%R 8) < 3 * length [2; 0] * 2 /\ 3 * length [2; 0] * 2 <= length (repeat 1%R 13).
Proof.
  split; [split; [constructor; [intros [E|[]]; discriminate|constructor; [intros []|constructor]]|intros w [<-|[<-|[]]]; lia]|]. cbn. lia.
Qed.
