(** Lemmas: the two-qubit rotations and SWAP with any pair of integers as wires. *)
From Coq Require Import List ZArith Reals Lra Lia ZifyBool Bool Arith Ring Setoid Morphisms.
From Verif Require Import PyBase Scalar CInst BigSum Index Tensor TensorFacts Spec SpecFacts QMath QTN QOperator
  ExpandFacts ExpandFacts2 GateSpec QGates GateCalls GateFacts GateFacts2 GateFacts3 GateFacts4 GateFacts5 GateFacts6.
Import ListNotations.
Local Close Scope R_scope.
Local Open Scope nat_scope.

Lemma rpp_U_rejects : forall P c s n a b, 0 < n -> (0 <= a < Z.of_nat n)%Z ->
  (b < 0 \/ Z.of_nat n <= b \/ a = b)%Z -> rpp_U P c s (Z.of_nat n) a b = Err (if Z.of_nat n <=? b then IndexError else ValueError)%Z.
Proof.
  intros P c s n a b Hn Ha H. unfold rpp_U, raise_if. replace (Z.of_nat n <? 1)%Z with false by lia. replace (a <? 0)%Z with false by lia.
  replace (Z.of_nat n - 1 <? a)%Z with false by lia. cbn [orb]. rewrite orb_false_r.
  destruct (b <? 0)%Z eqn:E1; [replace (Z.of_nat n <=? b)%Z with false by lia; reflexivity|].
  destruct (a =? b)%Z eqn:E2; [replace (Z.of_nat n <=? b)%Z with false by lia; reflexivity|]. replace (Z.of_nat n <=? b)%Z with true by lia.
  assert (LE : forall A (x : A), length (repeat x (Z.to_nat (Z.of_nat n))) = n) by (intros; rewrite repeat_length; lia).
  unfold py_set at 1, py_set at 1. unfold eyes at 1. rewrite LE.
  rewrite (proj1 (py_index_wrap n a ltac:(lia))). cbn [bind]. unfold py_set. rewrite set_nth_length. unfold eyes. rewrite LE.
  rewrite py_index_fail by lia. reflexivity.
Qed.
Lemma rotation2_rejects : forall n a b th, 0 < n -> ~ ((0 <= a < Z.of_nat n)%Z /\ (0 <= b < Z.of_nat n)%Z /\ a <> b) ->
  forall k, In k [rxx th (Z.of_nat n) (WList [a; b]); ryy th (Z.of_nat n) (WList [a; b]); rzz th (Z.of_nat n) (WList [a; b])] ->
  exists o, k = Ok o /\ U_expand o = Err (if (0 <=? a) && (a <? Z.of_nat n) && (Z.of_nat n <=? b) then IndexError else ValueError)%Z.
Proof.
  intros n a b th Hn H k Hk.
  assert (X : forall P g, g_N g = Z.of_nat n -> g_wires g = WList [a; b] -> g_params g = Some (PS th) ->
    rpp_U_expand P g = Err (if (0 <=? a) && (a <? Z.of_nat n) && (Z.of_nat n <=? b) then IndexError else ValueError)%Z).
  { intros P g E1 E2 E3. unfold rpp_U_expand, raise_if. rewrite E1, E2. unfold unset. cbn [wires_unset]. replace (Z.of_nat n =? -1)%Z with false by lia. cbn [orb].
    replace (Z.of_nat n <? 1)%Z with false by lia. change (wire_at (WList [a; b]) 0) with (Ok a). change (wire_at (WList [a; b]) 1) with (Ok b). cbn [bind].
    destruct ((a <? 0)%Z || (Z.of_nat n - 1 <? a)%Z) eqn:E. { replace ((0 <=? a)%Z && (a <? Z.of_nat n)%Z) with false by lia. reflexivity. }
    unfold p_scalar. rewrite E3. cbn [bind]. rewrite rpp_U_rejects by lia. replace ((0 <=? a)%Z && (a <? Z.of_nat n)%Z) with true by lia. reflexivity. }
  destruct Hk as [<-|[<-|[<-|[]]]]; [unfold rxx|unfold ryy|unfold rzz].
  - destruct (rot_m (kron PauliX_m PauliX_m) 4 th) as [m|e] eqn:E; [|discriminate E]. cbn [bind]. eexists. split; [reflexivity|]. unfold U_expand. cbn [g_cls]. now apply X.
  - destruct (rot_m (kron PauliY_m PauliY_m) 4 th) as [m|e] eqn:E; [|discriminate E]. cbn [bind]. eexists. split; [reflexivity|]. unfold U_expand. cbn [g_cls]. now apply X.
  - destruct (rot_m (kron PauliZ_m PauliZ_m) 4 th) as [m|e] eqn:E; [|discriminate E]. cbn [bind]. eexists. split; [reflexivity|]. unfold U_expand. cbn [g_cls]. now apply X.
Qed.

Lemma swap_signed : forall n a b, (- Z.of_nat n <= a < Z.of_nat n)%Z -> (- Z.of_nat n <= b < Z.of_nat n)%Z -> (a mod Z.of_nat n <> b mod Z.of_nat n)%Z ->
  exists o u, SWAP (Z.of_nat n) (WList [a; b]) = Ok o /\ U_expand o = Ok u /\ is_op n u (swap_op (Z.to_nat (a mod Z.of_nat n)) (Z.to_nat (b mod Z.of_nat n))).
Proof.
  intros n a b Ha Hb H. pose proof (Z.mod_pos_bound a (Z.of_nat n) ltac:(lia)) as Ba. pose proof (Z.mod_pos_bound b (Z.of_nat n) ltac:(lia)) as Bb.
  eexists. eexists. split; [reflexivity|]. split; [|apply is_op_tensor]. unfold U_expand, raise_if. cbn [g_cls g_N g_wires]. unfold unset. cbn [wires_unset].
  replace (Z.of_nat n =? -1)%Z with false by lia. cbn [orb]. change (wire_at (WList [a; b]) 0) with (Ok a). change (wire_at (WList [a; b]) 1) with (Ok b). cbn [bind].
  rewrite swap_U_wrap by lia. rewrite <- (Z2Nat.id (a mod Z.of_nat n)) at 1 by lia. rewrite <- (Z2Nat.id (b mod Z.of_nat n)) at 1 by lia. apply swap_U_ok; lia.
Qed.
Lemma swap_rejects : forall n a b, ~ ((- Z.of_nat n <= a < Z.of_nat n)%Z /\ (- Z.of_nat n <= b < Z.of_nat n)%Z) ->
  exists o, SWAP (Z.of_nat n) (WList [a; b]) = Ok o /\ U_expand o = Err IndexError.
Proof.
  intros n a b H. eexists. split; [reflexivity|]. unfold U_expand, raise_if. cbn [g_cls g_N g_wires]. unfold unset. cbn [wires_unset].
  replace (Z.of_nat n =? -1)%Z with false by lia. cbn [orb]. change (wire_at (WList [a; b]) 0) with (Ok a). change (wire_at (WList [a; b]) 1) with (Ok b). cbn [bind].
  assert (LE : forall A (x : A), length (repeat x (Z.to_nat (Z.of_nat n))) = n) by (intros; rewrite repeat_length; lia).
  unfold swap_U, py_set at 1, py_set at 1. unfold eyes at 1. rewrite LE.
  destruct (Z_le_dec (- Z.of_nat n) a) as [H1|H1]; [destruct (Z_lt_dec a (Z.of_nat n)) as [H2|H2]|]; [|now rewrite py_index_fail by lia|now rewrite py_index_fail by lia].
  rewrite (proj1 (py_index_wrap n a (conj H1 H2))). cbn [bind]. unfold py_set. rewrite set_nth_length. unfold eyes. rewrite LE. rewrite py_index_fail by lia. reflexivity.
Qed.
