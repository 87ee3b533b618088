(** Lemmas: HLayer on a negative wire, with a batch. *)
From Coq Require Import List ZArith QArith Reals Lra Lia ZifyBool Bool Arith Ring Setoid Morphisms Permutation.
From Verif Require Import PyBase Scalar CInst BigSum Index Tensor TensorFacts Spec SpecFacts QMath QTN QOperator
  ExpandFacts ExpandFacts2 ContractFacts ContractFacts2 GateSpec QGates GateCalls GateFacts GateFacts2 GateFacts3 GateFacts4 GateFacts6 RunSpec
  MPSSpec LayerSpec QLayers LayerCalls LayerFacts1 LayerAnySpec LayerAnyCalls LayerAny LayerAny2 GateProofs.
Import ListNotations.
Local Close Scope Q_scope.
Local Close Scope R_scope.
Local Open Scope nat_scope.

Lemma last_single : forall w G, last_gate [w] [G] w = G.
Proof. intros. unfold last_gate. cbn [combine fold_left fst snd]. now rewrite Nat.eqb_refl. Qed.
Lemma each_single : forall n w G, w < n -> op_eq n (each_qubit n (last_gate [w] [G])) (lift G [w]).
Proof.
  intros n w G H. rewrite <- each_prod. apply prod_of_1; [exact H|]. intros i _. unfold last_gate. cbn [combine fold_left fst snd]. rewrite Nat.eqb_sym. reflexivity.
Qed.
Lemma obs_single : forall n w G, op_eq n (obs_op n [w] [G]) (lift G [w]).
Proof. intros. unfold obs_op. cbn [combine fold_left fst snd]. apply mul_op_id_r. Qed.

Lemma H_minus_two : forall n, 2 <= n -> exists o u, sg_build n sg_H [-2]%Z = Ok o /\ layer_U o = Ok u /\ is_op n u (lift H_op [n - 2]) /\
  forall B t, shape t = B :: repeat 2 n -> wf t -> exists t', layer_TN_contract o t true = Ok t' /\ shape t' = B :: repeat 2 n /\
    forall i r, i < B -> In r (bits n) -> tget t' (i :: r) = act n (lift H_op [n - 1]) (fun b => tget t (i :: b)) r.
Proof.
  intros n Hn. assert (HI : forall z, In z [-2]%Z -> in_register n z). { intros z [<-|[]]. unfold in_register. lia. }
  assert (Q : qubit n (-2) = n - 2). { pose proof (qubit_val n (-2) (HI _ (or_introl eq_refl))) as V. change (-2 <? 0)%Z with true in V. cbn iota in V. lia. }
  assert (D : batch_dim n (-2) = n). { pose proof (batch_dim_val n (-2) (HI _ (or_introl eq_refl))) as V. change (-2 + 1 <? 0)%Z with true in V. cbn iota in V. lia. }
  destruct (layer_any_wires n sg_H [-2]%Z I ltac:(cbn; lia) ltac:(lia) HI) as (o & u & E1 & E2 & M & _).
  exists o, u. split; [exact E1|]. split; [exact E2|]. cbn [map length] in M. change (sg_gates sg_H 1) with [H_op] in M. rewrite Q in M. split.
  { destruct M as (M1 & M2 & M3). split; [exact M1|]. split; [exact M2|]. rewrite M3. apply each_single. lia. }
  intros B t S F. destruct (layer_any_batch n sg_H [-2]%Z I ltac:(cbn; lia) ltac:(lia) HI B t) as (o' & t' & E3 & E4 & S' & _ & X); [intros [H|[]]; discriminate|exact S|exact F|].
  assert (o' = o) by congruence. subst o'. exists t'. split; [exact E4|]. split; [exact S'|]. intros i r Hi Hr. rewrite (X i r Hi Hr). cbn [map length]. change (sg_gates sg_H 1) with [H_op]. rewrite Q, D, last_single.
  replace (pred n) with (n - 1) by lia. apply act_proper; [apply obs_single|reflexivity|exact Hr].
Qed.
Lemma H_minus_one : forall n t, 1 <= n -> shape t = 2 :: repeat 2 n -> wf t -> exists o u t', sg_build n sg_H [-1]%Z = Ok o /\ layer_U o = Ok u /\ is_op n u (lift H_op [n - 1]) /\
  layer_TN_contract o t true = Ok t' /\ shape t' = 2 :: repeat 2 n /\ wf t' /\
  forall r, In r (bits n) -> tget t' (0 :: r) = Cmul rh (Cadd (tget t (0 :: r)) (tget t (1 :: r))) /\ tget t' (1 :: r) = Cmul rh (Csub (tget t (0 :: r)) (tget t (1 :: r))).
Proof.
  intros n t Hn S F. assert (HI : forall z, In z [-1]%Z -> in_register n z). { intros z [<-|[]]. unfold in_register. lia. }
  assert (Q : qubit n (-1) = n - 1). { pose proof (qubit_val n (-1) (HI _ (or_introl eq_refl))) as V. change (-1 <? 0)%Z with true in V. cbn iota in V. lia. }
  assert (D : batch_dim n (-1) = 0). { unfold batch_dim. reflexivity. }
  destruct (layer_any_wires n sg_H [-1]%Z I ltac:(cbn; lia) ltac:(lia) HI) as (o & u & E1 & E2 & M & _).
  destruct (layer_any_batch_two n sg_H [-1]%Z I ltac:(cbn; lia) ltac:(lia) HI t S F) as (o' & t' & E3 & E4 & S' & L' & X).
  assert (o' = o) by congruence. subst o'. cbn [map length] in M, X. change (sg_gates sg_H 1) with [H_op] in M, X. rewrite Q in M, X. rewrite D, last_single in X.
  exists o, u, t'. split; [exact E1|]. split; [exact E2|]. split.
  { destruct M as (M1 & M2 & M3). split; [exact M1|]. split; [exact M2|]. rewrite M3. apply each_single. lia. }
  split; [exact E4|]. split; [exact S'|]. split. { unfold wf. rewrite L', S'. change (2 :: repeat 2 n) with (repeat 2 (Datatypes.S n)). now rewrite prodn_repeat. }
  assert (Y : forall x r, x < 2 -> In r (bits n) -> tget t' (x :: r) = kadd (kmul (H_op [x] [0]) (tget t (0 :: r))) (kmul (H_op [x] [1]) (tget t (1 :: r)))).
  { intros x r Hx Hr. assert (B : forall y, y < 2 -> In (y :: r) (bits (Datatypes.S n))) by (intros; apply bits_cons; auto).
    rewrite <- (amp_tget (Datatypes.S n) t' S' (x :: r)) by (now apply B). rewrite (X (x :: r)) by (now apply B).
    rewrite (act_proper (Datatypes.S n) _ _ (obs_single (Datatypes.S n) 0 H_op) _ _ (fun b _ => eq_refl) (x :: r)) by (now apply B).
    rewrite (act_lift (Datatypes.S n) H_op [0] (amp t) (good_wires_1 (Datatypes.S n) 0 ltac:(lia)) (x :: r)) by (now apply B).
    unfold apply_on. cbn [length]. rewrite bigsum_bits_1. rewrite <- !(amp_tget (Datatypes.S n) t S) by (apply B; lia).
    reflexivity. }
  intros r Hr. rewrite !Y by (auto; lia). split; unfold H_op, op2, rh; cbn [k0 kadd kmul C_scalar]; generalize (tget t (0 :: r)) (tget t (1 :: r)) (/ sqrt 2)%R; intros a b c; destruct a, b; apply C_eq; cbn; ring.
Qed.
