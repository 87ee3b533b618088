(** Gate objects: contraction, unitarity, inverse, parameter update, commutation. *)
From Coq Require Import List ZArith Reals Lra Lia Bool Arith Ring Morphisms.
From Verif Require Import PyBase Scalar CInst BigSum Index Tensor TensorFacts Spec SpecFacts QMath QTN QOperator
  ExpandFacts ExpandFacts2 ContractFacts ContractFacts2 GateSpec QGates GateCalls GateFacts GateFacts2.
Import ListNotations.


Lemma TN_contract_obj : forall n g f, gi_ok n g -> is_mcx g = false ->
  TN_contract (obj n g) (tbuild (repeat 2 n) f) false = Ok (tbuild (repeat 2 n) (apply_on (gi_loc g) (gi_wires g) f)).
Proof.
  intros n g f [W X] M.
  destruct g; try discriminate M; unfold obj; cbn [gi_cls gi_pywires gi_wires gi_params length gi_loc] in *; unfold TN_contract;
    cbn [g_cls g_N g_wires g_matrix g_umatrix];
    try (apply gw1 in W; now apply single_contract);
    try (apply gw2 in W; destruct W as (Wa & Wb & Wn); try now apply double_contract).
  - unfold zl; cbn [map]. rewrite swap_contract by assumption. f_equal. apply tbuild_st_ext.
    pose proof (good_wires_2 n a b Wa Wb Wn) as W.
    transitivity (act n (lift (swap_op 0 1) [a; b]) f); [|now apply act_lift].
    rewrite <- swap_lift by assumption. symmetry. now apply act_swap.
  - apply gw3 in W. destruct W as (Wa & Wb & Wc & Wab & Wac & Wbc). now apply triple_contract.
Qed.

Lemma TN_contract_obj_act : forall n g f, gi_ok n g -> is_mcx g = false ->
  TN_contract (obj n g) (tbuild (repeat 2 n) f) false = Ok (tbuild (repeat 2 n) (act n (gi_op n g) f)).
Proof.
  intros n g f W M. rewrite TN_contract_obj by assumption. f_equal. apply tbuild_st_ext.
  rewrite (gi_op_lift n g W). symmetry. apply act_lift. apply W.
Qed.

Lemma TN_contract_obj_batch : forall B n g F, gi_ok n g -> is_mcx g = false ->
  TN_contract (obj n g) (tbuild (B :: repeat 2 n) F) true
  = Ok (tbuild (B :: repeat 2 n) (batched (apply_on (gi_loc g) (gi_wires g)) F)).
Proof.
  intros B n g F [W X] M.
  destruct g; try discriminate M; unfold obj; cbn [gi_cls gi_pywires gi_wires gi_params length gi_loc] in *; unfold TN_contract;
    cbn [g_cls g_N g_wires g_matrix g_umatrix];
    try (apply gw1 in W; now apply single_contract_batch);
    try (apply gw2 in W; destruct W as (Wa & Wb & Wn); try now apply double_contract_batch).
  - unfold zl; cbn [map]. rewrite swap_contract_batch by assumption. f_equal.
    pose proof (good_wires_2 n a b Wa Wb Wn) as W.
    apply tbuild_ext. intros idx Hi. unfold batched.
    destruct idx as [|i idx]; [inversion Hi|].
    cbn [hd tl].
    assert (Hb : In idx (bits n)).
    { apply valid_cons in Hi. rewrite bits_all_idx. apply in_all_idx, Hi. }
    transitivity (act n (lift (swap_op 0 1) [a; b]) (fun b0 => F (i :: b0)) idx).
    + transitivity (act n (swap_op a b) (fun b0 => F (i :: b0)) idx).
      * symmetry. now apply (act_swap n a b (fun b0 => F (i :: b0))).
      * apply act_proper; [now apply swap_lift|reflexivity|exact Hb].
    + now apply act_lift.
  - apply gw3 in W. destruct W as (Wa & Wb & Wc & Wab & Wac & Wbc). now apply triple_contract_batch.
Qed.

Lemma batched_ext : forall B n h k F, (forall f, st_eq n (h f) (k f)) ->
  tbuild (B :: repeat 2 n) (batched h F) = tbuild (B :: repeat 2 n) (batched k F).
Proof.
  intros B n h k F E. apply tbuild_ext. intros idx Hi. destruct idx as [|i idx]; [inversion Hi|].
  unfold batched. cbn [hd tl]. apply E. apply valid_cons in Hi. rewrite bits_all_idx. apply in_all_idx, Hi.
Qed.

Lemma TN_contract_obj_batch_act : forall B n g F, gi_ok n g -> is_mcx g = false ->
  TN_contract (obj n g) (tbuild (B :: repeat 2 n) F) true
  = Ok (tbuild (B :: repeat 2 n) (batched (act n (gi_op n g)) F)).
Proof.
  intros B n g F W M. rewrite TN_contract_obj_batch by assumption. f_equal. apply batched_ext.
  intros f. rewrite (gi_op_lift n g W). symmetry. apply act_lift. apply W.
Qed.

