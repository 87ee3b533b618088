(** Lemmas: exchange ladders and gates over any relation kept by the one-, two- and three-site steps. *)
From Coq Require Import List ZArith QArith Reals Lra Lia ZifyBool Bool Arith Qreals Permutation Morphisms.
From Verif Require Import PyBase Scalar CInst BigSum Index Tensor TensorFacts Spec SpecFacts QMath QTN QOperator
  ExpandFacts ExpandFacts2 ContractFacts ContractFacts2 GateSpec QGates GateCalls GateFacts GateFacts2 GateFacts4 RunSpec TruncRunSpec LayerFacts1
  MPSSpec MPSFacts1 MPSFacts2 MPSFacts3 MPSFacts4 MPSFacts5 MPSFacts6 MPSFacts9.
Import ListNotations.
Local Close Scope Q_scope.
Local Open Scope nat_scope.

Section Abs.
  Context {SC : Scalar}.
  Add Ring KR : k_ring.
  Local Open Scope k_scope.

  Variable svd : tensor -> tensor * tensor * tensor.
  Variables n T : nat.
  Variable Rel : nat -> list tensor -> qstate -> Prop.
  Hypothesis Rel_st : forall t l f g, Rel t l f -> st_eq n f g -> Rel t l g.
  Hypothesis Rel_weak : forall t t' l f, (t <= t')%nat -> (t' <= T)%nat -> Rel t l f -> Rel t' l f.
  Hypothesis Rel_one : forall t A l psi i, unitary 1 A -> (t <= T)%nat -> Rel t l psi -> (i < n)%nat ->
    exists s s', py_nth l (Z.of_nat i) = Ok s /\ einsum_ab_bcd (op_tensor 1 A) s = Ok s' /\
      exists l', py_set l (Z.of_nat i) s' = Ok l' /\ Rel t l' (apply_on A [i] psi).
  Hypothesis Rel_two : forall t A l psi i, unitary 2 A -> (S t <= T)%nat -> Rel t l psi -> (S i < n)%nat ->
    exists l', two_site svd (op_tensor 2 A) l (Z.of_nat i) (Z.of_nat (S i)) = Ok l' /\ Rel (S t) l' (apply_on A [i; S i] psi).
  Hypothesis Rel_three : forall t A l psi i, unitary 3 A -> (S t <= T)%nat -> Rel t l psi -> (S (S i) < n)%nat ->
    exists l', three_site svd (Ok (op_tensor 3 A)) l (Z.of_nat (S i)) = Ok l' /\ Rel (S t) l' (apply_on A [i; S i; S (S i)] psi).

  Lemma adj_swap_rel : forall t l psi i, Rel t l psi -> (S t <= T)%nat -> (S i < n)%nat ->
    exists l', two_site svd swap_matrix l (Z.of_nat i) (Z.of_nat (S i)) = Ok l' /\ Rel (S t) l' (ps n (tr i (S i)) psi).
  Proof.
    intros t l psi i H Ht Hi. rewrite mat4_swap.
    destruct (Rel_two t (swap_op 0 1) l psi i (swap_unitary_op 2 0 1 ltac:(lia) ltac:(lia)) Ht H Hi) as (l' & E & HM).
    exists l'. split; auto. eapply Rel_st; [exact HM|]. now apply adj_swap_state.
  Qed.

  Section Ladder.
    Variable step : list tensor -> Z -> Z -> res (list tensor).
    Hypothesis Hstep : forall t l psi i, Rel t l psi -> (S t <= T)%nat -> (S i < n)%nat ->
      exists l', step l (Z.of_nat i) (Z.of_nat (S i)) = Ok l' /\ Rel (S t) l' (ps n (tr i (S i)) psi).

    Lemma ladder_down_rel : forall k t up l psi, Rel t l psi -> (t + k <= T)%nat -> (up + k < n)%nat ->
      exists l', mfold (fun MPS i => step MPS i (i + 1)%Z) (zrange2 (Z.of_nat up) (Z.of_nat (up + k))) l = Ok l' /\
        Rel (t + k) l' (ps n (ld up (up + k)) psi).
    Proof.
      intros k t up l psi H Ht Hk. unfold zrange2. replace (Z.to_nat (Z.of_nat (up + k) - Z.of_nat up)) with k by lia.
      rewrite mfold_map. induction k as [|k IH].
      - cbn [seq mfold]. exists l. split; auto. rewrite Nat.add_0_r.
        assert (E : st_eq n psi (ps n (ld up (up + 0)) psi)) by (apply st_sym, ps_id; intros j Hj; unfold ld; dif).
        eapply Rel_st; eauto.
      - destruct IH as (l1 & E & HM); [lia|lia|]. rewrite seq_S, mfold_app, E. cbn [bind mfold Nat.add].
        destruct (Hstep _ l1 _ (up + k) HM ltac:(lia) ltac:(lia)) as (l2 & E2 & HM2).
        replace (Z.of_nat up + Z.of_nat k + 1)%Z with (Z.of_nat (S (up + k))) by lia.
        replace (Z.of_nat up + Z.of_nat k)%Z with (Z.of_nat (up + k)) by lia. rewrite E2. cbn [bind]. exists l2. split; auto.
        replace (t + S k)%nat with (S (t + k)) by lia. eapply Rel_st; [exact HM2|].
        eapply st_trans; [apply ps_ps, ld_maps; lia|]. apply ps_ext. intros j Hj. unfold tr, ld. dif.
    Qed.

    Lemma ladder_up_rel : forall k t up l psi, Rel t l psi -> (t + k <= T)%nat -> (up + k < n)%nat ->
      exists l', mfold (fun MPS i => step MPS (i - 1)%Z i) (zrange_down (Z.of_nat (up + k)) (Z.of_nat up)) l = Ok l' /\
        Rel (t + k) l' (ps n (lu (up + k) up) psi).
    Proof.
      intros k t up. unfold zrange_down. replace (Z.to_nat (Z.of_nat (up + k) - Z.of_nat up)) with k by lia.
      revert t. induction k as [|k IH]; intros t l psi H Ht Hk.
      - cbn [seq mfold map]. exists l. split; auto. rewrite Nat.add_0_r.
        assert (E : st_eq n psi (ps n (lu (up + 0) up) psi)) by (apply st_sym, ps_id; intros j Hj; unfold lu; dif).
        eapply Rel_st; eauto.
      - cbn [seq map mfold].
        destruct (Hstep t l _ (up + k) H ltac:(lia) ltac:(lia)) as (l2 & E2 & HM2).
        replace (Z.of_nat (up + S k) - Z.of_nat 0)%Z with (Z.of_nat (S (up + k))) by lia.
        replace (Z.of_nat (S (up + k)) - 1)%Z with (Z.of_nat (up + k)) by lia. rewrite E2. cbn [bind].
        rewrite <- seq_shift, map_map.
        rewrite (map_ext _ (fun k0 => (Z.of_nat (up + k) - Z.of_nat k0)%Z)) by (intros; lia).
        destruct (IH _ l2 _ HM2) as (l3 & E3 & HM3); [lia|lia|]. exists l3. split; auto.
        replace (t + S k)%nat with (S t + k)%nat by lia. eapply Rel_st; [exact HM3|].
        eapply st_trans; [apply ps_ps, tr_maps; lia|]. apply ps_ext. intros j Hj. unfold tr, lu. dif.
    Qed.
  End Ladder.

  (** ** SWAP *)
  Lemma swap_core_rel : forall t l psi up d, Rel t l psi -> (up < d)%nat -> (d < n)%nat -> (t + (2 * (d - up) - 1) <= T)%nat ->
    exists l', (do MPS <- mfold (fun MPS i => two_site svd swap_matrix MPS i (i + 1)%Z) (zrange2 (Z.of_nat up) (Z.of_nat d)) l;
      mfold (fun MPS i => two_site svd swap_matrix MPS (i - 1)%Z i) (zrange_down (Z.of_nat d - 1) (Z.of_nat up)) MPS) = Ok l' /\
      Rel (t + (2 * (d - up) - 1)) l' (ps n (tr up d) psi).
  Proof.
    intros t l psi up d H Hu Hd Ht.
    pose proof (ladder_down_rel _ adj_swap_rel (d - up) t up l psi H ltac:(lia) ltac:(lia)) as (l1 & E1 & M1).
    replace (up + (d - up))%nat with d in * by lia. rewrite E1. cbn [bind].
    replace (Z.of_nat d - 1)%Z with (Z.of_nat (d - 1)) by lia.
    pose proof (ladder_up_rel _ adj_swap_rel (d - 1 - up) _ up l1 _ M1 ltac:(lia) ltac:(lia)) as (l2 & E2 & M2).
    replace (up + (d - 1 - up))%nat with (d - 1)%nat in * by lia. exists l2. split; auto.
    replace (t + (2 * (d - up) - 1))%nat with (t + (d - up) + (d - 1 - up))%nat by lia.
    eapply Rel_st; [exact M2|]. eapply st_trans; [apply ps_ps, ld_maps; lia|]. apply ps_ext. intros k Hk. unfold tr, ld, lu. dif.
  Qed.

  Lemma swap_step_rel : forall t l psi i, Rel t l psi -> (S t <= T)%nat -> (S i < n)%nat ->
    exists l', swap_step svd (Z.of_nat n) l (Z.of_nat i) (Z.of_nat (S i)) = Ok l' /\ Rel (S t) l' (ps n (tr i (S i)) psi).
  Proof.
    intros t l psi i H Ht Hi. unfold swap_step, swap_TN_operation, unset, wires_unset. cbn [wires_unset].
    replace (Z.of_nat n =? -1)%Z with false by lia. cbn [orb raise_if wire_list bind length Nat.eqb negb py_min py_max fold_left].
    replace (Z.min (Z.of_nat i) (Z.of_nat (S i))) with (Z.of_nat i) by lia.
    replace (Z.max (Z.of_nat i) (Z.of_nat (S i))) with (Z.of_nat (S i)) by lia.
    pose proof (swap_core_rel t l psi i (S i) H ltac:(lia) Hi ltac:(lia)) as X.
    replace (t + (2 * (S i - i) - 1))%nat with (S t) in X by lia. exact X.
  Qed.

  Lemma swap_TN_rel : forall t l psi a b, Rel t l psi -> (a < n)%nat -> (b < n)%nat -> a <> b -> (t + (2 * (Nat.max a b - Nat.min a b) - 1) <= T)%nat ->
    exists l', swap_TN_operation svd (Z.of_nat n) (WList [Z.of_nat a; Z.of_nat b]) l = Ok l' /\
      Rel (t + (2 * (Nat.max a b - Nat.min a b) - 1)) l' (act n (swap_op a b) psi).
  Proof.
    intros t l psi a b H Ha Hb Hab Ht. unfold swap_TN_operation, unset, wires_unset.
    replace (Z.of_nat n =? -1)%Z with false by lia. cbn [orb raise_if wire_list bind length Nat.eqb negb py_min py_max fold_left].
    replace (Z.min (Z.of_nat a) (Z.of_nat b)) with (Z.of_nat (Nat.min a b)) by lia.
    replace (Z.max (Z.of_nat a) (Z.of_nat b)) with (Z.of_nat (Nat.max a b)) by lia.
    destruct (swap_core_rel t l psi (Nat.min a b) (Nat.max a b) H) as (l' & E & HM); [lia|lia|lia|]. exists l'. split; [exact E|].
    eapply Rel_st; [exact HM|]. apply st_sym. eapply st_trans; [apply act_swap; auto|]. intros x Hx. unfold ps.
    rewrite pb_tr by (try lia; now apply bits_length). pose proof (bits_length _ _ Hx).
    destruct (Nat.lt_ge_cases a b).
    - now rewrite Nat.min_l, Nat.max_r by lia.
    - rewrite Nat.min_r, Nat.max_l by lia. now rewrite swapped_sym by lia.
  Qed.

  (** ** a two-qubit matrix on (up, d) *)
  Lemma ladder2_rel : forall t A l psi up d, unitary 2 A -> Rel t l psi -> (up < d)%nat -> (d < n)%nat -> (t + (2 * (d - up) - 1) <= T)%nat ->
    exists l', ladder2 svd (Z.of_nat n) (Ok (op_tensor 2 A)) (Z.of_nat up) (Z.of_nat d) l = Ok l' /\ Rel (t + (2 * (d - up) - 1)) l' (apply_on A [up; d] psi).
  Proof.
    intros t A l psi up d HA H Hu Hd Ht. unfold ladder2.
    replace (Z.of_nat d - 1)%Z with (Z.of_nat (d - 1)) by lia.
    pose proof (ladder_down_rel _ swap_step_rel (d - 1 - up) t up l psi H ltac:(lia) ltac:(lia)) as (l1 & E1 & M1).
    replace (up + (d - 1 - up))%nat with (d - 1)%nat in * by lia. rewrite E1. cbn [bind].
    assert (EC : st_eq n (ps n (lu (d - 1) up) (apply_on A [d - 1; d]%nat (ps n (ld up (d - 1)) psi))) (apply_on A [up; d] psi)).
    { eapply st_trans. { apply (ps_conj n A [d - 1; d]%nat (ld up (d - 1)) (lu (d - 1) up)).
        apply good_wires_2; lia. apply ld_maps; lia. apply lu_maps; lia. intros; apply lu_ld; lia. intros; apply ld_lu; lia. }
      cbn [map]. replace (lu (d - 1) up (d - 1)) with up by (unfold lu; dif). replace (lu (d - 1) up d) with d by (unfold lu; dif).
      intros b Hb. reflexivity. }
    destruct (Rel_two (t + (d - 1 - up)) A l1 _ (d - 1) HA ltac:(lia) M1 ltac:(lia)) as (l2 & E2 & M2).
    replace (S (d - 1)) with d in * by lia. rewrite E2. cbn [bind].
    pose proof (ladder_up_rel _ swap_step_rel (d - 1 - up) _ up l2 _ M2 ltac:(lia) ltac:(lia)) as (l3 & E3 & M3).
    replace (up + (d - 1 - up))%nat with (d - 1)%nat in * by lia. rewrite E3. exists l3. split; auto.
    eapply Rel_st; [|exact EC]. eapply Rel_weak; [| |exact M3]; lia.
  Qed.

  (** ** a three-qubit matrix on (up, mid, d) *)
  Lemma ladder3_rel : forall t A l psi up mid d, unitary 3 A -> Rel t l psi -> (up < mid)%nat -> (mid < d)%nat -> (d < n)%nat -> (t + (2 * (d - up) - 1) <= T)%nat ->
    exists l', ladder3 svd (Z.of_nat n) (Ok (op_tensor 3 A)) (Z.of_nat up) (Z.of_nat mid) (Z.of_nat d) l = Ok l' /\
      Rel (t + (2 * (d - up) - 1)) l' (apply_on A [up; mid; d] psi).
  Proof.
    intros t A l psi up mid d HA H Hu Hm Hd Ht. unfold ladder3.
    replace (Z.of_nat mid - 1)%Z with (Z.of_nat (mid - 1)) by lia. replace (Z.of_nat mid + 1)%Z with (Z.of_nat (mid + 1)) by lia.
    pose proof (ladder_down_rel _ swap_step_rel (mid - 1 - up) t up l psi H ltac:(lia) ltac:(lia)) as (l1 & E1 & M1).
    replace (up + (mid - 1 - up))%nat with (mid - 1)%nat in * by lia. rewrite E1. cbn [bind].
    pose proof (ladder_up_rel _ swap_step_rel (d - (mid + 1)) _ (mid + 1) l1 _ M1 ltac:(lia) ltac:(lia)) as (l2 & E2 & M2).
    replace (mid + 1 + (d - (mid + 1)))%nat with d in * by lia. rewrite E2. cbn [bind].
    set (f1 := ld up (mid - 1)) in *. set (f2 := lu d (mid + 1)) in *. set (g1 := lu (mid - 1) up). set (g2 := ld (mid + 1) d).
    set (f := fun k => f2 (f1 k)). set (g := fun k => g2 (g1 k)).
    assert (Hf1 : maps_to n f1) by (apply ld_maps; lia). assert (Hf2 : maps_to n f2) by (apply lu_maps; lia).
    assert (Hg1 : maps_to n g1) by (apply lu_maps; lia). assert (Hg2 : maps_to n g2) by (apply ld_maps; lia).
    assert (Hf : maps_to n f) by (intros k Hk; apply Hf2, Hf1, Hk). assert (Hg : maps_to n g) by (intros k Hk; apply Hg2, Hg1, Hk).
    assert (M2' : Rel (t + (mid - 1 - up) + (d - (mid + 1))) l2 (ps n f psi)) by (eapply Rel_st; [exact M2|exact (ps_ps n f1 f2 psi Hf1)]).
    assert (EC : st_eq n (ps n g (apply_on A [mid - 1; mid; mid + 1]%nat (ps n f psi))) (apply_on A [up; mid; d] psi)).
    { eapply st_trans. { apply (ps_conj n A [mid - 1; mid; mid + 1]%nat f g); auto.
        - apply good_wires_3; lia.
        - intros k Hk. unfold f, g, f1, f2, g1, g2, ld, lu. dif.
        - intros k Hk. unfold f, g, f1, f2, g1, g2, ld, lu. dif. }
      cbn [map]. replace (g (mid - 1)%nat) with up by (unfold g, g1, g2, ld, lu; dif).
      replace (g mid) with mid by (unfold g, g1, g2, ld, lu; dif). replace (g (mid + 1)%nat) with d by (unfold g, g1, g2, ld, lu; dif).
      intros b Hb. reflexivity. }
    destruct (Rel_three (t + (mid - 1 - up) + (d - (mid + 1))) A l2 _ (mid - 1) HA ltac:(lia) M2' ltac:(lia)) as (l3 & E3 & M3).
    replace (S (S (mid - 1))) with (mid + 1)%nat in * by lia. replace (S (mid - 1)) with mid in * by lia. rewrite E3. cbn [bind].
    pose proof (ladder_up_rel _ swap_step_rel (mid - 1 - up) _ up l3 _ M3 ltac:(lia) ltac:(lia)) as (l4 & E4 & M4).
    replace (up + (mid - 1 - up))%nat with (mid - 1)%nat in * by lia. rewrite E4. cbn [bind].
    pose proof (ladder_down_rel _ swap_step_rel (d - (mid + 1)) _ (mid + 1) l4 _ M4 ltac:(lia) ltac:(lia)) as (l5 & E5 & M5).
    replace (mid + 1 + (d - (mid + 1)))%nat with d in * by lia. rewrite E5. exists l5. split; auto.
    eapply Rel_weak in M5; [|shelve|exact Ht].
    eapply Rel_st; [exact M5|]. eapply st_trans; [|exact EC]. fold g1 g2. exact (ps_ps n g1 g2 _ Hg1).
    Unshelve. lia.
  Qed.

  (** ** the gate classes *)
  Lemma single_TN_rel : forall t A l psi w, unitary 1 A -> Rel t l psi -> (t <= T)%nat -> (w < n)%nat ->
    exists l', single_TN_operation (op_tensor 1 A) (Z.of_nat n) (WInt (Z.of_nat w)) l = Ok l' /\ Rel t l' (act n (lift A [w]) psi).
  Proof.
    intros t A l psi w HA H Ht Hw. unfold single_TN_operation, unset, wires_unset. replace (Z.of_nat n =? -1)%Z with false by lia.
    replace (Z.of_nat w =? -1)%Z with false by lia. cbn [orb raise_if wire_int bind].
    destruct (Rel_one t A l psi w HA Ht H Hw) as (s & s' & E1 & E2 & l' & E & HM).
    rewrite E1. cbn [bind]. rewrite E2. cbn [bind].
    exists l'. split; [exact E|]. eapply Rel_st; [exact HM|]. apply st_sym, act_lift. now apply good_wires_1.
  Qed.

  Lemma ctrl2_u : forall U a b, unitary 1 U -> (a < 2)%nat -> (b < 2)%nat -> a <> b -> unitary 2 (ctrl [a] (lift U [b])).
  Proof.
    intros U a b HU Ha Hb Hn. apply ctrl_unitary; auto.
    - now apply good_wires_1.
    - intros w [<-|[]]; auto.
    - intros w [<-|[]] [->|[]]. now apply Hn.
  Qed.
  Lemma ctrl3_u : forall U a b c, unitary 1 U -> (a < 3)%nat -> (b < 3)%nat -> (c < 3)%nat -> a <> c -> b <> c -> unitary 3 (ctrl [a; b] (lift U [c])).
  Proof.
    intros U a b c HU Ha Hb Hc H1 H2. apply ctrl_unitary; auto.
    - now apply good_wires_1.
    - intros w [<-|[<-|[]]]; auto.
    - intros w [<-|[<-|[]]] [->|[]]; [now apply H1|now apply H2].
  Qed.

  Lemma ctrl_TN_rel : forall k U l psi c t, unitary 1 U -> Rel k l psi -> (c < n)%nat -> (t < n)%nat -> c <> t -> (k + (2 * (Nat.max c t - Nat.min c t) - 1) <= T)%nat ->
    exists l', ctrl_TN_operation svd (op_tensor 2 (ctrl [0%nat] (lift U [1%nat]))) (Ok (op_tensor 2 (ctrl [1%nat] (lift U [0%nat]))))
        (Z.of_nat n) (WList [Z.of_nat c; Z.of_nat t]) l = Ok l' /\
      Rel (k + (2 * (Nat.max c t - Nat.min c t) - 1)) l' (act n (ctrl [c] (lift U [t])) psi).
  Proof.
    intros k U l psi c t HU H Hc Ht Hn Hk. destruct (ctrl_order n U c t psi Hc Ht Hn) as [O1 O2].
    unfold ctrl_TN_operation, unset, wires_unset. replace (Z.of_nat n =? -1)%Z with false by lia.
    cbn [orb raise_if wire_list bind length Nat.eqb negb py_min py_max fold_left].
    change (py_nth [Z.of_nat c; Z.of_nat t] 0) with (Ok (Z.of_nat c)). cbn [bind].
    destruct (Nat.lt_ge_cases c t).
    - replace (Z.min (Z.of_nat c) (Z.of_nat t)) with (Z.of_nat c) by lia.
      replace (Z.max (Z.of_nat c) (Z.of_nat t)) with (Z.of_nat t) by lia. rewrite Z.eqb_refl.
      destruct (ladder2_rel k (ctrl [0%nat] (lift U [1%nat])) l psi c t) as (l' & E & HM); auto.
      { apply ctrl2_u; auto. }
      { lia. }
      replace (Nat.max c t - Nat.min c t)%nat with (t - c)%nat by lia.
      exists l'. split; [exact E|]. now apply (Rel_st _ l' _ _ HM).
    - replace (Z.min (Z.of_nat c) (Z.of_nat t)) with (Z.of_nat t) by lia.
      replace (Z.max (Z.of_nat c) (Z.of_nat t)) with (Z.of_nat c) by lia. replace (Z.of_nat c =? Z.of_nat t)%Z with false by lia.
      destruct (ladder2_rel k (ctrl [1%nat] (lift U [0%nat])) l psi t c) as (l' & E & HM); auto; try lia.
      { apply ctrl2_u; auto. }
      replace (Nat.max c t - Nat.min c t)%nat with (c - t)%nat by lia.
      exists l'. split; [exact E|]. now apply (Rel_st _ l' _ _ HM).
  Qed.

  Lemma cnot_TN_rel : forall k U l psi c t, unitary 1 U -> Rel k l psi -> (c < n)%nat -> (t < n)%nat -> c <> t -> (k + (2 * (Nat.max c t - Nat.min c t) - 1) <= T)%nat ->
    exists l', cnot_TN_operation svd (op_tensor 2 (ctrl [0%nat] (lift U [1%nat]))) (Ok (op_tensor 2 (ctrl [1%nat] (lift U [0%nat]))))
        (Z.of_nat n) (WList [Z.of_nat c; Z.of_nat t]) l = Ok l' /\
      Rel (k + (2 * (Nat.max c t - Nat.min c t) - 1)) l' (act n (ctrl [c] (lift U [t])) psi).
  Proof.
    intros k U l psi c t HU H Hc Ht Hn Hk. destruct (ctrl_order n U c t psi Hc Ht Hn) as [O1 O2].
    pose proof (ctrl_TN_rel k U l psi c t HU H Hc Ht Hn Hk) as G.
    unfold cnot_TN_operation. unfold ctrl_TN_operation in G. unfold unset, wires_unset in *. replace (Z.of_nat n =? -1)%Z with false in * by lia.
    cbn [orb raise_if wire_list bind length Nat.eqb negb py_min py_max fold_left] in *.
    destruct (Z.min (Z.of_nat c) (Z.of_nat t) + 1 =? Z.max (Z.of_nat c) (Z.of_nat t))%Z eqn:E; [|exact G]. clear G.
    change (py_nth [Z.of_nat c; Z.of_nat t] 0) with (Ok (Z.of_nat c)). cbn [bind].
    destruct (Nat.lt_ge_cases c t).
    - replace t with (S c) in * by lia. replace (Z.min (Z.of_nat c) (Z.of_nat (S c))) with (Z.of_nat c) by lia.
      replace (Z.max (Z.of_nat c) (Z.of_nat (S c))) with (Z.of_nat (S c)) by lia. rewrite Z.eqb_refl. cbn [bind].
      destruct (Rel_two k (ctrl [0%nat] (lift U [1%nat])) l psi c) as (l' & E' & HM); auto; try lia.
      { apply ctrl2_u; auto. }
      exists l'. split; [exact E'|]. apply (Rel_st _ l' _ _) with (2 := O1). eapply Rel_weak; [| |exact HM]; lia.
    - replace c with (S t) in * by lia. replace (Z.min (Z.of_nat (S t)) (Z.of_nat t)) with (Z.of_nat t) by lia.
      replace (Z.max (Z.of_nat (S t)) (Z.of_nat t)) with (Z.of_nat (S t)) by lia.
      replace (Z.of_nat (S t) =? Z.of_nat t)%Z with false by lia. cbn [bind].
      destruct (Rel_two k (ctrl [1%nat] (lift U [0%nat])) l psi t) as (l' & E' & HM); auto; try lia.
      { apply ctrl2_u; auto. }
      exists l'. split; [exact E'|]. apply (Rel_st _ l' _ _) with (2 := O2). eapply Rel_weak; [| |exact HM]; lia.
  Qed.

  Lemma toffoli_TN_rel : forall q U l psi c1 c2 t, unitary 1 U -> Rel q l psi -> good_wires n [c1; c2; t] -> (q + (2 * (Nat.max c1 (Nat.max c2 t) - Nat.min c1 (Nat.min c2 t)) - 1) <= T)%nat ->
    exists l', toffoli_TN_operation svd (op_tensor 3 (ctrl [0; 1]%nat (lift U [2%nat])))
        (Ok (op_tensor 3 (ctrl [0; 2]%nat (lift U [1%nat])))) (Ok (op_tensor 3 (ctrl [1; 2]%nat (lift U [0%nat]))))
        (Z.of_nat n) (WList [Z.of_nat c1; Z.of_nat c2; Z.of_nat t]) l = Ok l' /\
      Rel (q + (2 * (Nat.max c1 (Nat.max c2 t) - Nat.min c1 (Nat.min c2 t)) - 1)) l' (act n (ctrl [c1; c2] (lift U [t])) psi).
  Proof.
    intros q U l psi c1 c2 t HU H W Hq. pose proof (gw3 _ _ _ _ W) as (H1 & H2 & H3 & H12 & H1t & H2t).
    unfold toffoli_TN_operation, unset, wires_unset. replace (Z.of_nat n =? -1)%Z with false by lia.
    cbn [orb raise_if wire_list bind zsort fold_right].
    change (py_nth [Z.of_nat c1; Z.of_nat c2; Z.of_nat t] 2) with (Ok (Z.of_nat t)). cbn [bind].
    assert (K : forall up mid d a b k, (up < mid)%nat -> (mid < d)%nat -> (d < n)%nat -> (Nat.max c1 (Nat.max c2 t) - Nat.min c1 (Nat.min c2 t) = d - up)%nat -> (a < 3)%nat -> (b < 3)%nat -> (k < 3)%nat -> a <> k -> b <> k ->
      st_eq n (act n (ctrl [nth a [up; mid; d] 0%nat; nth b [up; mid; d] 0%nat] (lift U [nth k [up; mid; d] 0%nat])) psi)
              (act n (ctrl [c1; c2] (lift U [t])) psi) ->
      exists l', ladder3 svd (Z.of_nat n) (Ok (op_tensor 3 (ctrl [a; b] (lift U [k])))) (Z.of_nat up) (Z.of_nat mid) (Z.of_nat d) l = Ok l' /\
        Rel (q + (2 * (Nat.max c1 (Nat.max c2 t) - Nat.min c1 (Nat.min c2 t)) - 1)) l' (act n (ctrl [c1; c2] (lift U [t])) psi)).
    { intros up mid d a b k Hum Hmd Hd Hc Ha Hb Hk Nak Nbk HE.
      assert (HE' : st_eq n (apply_on (ctrl [a; b] (lift U [k])) [up; mid; d] psi) (act n (ctrl [c1; c2] (lift U [t])) psi)).
      { eapply st_trans; [|exact HE]. apply (three_order n U [up; mid; d] a b k up mid d); auto. apply good_wires_3; lia. }
      destruct (ladder3_rel q (ctrl [a; b] (lift U [k])) l psi up mid d) as (l' & E & HM); auto.
      { apply ctrl3_u; auto. }
      { lia. }
      rewrite Hc.
      exists l'. split; [exact E|]. now apply (Rel_st _ l' _ _ HM). }
    assert (R : st_eq n (act n (ctrl [c1; c2] (lift U [t])) psi) (act n (ctrl [c1; c2] (lift U [t])) psi)) by (intros b Hb; reflexivity).
    assert (R' : st_eq n (act n (ctrl [c2; c1] (lift U [t])) psi) (act n (ctrl [c1; c2] (lift U [t])) psi)) by (apply st_act_ext, ctrl_sym).
    cbn [zinsert].
    destruct (Nat.lt_ge_cases c1 c2), (Nat.lt_ge_cases c2 t), (Nat.lt_ge_cases c1 t); try lia;
      repeat match goal with |- context [(Z.of_nat ?x <=? Z.of_nat ?y)%Z] =>
        first [replace (Z.of_nat x <=? Z.of_nat y)%Z with true by lia|replace (Z.of_nat x <=? Z.of_nat y)%Z with false by lia]; cbn [zinsert] end;
      match goal with |- context [py_nth [?x; ?y; ?z] 0] =>
        change (py_nth [x; y; z] 0) with (Ok x); change (py_nth [x; y; z] 1) with (Ok y); change (py_nth [x; y; z] 2) with (Ok z) end; cbn [bind];
      repeat match goal with |- context [(Z.of_nat ?x =? Z.of_nat ?y)%Z] =>
        first [replace (Z.of_nat x =? Z.of_nat y)%Z with true by lia|replace (Z.of_nat x =? Z.of_nat y)%Z with false by lia] end.
    - apply (K c1 c2 t 0 1 2)%nat; auto; lia.
    - apply (K c1 t c2 0 2 1)%nat; auto; lia.
    - apply (K t c1 c2 1 2 0)%nat; auto; lia.
    - apply (K c2 c1 t 0 1 2)%nat; auto; lia.
    - apply (K c2 t c1 0 2 1)%nat; auto; lia.
    - apply (K t c2 c1 1 2 0)%nat; auto; lia.
  Qed.
End Abs.

(** ** the gate objects *)
Definition gcost (g : gi) : nat := 2 * reach (gi_wires g) - 1.
Lemma moves_cons : forall g gs, moves (g :: gs) = gcost g + moves gs.
Proof. reflexivity. Qed.
Lemma reach2 : forall a b, reach [a; b] = Nat.max a b - Nat.min a b.
Proof. intros. unfold reach. cbn [fold_right hd]. lia. Qed.
Lemma reach3 : forall a b c, reach [a; b; c] = Nat.max a (Nat.max b c) - Nat.min a (Nat.min b c).
Proof. intros. unfold reach. cbn [fold_right hd]. lia. Qed.
Lemma reach1 : forall a, reach [a] = 0.
Proof. intros. unfold reach. cbn [fold_right hd]. lia. Qed.

Section Objs.
  Variable svd : tensor (SC := C_scalar) -> tensor (SC := C_scalar) * tensor (SC := C_scalar) * tensor (SC := C_scalar).
  Variables n T : nat.
  Variable Rel : nat -> list (tensor (SC := C_scalar)) -> qstate (SC := C_scalar) -> Prop.
  Hypothesis Rel_st : forall t l f g, Rel t l f -> st_eq n f g -> Rel t l g.
  Hypothesis Rel_weak : forall t t' l f, (t <= t')%nat -> (t' <= T)%nat -> Rel t l f -> Rel t' l f.
  Hypothesis Rel_one : forall t A l psi i, unitary 1 A -> (t <= T)%nat -> Rel t l psi -> (i < n)%nat ->
    exists s s', py_nth l (Z.of_nat i) = Ok s /\ einsum_ab_bcd (op_tensor 1 A) s = Ok s' /\
      exists l', py_set l (Z.of_nat i) s' = Ok l' /\ Rel t l' (apply_on A [i] psi).
  Hypothesis Rel_two : forall t A l psi i, unitary 2 A -> (S t <= T)%nat -> Rel t l psi -> (S i < n)%nat ->
    exists l', two_site svd (op_tensor 2 A) l (Z.of_nat i) (Z.of_nat (S i)) = Ok l' /\ Rel (S t) l' (apply_on A [i; S i] psi).
  Hypothesis Rel_three : forall t A l psi i, unitary 3 A -> (S t <= T)%nat -> Rel t l psi -> (S (S i) < n)%nat ->
    exists l', three_site svd (Ok (op_tensor 3 A)) l (Z.of_nat (S i)) = Ok l' /\ Rel (S t) l' (apply_on A [i; S i; S (S i)] psi).

  Lemma TN_operation_rel : forall t g l psi, gi_ok n g -> has_TN g = true -> Rel t l psi -> (t + gcost g <= T)%nat ->
    exists l', TN_operation svd (obj n g) l = Ok l' /\ Rel (t + gcost g) l' (act n (gi_op n g) psi).
  Proof.
    intros t g l psi [W _] HT HM Ht.
    assert (S1 : forall A w, unitary 1 A -> (w < n)%nat -> exists l', single_TN_operation (op_tensor 1 A) (Z.of_nat n) (WInt (Z.of_nat w)) l = Ok l' /\
      Rel t l' (act n (lift A [w]) psi)).
    { intros A w HA Hw. apply (single_TN_rel n T Rel Rel_st Rel_one t A l psi w HA HM ltac:(lia) Hw). }
    destruct g; try discriminate HT; unfold gcost in *; cbn [gi_wires gi_op] in *; rewrite ?reach1, ?reach2, ?reach3 in *; unfold TN_operation; cbn [obj gi_cls g_cls g_N g_matrix g_wires gi_wires gi_loc length gi_pywires];
      try (change (t + (2 * 0 - 1)) with (t + 0) in *; rewrite Nat.add_0_r in *; apply gw1 in W; refine (S1 _ w _ W);
        lazymatch goal with
        | |- unitary _ H_op => apply H_unitary | |- unitary _ X_op => apply X_unitary | |- unitary _ Y_op => apply Y_unitary
        | |- unitary _ Z_op => apply Z_unitary | |- unitary _ (rx_op _) => apply rx_unitary | |- unitary _ (ry_op _) => apply ry_unitary
        | |- unitary _ (rz_op _) => apply rz_unitary | |- unitary _ (u1_op _) => apply u1_unitary | |- unitary _ (u3_op _ _ _) => apply u3_unitary
        end).
    - apply gw2 in W. destruct W as (Wa & Wb & Wn). rewrite rev_cnot_ok. apply (cnot_TN_rel svd n T Rel); auto. apply X_unitary.
    - apply gw2 in W. destruct W as (Wa & Wb & Wn). rewrite rev_cz_ok. apply (ctrl_TN_rel svd n T Rel); auto. apply Z_unitary.
    - apply gw2 in W. destruct W as (Wa & Wb & Wn). rewrite (rev_cphase_ok n th c t0). apply (ctrl_TN_rel svd n T Rel); auto. apply u1_unitary.
    - apply gw2 in W. destruct W as (Wa & Wb & Wn). rewrite (rev_cu3_ok n th p l0 c t0). apply (ctrl_TN_rel svd n T Rel); auto. apply u3_unitary.
    - apply gw2 in W. destruct W as (Wa & Wb & Wn). now apply (swap_TN_rel svd n T Rel).
    - rewrite mid_toffoli_ok, up_toffoli_ok. apply (toffoli_TN_rel svd n T Rel); auto. apply X_unitary.
  Qed.

  Lemma run_rel : forall gs t l psi, Forall (gi_ok n) gs -> forallb has_TN gs = true -> Rel t l psi -> (t + moves gs <= T)%nat ->
    exists l', mfold (fun l o => TN_operation svd o l) (map (obj n) gs) l = Ok l' /\ Rel (t + moves gs) l' (act n (gs_op n gs) psi).
  Proof.
    assert (X : forall gs t l psi, Forall (gi_ok n) gs -> forallb has_TN gs = true -> Rel t l psi -> (t + moves gs <= T)%nat ->
      exists l', mfold (fun l o => TN_operation svd o l) (map (obj n) gs) l = Ok l' /\
        Rel (t + moves gs) l' (fold_left (fun psi g => act n (gi_op n g) psi) gs psi)).
    { induction gs as [|g gs IH]; intros t l psi HF HT HM Ht. { exists l. split; [reflexivity|]. change (moves []) with 0. now rewrite Nat.add_0_r. }
      inversion HF; subst. cbn [forallb] in HT. apply andb_prop in HT. destruct HT as [T1 T2]. rewrite moves_cons in *.
      destruct (TN_operation_rel t g l psi) as (l1 & E1 & M1); auto; [lia|].
      destruct (IH _ l1 _ H2 T2 M1) as (l' & E & M); [lia|]. exists l'. cbn [map mfold fold_left]. rewrite E1. cbn [bind]. split; [exact E|].
      replace (t + (gcost g + moves gs))%nat with (t + gcost g + moves gs)%nat by lia. exact M. }
    intros gs t l psi HF HT HM Ht. destruct (X gs t l psi HF HT HM Ht) as (l' & E & M). exists l'. split; [exact E|].
    eapply Rel_st; [exact M|]. apply st_sym, gs_op_act.
  Qed.
End Objs.
