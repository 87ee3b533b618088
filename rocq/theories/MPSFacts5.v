(** Lemmas: SWAP ladders on matrix product states. *)
From Coq Require Import List ZArith QArith Lia ZifyBool Bool Arith Ring Permutation.
From Verif Require Import PyBase Scalar BigSum Index Tensor TensorFacts Spec SpecFacts QMath QTN QOperator
  ExpandFacts ExpandFacts2 ContractFacts ContractFacts2 GateFacts MPSSpec MPSFacts1 MPSFacts2 MPSFacts3 MPSFacts4.
Import ListNotations.
Local Close Scope Q_scope.
Local Open Scope nat_scope.

(** the string whose bit k is bit f k of b *)
Definition pb (n : nat) (f : nat -> nat) (b : list nat) : list nat := map (fun k => nth (f k) b 0) (seq 0 n).
Definition maps_to (n : nat) (f : nat -> nat) : Prop := forall k, k < n -> f k < n.
Definition tr (i j k : nat) : nat := if k =? i then j else if k =? j then i else k.
(** moving a qubit down from up to d, and up from e to up *)
Definition ld (up d k : nat) : nat := if k =? up then d else if (up <? k) && (k <=? d) then k - 1 else k.
Definition lu (e up k : nat) : nat := if k =? e then up else if (up <=? k) && (k <? e) then k + 1 else k.

Ltac dif := repeat match goal with |- context [if ?c then _ else _] =>
  lazymatch c with context [if _ then _ else _] => fail | _ => destruct c eqn:? end end; try lia.

Lemma pb_length : forall n f b, length (pb n f b) = n.
Proof. intros. unfold pb. now rewrite map_length, seq_length. Qed.
Lemma nth_pb : forall n f b k, k < n -> nth k (pb n f b) 0 = nth (f k) b 0.
Proof.
  intros. unfold pb. rewrite (nth_map' _ _ _ _ _ _ 0) by now rewrite seq_length. now rewrite seq_nth by auto.
Qed.
Lemma pb_in_bits : forall n f b, maps_to n f -> In b (bits n) -> In (pb n f b) (bits n).
Proof.
  intros n f b Hf Hb. apply in_bits in Hb. destruct Hb as [L H]. apply in_bits. rewrite pb_length. split; auto.
  intros i Hi. rewrite nth_pb by auto. apply H. now apply Hf.
Qed.
Lemma pb_pb : forall n f g b, maps_to n f -> pb n f (pb n g b) = pb n (fun k => g (f k)) b.
Proof.
  intros n f g b Hf. apply nth_ext with (d := 0) (d' := 0). { now rewrite !pb_length. }
  intros k Hk. rewrite pb_length in Hk. rewrite !nth_pb; auto.
Qed.
Lemma pb_ext : forall n f g b, (forall k, k < n -> f k = g k) -> pb n f b = pb n g b.
Proof.
  intros n f g b H. apply nth_ext with (d := 0) (d' := 0). { now rewrite !pb_length. }
  intros k Hk. rewrite pb_length in Hk. rewrite !nth_pb by auto. now rewrite H.
Qed.
Lemma pb_id : forall n f b, length b = n -> (forall k, k < n -> f k = k) -> pb n f b = b.
Proof.
  intros n f b L H. apply nth_ext with (d := 0) (d' := 0). { now rewrite pb_length. }
  intros k Hk. rewrite pb_length in Hk. rewrite nth_pb by auto. now rewrite H.
Qed.
Lemma pb_tr : forall n i j b, length b = n -> i < n -> j < n -> pb n (tr i j) b = swapped i j b.
Proof.
  intros n i j b L Hi Hj. apply nth_ext with (d := 0) (d' := 0). { now rewrite pb_length, swapped_length. }
  intros k Hk. rewrite pb_length in Hk. rewrite nth_pb, nth_swapped by lia. unfold tr. dif; auto. f_equal; lia.
Qed.
Lemma tr_maps : forall n i j, i < n -> j < n -> maps_to n (tr i j).
Proof. intros n i j Hi Hj k Hk. unfold tr. dif. Qed.
Lemma ld_maps : forall n up d, up <= d -> d < n -> maps_to n (ld up d).
Proof. intros n i j Hi Hj k Hk. unfold ld. dif. Qed.
Lemma lu_maps : forall n e up, up <= e -> e < n -> maps_to n (lu e up).
Proof. intros n i j Hi Hj k Hk. unfold lu. dif. Qed.
Lemma lu_ld : forall up d k, up <= d -> lu d up (ld up d k) = k.
Proof. intros. unfold lu, ld. dif. Qed.
Lemma ld_lu : forall up d k, up <= d -> ld up d (lu d up k) = k.
Proof. intros. unfold lu, ld. dif. Qed.

Section MPSFacts5.
  Context {SC : Scalar}.
  Add Ring KR : k_ring.
  Local Open Scope k_scope.

  Definition ps (n : nat) (f : nat -> nat) (psi : qstate) : qstate := fun b => psi (pb n f b).

  Lemma is_mps_st : forall n l f g, is_mps n l f -> st_eq n f g -> is_mps n l g.
  Proof. intros n l f g [H1 H2] H. split; auto. intros b Hb. rewrite H2 by auto. now apply H. Qed.
  Lemma nonzero_st : forall n f g, nonzero n f -> st_eq n f g -> nonzero n g.
  Proof. intros n f g H E Z. apply H. intros b Hb. rewrite E by auto. now apply Z. Qed.
  Lemma st_sym : forall n f g, st_eq n f g -> st_eq n g f.
  Proof. intros n f g H b Hb. symmetry. now apply H. Qed.
  Lemma st_trans : forall n f g h, st_eq n f g -> st_eq n g h -> st_eq n f h.
  Proof. intros n f g h H1 H2 b Hb. rewrite H1 by auto. now apply H2. Qed.

  Lemma ps_ps : forall n f g psi, maps_to n f -> st_eq n (ps n g (ps n f psi)) (ps n (fun k => g (f k)) psi).
  Proof. intros n f g psi Hf b Hb. unfold ps. now rewrite pb_pb. Qed.
  Lemma ps_st : forall n f psi phi, maps_to n f -> st_eq n psi phi -> st_eq n (ps n f psi) (ps n f phi).
  Proof. intros n f psi phi Hf H b Hb. unfold ps. apply H. now apply pb_in_bits. Qed.
  Lemma ps_ext : forall n f g psi, (forall k, (k < n)%nat -> f k = g k) -> st_eq n (ps n f psi) (ps n g psi).
  Proof. intros n f g psi H b Hb. unfold ps. now rewrite (pb_ext n f g). Qed.
  Lemma ps_id : forall n f psi, (forall k, (k < n)%nat -> f k = k) -> st_eq n (ps n f psi) psi.
  Proof. intros n f psi H b Hb. unfold ps. rewrite pb_id; auto. now apply bits_length. Qed.
  Lemma ps_nonzero : forall n f g psi, maps_to n f -> maps_to n g -> (forall k, (k < n)%nat -> g (f k) = k) ->
    nonzero n psi -> nonzero n (ps n f psi).
  Proof.
    intros n f g psi Hf Hg H Hnz HZ. apply Hnz. intros b Hb.
    rewrite <- (ps_id n (fun k => g (f k)) psi) by auto. rewrite <- ps_ps by auto. unfold ps at 1. apply HZ. now apply pb_in_bits.
  Qed.
  Lemma ps_nonzero_inv : forall n f psi, maps_to n f -> nonzero n (ps n f psi) -> nonzero n psi.
  Proof. intros n f psi Hf H HZ. apply H. intros b Hb. unfold ps. apply HZ. now apply pb_in_bits. Qed.

  (** conjugating an operation by a permutation of the qubits *)
  Lemma ps_conj : forall n A ws f g psi, good_wires n ws -> maps_to n f -> maps_to n g ->
    (forall k, (k < n)%nat -> g (f k) = k) -> (forall k, (k < n)%nat -> f (g k) = k) ->
    st_eq n (ps n g (apply_on A ws (ps n f psi))) (apply_on A (map g ws) psi).
  Proof.
    intros n A ws f g psi [Hd Hw] Hf Hg Hgf Hfg b Hb. unfold ps at 1. unfold apply_on. rewrite map_length.
    pose proof (bits_length _ _ Hb) as Lb.
    assert (R : rd (pb n g b) ws = rd b (map g ws)).
    { unfold rd. rewrite map_map. apply map_ext_in. intros w Hin. apply nth_pb. auto. }
    rewrite R. apply bigsum_ext. intros c Hc. f_equal. unfold ps. f_equal. pose proof (bits_length _ _ Hc) as Lc.
    clear R Hc Hb Hd. revert b c Lb Lc. induction ws as [|w ws IH]; intros b c Lb Lc; destruct c as [|x c]; try discriminate; cbn [map wr].
    - rewrite pb_pb by auto. now apply pb_id.
    - assert (E : set_nth w x (pb n g b) = pb n g (set_nth (g w) x b)).
      { assert (Hwn : (w < n)%nat) by (apply Hw; simpl; auto). specialize (Hg w Hwn) as Hgw.
        apply nth_ext with (d := 0%nat) (d' := 0%nat). { now rewrite set_nth_length, !pb_length. }
        intros k Hk. rewrite set_nth_length, pb_length in Hk. rewrite nth_set_nth by now rewrite pb_length. rewrite !nth_pb by auto.
        rewrite nth_set_nth by lia. destruct (k =? w)%nat eqn:E1, (g k =? g w)%nat eqn:E2; auto.
        - exfalso. apply Nat.eqb_eq in E1. subst. lia.
        - exfalso. apply Nat.eqb_eq in E2. apply (f_equal f) in E2. rewrite !Hfg in E2 by auto. lia. }
      rewrite E. apply IH; auto. { intros v Hv; apply Hw; simpl; auto. } { now rewrite set_nth_length. }
  Qed.

  (** ** adjacent exchange *)
  Lemma adj_swap_state : forall n i psi, (S i < n)%nat -> st_eq n (apply_on (swap_op 0 1) [i; S i] psi) (ps n (tr i (S i)) psi).
  Proof.
    intros n i psi Hi. eapply st_trans. { apply st_sym, act_lift. apply good_wires_2; lia. }
    eapply st_trans; [|intros b Hb; unfold ps; rewrite pb_tr by (try lia; now apply bits_length); reflexivity].
    eapply st_trans; [|apply act_swap; lia]. intros b Hb. apply act_proper; [|reflexivity|exact Hb].
    symmetry. apply swap_lift; lia.
  Qed.

  Variable svd : tensor -> tensor * tensor * tensor.
  Hypothesis Hsvd : exact_svd svd.

  Lemma adj_swap_ok : forall n l psi i, is_mps n l psi -> nonzero n psi -> (S i < n)%nat ->
    exists l', two_site svd swap_matrix l (Z.of_nat i) (Z.of_nat (S i)) = Ok l' /\ is_mps n l' (ps n (tr i (S i)) psi).
  Proof.
    intros n l psi i H Hnz Hi. rewrite mat4_swap.
    destruct (two_site_ok svd Hsvd n (swap_op 0 1) l psi i H Hi) as (l' & E & HM).
    - eapply nonzero_st; [|apply st_sym, adj_swap_state; lia].
      apply (ps_nonzero n _ (tr i (S i))); auto; try (apply tr_maps; lia). intros k Hk. unfold tr. dif.
    - exists l'. split; auto. eapply is_mps_st; [exact HM|]. now apply adj_swap_state.
  Qed.
  Lemma tr_nonzero : forall n i psi, (S i < n)%nat -> nonzero n psi -> nonzero n (ps n (tr i (S i)) psi).
  Proof. intros n i psi Hi H. apply (ps_nonzero n _ (tr i (S i))); auto; try (apply tr_maps; lia). intros k Hk. unfold tr. dif. Qed.

  (** a loop of adjacent exchanges, whatever performs the single exchange *)
  Section Ladder.
    Variable n : nat.
    Variable step : list tensor -> Z -> Z -> res (list tensor).
    Hypothesis Hstep : forall l psi i, is_mps n l psi -> nonzero n psi -> (S i < n)%nat ->
      exists l', step l (Z.of_nat i) (Z.of_nat (S i)) = Ok l' /\ is_mps n l' (ps n (tr i (S i)) psi).

    Lemma ladder_down : forall k up l psi, is_mps n l psi -> nonzero n psi -> (up + k < n)%nat ->
      exists l', mfold (fun MPS i => step MPS i (i + 1)%Z) (zrange2 (Z.of_nat up) (Z.of_nat (up + k))) l = Ok l' /\
        is_mps n l' (ps n (ld up (up + k)) psi) /\ nonzero n (ps n (ld up (up + k)) psi).
    Proof.
      intros k up l psi H Hnz Hk. unfold zrange2. replace (Z.to_nat (Z.of_nat (up + k) - Z.of_nat up)) with k by lia.
      rewrite mfold_map. induction k as [|k IH].
      - cbn [seq mfold]. exists l. split; auto.
        assert (E : st_eq n psi (ps n (ld up (up + 0)) psi)) by (apply st_sym, ps_id; intros j Hj; unfold ld; dif).
        split; [eapply is_mps_st|eapply nonzero_st]; eauto.
      - destruct IH as (l1 & E & HM & HN); [lia|]. rewrite seq_S, mfold_app, E. cbn [bind mfold Nat.add].
        destruct (Hstep l1 _ (up + k) HM HN ltac:(lia)) as (l2 & E2 & HM2).
        replace (Z.of_nat up + Z.of_nat k + 1)%Z with (Z.of_nat (S (up + k))) by lia.
        replace (Z.of_nat up + Z.of_nat k)%Z with (Z.of_nat (up + k)) by lia. rewrite E2. cbn [bind]. exists l2. split; auto.
        assert (ES : st_eq n (ps n (tr (up + k) (S (up + k))) (ps n (ld up (up + k)) psi)) (ps n (ld up (up + S k)) psi)).
        { eapply st_trans; [apply ps_ps, ld_maps; lia|]. apply ps_ext. intros j Hj. unfold tr, ld. dif. }
        split; [eapply is_mps_st; eauto|eapply nonzero_st; [|exact ES]]. apply tr_nonzero; auto; lia.
    Qed.

    Lemma ladder_up : forall k up l psi, is_mps n l psi -> nonzero n psi -> (up + k < n)%nat ->
      exists l', mfold (fun MPS i => step MPS (i - 1)%Z i) (zrange_down (Z.of_nat (up + k)) (Z.of_nat up)) l = Ok l' /\
        is_mps n l' (ps n (lu (up + k) up) psi) /\ nonzero n (ps n (lu (up + k) up) psi).
    Proof.
      intros k up. unfold zrange_down. replace (Z.to_nat (Z.of_nat (up + k) - Z.of_nat up)) with k by lia.
      induction k as [|k IH]; intros l psi H Hnz Hk.
      - cbn [seq mfold map]. exists l. split; auto.
        assert (E : st_eq n psi (ps n (lu (up + 0) up) psi)) by (apply st_sym, ps_id; intros j Hj; unfold lu; dif).
        split; [eapply is_mps_st|eapply nonzero_st]; eauto.
      - cbn [seq map mfold].
        destruct (Hstep l _ (up + k) H Hnz ltac:(lia)) as (l2 & E2 & HM2).
        replace (Z.of_nat (up + S k) - Z.of_nat 0)%Z with (Z.of_nat (S (up + k))) by lia.
        replace (Z.of_nat (S (up + k)) - 1)%Z with (Z.of_nat (up + k)) by lia. rewrite E2. cbn [bind].
        rewrite <- seq_shift, map_map.
        rewrite (map_ext _ (fun k0 => (Z.of_nat (up + k) - Z.of_nat k0)%Z)) by (intros; lia).
        destruct (IH l2 _ HM2) as (l3 & E3 & HM3 & HN3); [apply tr_nonzero; auto; lia|lia|]. exists l3. split; auto.
        assert (ES : st_eq n (ps n (lu (up + k) up) (ps n (tr (up + k) (S (up + k))) psi)) (ps n (lu (up + S k) up) psi)).
        { eapply st_trans; [apply ps_ps, tr_maps; lia|]. apply ps_ext. intros j Hj. unfold tr, lu. dif. }
        split; [eapply is_mps_st|eapply nonzero_st]; eauto.
    Qed.
  End Ladder.

  (** ** SWAP *)
  Lemma swap_core : forall n l psi up d, is_mps n l psi -> nonzero n psi -> (up < d)%nat -> (d < n)%nat ->
    exists l', (do MPS <- mfold (fun MPS i => two_site svd swap_matrix MPS i (i + 1)%Z) (zrange2 (Z.of_nat up) (Z.of_nat d)) l;
      mfold (fun MPS i => two_site svd swap_matrix MPS (i - 1)%Z i) (zrange_down (Z.of_nat d - 1) (Z.of_nat up)) MPS) = Ok l' /\
      is_mps n l' (ps n (tr up d) psi).
  Proof.
    intros n l psi up d H Hnz Hu Hd.
    pose proof (ladder_down n _ (adj_swap_ok n) (d - up) up l psi H Hnz ltac:(lia)) as (l1 & E1 & M1 & N1).
    replace (up + (d - up))%nat with d in * by lia. rewrite E1. cbn [bind].
    replace (Z.of_nat d - 1)%Z with (Z.of_nat (d - 1)) by lia.
    pose proof (ladder_up n _ (adj_swap_ok n) (d - 1 - up) up l1 _ M1 N1 ltac:(lia)) as (l2 & E2 & M2 & N2).
    replace (up + (d - 1 - up))%nat with (d - 1)%nat in * by lia. exists l2. split; auto.
    eapply is_mps_st; [exact M2|]. eapply st_trans; [apply ps_ps, ld_maps; lia|]. apply ps_ext. intros k Hk. unfold tr, ld, lu. dif.
  Qed.

  Lemma swap_step_ok : forall n l psi i, is_mps n l psi -> nonzero n psi -> (S i < n)%nat ->
    exists l', swap_step svd (Z.of_nat n) l (Z.of_nat i) (Z.of_nat (S i)) = Ok l' /\ is_mps n l' (ps n (tr i (S i)) psi).
  Proof.
    intros n l psi i H Hnz Hi. unfold swap_step, swap_TN_operation, unset, wires_unset. cbn [wires_unset].
    replace (Z.of_nat n =? -1)%Z with false by lia. cbn [orb raise_if wire_list bind length Nat.eqb negb py_min py_max fold_left].
    replace (Z.min (Z.of_nat i) (Z.of_nat (S i))) with (Z.of_nat i) by lia.
    replace (Z.max (Z.of_nat i) (Z.of_nat (S i))) with (Z.of_nat (S i)) by lia.
    apply swap_core; auto.
  Qed.

  Lemma swap_TN_ok : forall n l psi a b, is_mps n l psi -> nonzero n psi -> (a < n)%nat -> (b < n)%nat -> a <> b ->
    exists l', swap_TN_operation svd (Z.of_nat n) (WList [Z.of_nat a; Z.of_nat b]) l = Ok l' /\
      is_mps n l' (act n (swap_op a b) psi).
  Proof.
    intros n l psi a b H Hnz Ha Hb Hab. unfold swap_TN_operation, unset, wires_unset.
    replace (Z.of_nat n =? -1)%Z with false by lia. cbn [orb raise_if wire_list bind length Nat.eqb negb py_min py_max fold_left].
    replace (Z.min (Z.of_nat a) (Z.of_nat b)) with (Z.of_nat (Nat.min a b)) by lia.
    replace (Z.max (Z.of_nat a) (Z.of_nat b)) with (Z.of_nat (Nat.max a b)) by lia.
    destruct (swap_core n l psi (Nat.min a b) (Nat.max a b) H Hnz) as (l' & E & HM); [lia|lia|]. exists l'. split; [exact E|].
    eapply is_mps_st; [exact HM|]. apply st_sym. eapply st_trans; [apply act_swap; auto|]. intros x Hx. unfold ps.
    rewrite pb_tr by (try lia; now apply bits_length). pose proof (bits_length _ _ Hx).
    destruct (Nat.lt_ge_cases a b).
    - now rewrite Nat.min_l, Nat.max_r by lia.
    - rewrite Nat.min_r, Nat.max_l by lia. now rewrite swapped_sym by lia.
  Qed.

  (** ** a two-qubit matrix on (up, d) *)
  Definition ladder2 (N : Z) (G : res tensor) (up d : Z) (MPS : list tensor) : res (list tensor) :=
    do MPS <- mfold (fun MPS i => swap_step svd N MPS i (i + 1)%Z) (zrange2 up (d - 1)) MPS;
    do G <- G;
    do MPS <- two_site svd G MPS (d - 1)%Z d;
    mfold (fun MPS i => swap_step svd N MPS (i - 1)%Z i) (zrange_down (d - 1) up) MPS.

  Lemma ladder2_ok : forall n A l psi up d, is_mps n l psi -> nonzero n psi -> (up < d)%nat -> (d < n)%nat ->
    nonzero n (apply_on A [up; d] psi) ->
    exists l', ladder2 (Z.of_nat n) (Ok (op_tensor 2 A)) (Z.of_nat up) (Z.of_nat d) l = Ok l' /\ is_mps n l' (apply_on A [up; d] psi).
  Proof.
    intros n A l psi up d H Hnz Hu Hd HnA. unfold ladder2.
    replace (Z.of_nat d - 1)%Z with (Z.of_nat (d - 1)) by lia.
    pose proof (ladder_down n _ (swap_step_ok n) (d - 1 - up) up l psi H Hnz ltac:(lia)) as (l1 & E1 & M1 & N1).
    replace (up + (d - 1 - up))%nat with (d - 1)%nat in * by lia. rewrite E1. cbn [bind].
    assert (EC : st_eq n (ps n (lu (d - 1) up) (apply_on A [d - 1; d]%nat (ps n (ld up (d - 1)) psi))) (apply_on A [up; d] psi)).
    { eapply st_trans. { apply (ps_conj n A [d - 1; d]%nat (ld up (d - 1)) (lu (d - 1) up)).
        apply good_wires_2; lia. apply ld_maps; lia. apply lu_maps; lia. intros; apply lu_ld; lia. intros; apply ld_lu; lia. }
      cbn [map]. replace (lu (d - 1) up (d - 1)) with up by (unfold lu; dif). replace (lu (d - 1) up d) with d by (unfold lu; dif).
      intros b Hb. reflexivity. }
    assert (N2 : nonzero n (apply_on A [d - 1; d]%nat (ps n (ld up (d - 1)) psi))).
    { apply (ps_nonzero_inv n (lu (d - 1) up)); [apply lu_maps; lia|]. eapply nonzero_st; [exact HnA|]. now apply st_sym. }
    destruct (two_site_ok svd Hsvd n A l1 _ (d - 1) M1 ltac:(lia)) as (l2 & E2 & M2). { now replace (S (d - 1)) with d by lia. }
    replace (S (d - 1)) with d in * by lia. rewrite E2. cbn [bind].
    pose proof (ladder_up n _ (swap_step_ok n) (d - 1 - up) up l2 _ M2 N2 ltac:(lia)) as (l3 & E3 & M3 & N3).
    replace (up + (d - 1 - up))%nat with (d - 1)%nat in * by lia. rewrite E3. exists l3. split; auto.
    eapply is_mps_st; [exact M3|exact EC].
  Qed.

  (** ** a three-qubit matrix on (up, mid, d) *)
  Definition ladder3 (N : Z) (G : res tensor) (up mid d : Z) (MPS : list tensor) : res (list tensor) :=
    do MPS <- mfold (fun MPS i => swap_step svd N MPS i (i + 1)%Z) (zrange2 up (mid - 1)) MPS;
    do MPS <- mfold (fun MPS i => swap_step svd N MPS (i - 1)%Z i) (zrange_down d (mid + 1)) MPS;
    do MPS <- three_site svd G MPS mid;
    do MPS <- mfold (fun MPS i => swap_step svd N MPS (i - 1)%Z i) (zrange_down (mid - 1) up) MPS;
    mfold (fun MPS i => swap_step svd N MPS i (i + 1)%Z) (zrange2 (mid + 1) d) MPS.

  Lemma ladder3_ok : forall n A l psi up mid d, is_mps n l psi -> nonzero n psi -> (up < mid)%nat -> (mid < d)%nat -> (d < n)%nat ->
    nonzero n (apply_on A [up; mid; d] psi) ->
    exists l', ladder3 (Z.of_nat n) (Ok (op_tensor 3 A)) (Z.of_nat up) (Z.of_nat mid) (Z.of_nat d) l = Ok l' /\
      is_mps n l' (apply_on A [up; mid; d] psi).
  Proof.
    intros n A l psi up mid d H Hnz Hu Hm Hd HnA. unfold ladder3.
    replace (Z.of_nat mid - 1)%Z with (Z.of_nat (mid - 1)) by lia. replace (Z.of_nat mid + 1)%Z with (Z.of_nat (mid + 1)) by lia.
    pose proof (ladder_down n _ (swap_step_ok n) (mid - 1 - up) up l psi H Hnz ltac:(lia)) as (l1 & E1 & M1 & N1).
    replace (up + (mid - 1 - up))%nat with (mid - 1)%nat in * by lia. rewrite E1. cbn [bind].
    pose proof (ladder_up n _ (swap_step_ok n) (d - (mid + 1)) (mid + 1) l1 _ M1 N1 ltac:(lia)) as (l2 & E2 & M2 & N2).
    replace (mid + 1 + (d - (mid + 1)))%nat with d in * by lia. rewrite E2. cbn [bind].
    set (f1 := ld up (mid - 1)) in *. set (f2 := lu d (mid + 1)) in *. set (g1 := lu (mid - 1) up). set (g2 := ld (mid + 1) d).
    set (f := fun k => f2 (f1 k)). set (g := fun k => g2 (g1 k)).
    assert (Hf1 : maps_to n f1) by (apply ld_maps; lia). assert (Hf2 : maps_to n f2) by (apply lu_maps; lia).
    assert (Hg1 : maps_to n g1) by (apply lu_maps; lia). assert (Hg2 : maps_to n g2) by (apply ld_maps; lia).
    assert (Hf : maps_to n f) by (intros k Hk; apply Hf2, Hf1, Hk). assert (Hg : maps_to n g) by (intros k Hk; apply Hg2, Hg1, Hk).
    assert (M2' : is_mps n l2 (ps n f psi)) by (eapply is_mps_st; [exact M2|exact (ps_ps n f1 f2 psi Hf1)]).
    assert (EC : st_eq n (ps n g (apply_on A [mid - 1; mid; mid + 1]%nat (ps n f psi))) (apply_on A [up; mid; d] psi)).
    { eapply st_trans. { apply (ps_conj n A [mid - 1; mid; mid + 1]%nat f g); auto.
        - apply good_wires_3; lia.
        - intros k Hk. unfold f, g, f1, f2, g1, g2, ld, lu. dif.
        - intros k Hk. unfold f, g, f1, f2, g1, g2, ld, lu. dif. }
      cbn [map]. replace (g (mid - 1)%nat) with up by (unfold g, g1, g2, ld, lu; dif).
      replace (g mid) with mid by (unfold g, g1, g2, ld, lu; dif). replace (g (mid + 1)%nat) with d by (unfold g, g1, g2, ld, lu; dif).
      intros b Hb. reflexivity. }
    assert (N3 : nonzero n (apply_on A [mid - 1; mid; mid + 1]%nat (ps n f psi))).
    { apply (ps_nonzero_inv n g); [auto|]. eapply nonzero_st; [exact HnA|]. now apply st_sym. }
    destruct (three_site_ok svd Hsvd n A l2 _ (mid - 1) M2' ltac:(lia)) as (l3 & E3 & M3).
    { now replace (S (S (mid - 1))) with (mid + 1)%nat by lia; replace (S (mid - 1)) with mid by lia. }
    replace (S (S (mid - 1))) with (mid + 1)%nat in * by lia. replace (S (mid - 1)) with mid in * by lia. rewrite E3. cbn [bind].
    pose proof (ladder_up n _ (swap_step_ok n) (mid - 1 - up) up l3 _ M3 N3 ltac:(lia)) as (l4 & E4 & M4 & N4).
    replace (up + (mid - 1 - up))%nat with (mid - 1)%nat in * by lia. rewrite E4. cbn [bind].
    pose proof (ladder_down n _ (swap_step_ok n) (d - (mid + 1)) (mid + 1) l4 _ M4 N4 ltac:(lia)) as (l5 & E5 & M5 & N5).
    replace (mid + 1 + (d - (mid + 1)))%nat with d in * by lia. rewrite E5. exists l5. split; auto.
    eapply is_mps_st; [exact M5|]. eapply st_trans; [|exact EC]. fold g1 g2. exact (ps_ps n g1 g2 _ Hg1).
  Qed.
End MPSFacts5.
