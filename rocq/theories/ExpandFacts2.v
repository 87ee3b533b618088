(** Lemmas: what the expansion functions of QOperator.v return. *)
From Coq Require Import List ZArith QArith Lia Bool Arith Permutation Ring Setoid Morphisms.
From Verif Require Import PyBase Scalar BigSum Index Tensor TensorFacts Spec SpecFacts QMath QTN QOperator ExpandFacts.
Import ListNotations.
Local Close Scope Q_scope.
Local Open Scope nat_scope.

Lemma good_wires_map : forall n ws vs, good_wires n ws -> good_wires (length ws) vs ->
  good_wires n (map (fun v => nth v ws 0) vs).
Proof.
  intros n ws vs [N1 L1] [N2 L2]. split.
  - apply NoDup_map_inj_in; auto. intros x y Hx Hy E. apply (NoDup_nth ws 0) in E; auto.
  - intros w Hw. apply in_map_iff in Hw. destruct Hw as [v [E Hv]]. subst. apply L1, nth_In. auto.
Qed.

Lemma rd_rd : forall r ws vs, (forall v, In v vs -> v < length ws) ->
  rd (rd r ws) vs = rd r (map (fun v => nth v ws 0) vs).
Proof.
  intros. unfold rd. rewrite map_map. apply map_ext_in. intros v Hv.
  apply (nth_map' _ _ (fun w => nth w r 0)). auto.
Qed.

Lemma same_off_rd : forall n r c ws vs, length r = n -> good_wires n ws -> (forall v, In v vs -> v < length ws) ->
  same_off ws r c && same_off vs (rd r ws) (rd c ws) = same_off (map (fun v => nth v ws 0) vs) r c.
Proof.
  intros n r c ws vs Lr Hw Hv. apply eq_true_iff_eq.
  rewrite andb_true_iff, (same_off_spec n ws), (same_off_spec (length ws) vs), (same_off_spec n) by (auto using rd_length).
  split.
  - intros [H1 H2] i Hi Hni. destruct (in_dec Nat.eq_dec i ws) as [Hin|]; auto.
    destruct (In_nth ws i 0 Hin) as [k [Hk E]].
    assert (H := H2 k Hk). unfold rd in H. rewrite !(nth_map' _ _ _ ws k 0 0) in H by auto. rewrite E in H. apply H.
    intros Hkv. apply Hni. apply in_map_iff. eauto.
  - intros H. split.
    + intros i Hi Hni. apply H; auto. intros Hin. apply in_map_iff in Hin. destruct Hin as [v [E Hv']].
      apply Hni. subst. now apply nth_In, Hv.
    + intros k Hk Hkv. unfold rd. rewrite !(nth_map' _ _ _ ws k 0 0) by auto. apply H.
      * apply Hw, nth_In; auto.
      * intros Hin. apply in_map_iff in Hin. destruct Hin as [v [E Hv']].
        apply (NoDup_nth ws 0) in E; auto; [congruence|apply Hw].
Qed.

Lemma all_one_rd : forall c ws cs, (forall v, In v cs -> v < length ws) ->
  all_one cs (rd c ws) = all_one (map (fun v => nth v ws 0) cs) c.
Proof.
  intros c ws cs H. unfold all_one. induction cs as [|v cs IH]; simpl; auto.
  rewrite IH by (intros; apply H; simpl; auto). f_equal. unfold rd.
  rewrite (nth_map' _ _ _ ws v 0 0) by (apply H; simpl; auto). reflexivity.
Qed.

Lemma good_wires_1 : forall n w, w < n -> good_wires n [w].
Proof. intros n w H. split. { constructor; [auto|constructor]. } intros x [<-|[]]; auto. Qed.
Lemma good_wires_2 : forall n a b, a < n -> b < n -> a <> b -> good_wires n [a; b].
Proof.
  intros n a b Ha Hb Hab. split.
  - constructor; [simpl; intuition congruence|]. constructor; [auto|constructor].
  - intros x [<-|[<-|[]]]; auto.
Qed.
Lemma good_wires_3 : forall n a b c, a < n -> b < n -> c < n -> a <> b -> a <> c -> b <> c -> good_wires n [a; b; c].
Proof.
  intros n a b c Ha Hb Hc Hab Hac Hbc. split.
  - constructor; [simpl; intuition congruence|]. constructor; [simpl; intuition congruence|]. constructor; [auto|constructor].
  - intros x [<-|[<-|[<-|[]]]]; auto.
Qed.

Lemma nth_swapped : forall i j b k, i < length b -> j < length b ->
  nth k (swapped i j b) 0 = if k =? j then nth i b 0 else if k =? i then nth j b 0 else nth k b 0.
Proof.
  intros i j b k Hi Hj. unfold swapped. simpl. rewrite nth_set_nth by now rewrite set_nth_length.
  destruct (k =? j); auto. now rewrite nth_set_nth.
Qed.
Lemma swapped_length : forall i j b, length (swapped i j b) = length b.
Proof. intros. unfold swapped. apply wr_length. Qed.
Lemma swapped_in_bits : forall n i j b, i < n -> j < n -> In b (bits n) -> In (swapped i j b) (bits n).
Proof.
  intros n i j b Hi Hj Hb. apply in_bits in Hb. destruct Hb as [L H]. apply in_bits. rewrite swapped_length. split; auto.
  intros k Hk. rewrite nth_swapped by lia. destruct (k =? j); auto. destruct (k =? i); auto.
Qed.
Lemma swapped_invol : forall i j b, i < length b -> j < length b -> swapped i j (swapped i j b) = b.
Proof.
  intros i j b Hi Hj. apply nth_ext with (d := 0) (d' := 0). { now rewrite !swapped_length. }
  intros k Hk. rewrite nth_swapped by (now rewrite swapped_length). rewrite !nth_swapped by auto.
  destruct (k =? j) eqn:E1; [apply Nat.eqb_eq in E1; subst k|destruct (k =? i) eqn:E2; [apply Nat.eqb_eq in E2; subst k|auto]];
   rewrite ?Nat.eqb_refl.
  - destruct (i =? j) eqn:E; auto. apply Nat.eqb_eq in E; now subst.
  - auto.
Qed.
Lemma swapped_sym : forall i j b, i < length b -> j < length b -> swapped i j b = swapped j i b.
Proof.
  intros i j b Hi Hj. apply nth_ext with (d := 0) (d' := 0). { now rewrite !swapped_length. }
  intros k Hk. rewrite !nth_swapped by auto.
  destruct (k =? j) eqn:E1, (k =? i) eqn:E2; auto.
  apply Nat.eqb_eq in E1, E2. now subst.
Qed.

Lemma swapped_iff : forall n a b r c, length r = n -> length c = n -> a < n -> b < n -> a <> b ->
  (r = swapped a b c <-> same_off [a; b] r c = true /\ nth a r 0 = nth b c 0 /\ nth b r 0 = nth a c 0).
Proof.
  intros n a b r c Lr Lc Ha Hb Hab. rewrite (same_off_spec n) by auto. split.
  - intros ->. repeat split.
    + intros i Hi Hni. simpl in Hni. rewrite nth_swapped by lia.
      destruct (i =? b) eqn:E1. { apply Nat.eqb_eq in E1. intuition. }
      destruct (i =? a) eqn:E2; auto. { apply Nat.eqb_eq in E2. intuition. }
    + rewrite nth_swapped by lia. rewrite Nat.eqb_refl. apply Nat.eqb_neq in Hab. now rewrite Hab.
    + rewrite nth_swapped by lia. now rewrite Nat.eqb_refl.
  - intros [H1 [H2 H3]]. apply nth_ext with (d := 0) (d' := 0). { rewrite swapped_length; lia. }
    intros k Hk. rewrite nth_swapped by lia.
    destruct (k =? b) eqn:E1. { apply Nat.eqb_eq in E1. now subst k. }
    destruct (k =? a) eqn:E2. { apply Nat.eqb_eq in E2. now subst k. }
    apply Nat.eqb_neq in E1, E2. apply H1; [lia|]. simpl. intuition.
Qed.

Section ExpandFacts2.
  Context {SC : Scalar}.
  Add Ring KR : k_ring.
  Local Open Scope k_scope.

  Lemma lift_lift : forall n ws vs A, good_wires n ws -> (forall v, In v vs -> v < length ws)%nat ->
    op_eq n (lift (lift A vs) ws) (lift A (map (fun v => nth v ws 0%nat) vs)).
  Proof.
    intros n ws vs A Hw Hv r c Hr Hc. unfold lift.
    rewrite <- (same_off_rd n) by (auto using bits_length).
    destruct (same_off ws r c); simpl; auto. rewrite !rd_rd by auto. reflexivity.
  Qed.

  Lemma lift_ctrl : forall n ws cs A, good_wires n ws -> (forall v, In v cs -> v < length ws)%nat ->
    op_eq n (lift (ctrl cs A) ws) (ctrl (map (fun v => nth v ws 0%nat) cs) (lift A ws)).
  Proof.
    intros n ws cs A Hw Hv r c Hr Hc. unfold ctrl. rewrite <- all_one_rd by auto.
    unfold lift at 1. destruct (all_one cs (rd c ws)) eqn:E.
    - reflexivity.
    - apply (lift_id n ws Hw r c Hr Hc).
  Qed.

  Lemma ctrl_lift1 : forall n c t U, (c < n -> t < n -> c <> t ->
    op_eq n (ctrl [c] (lift U [t])) (lift (ctrl [0] (lift U [1])) [c; t]))%nat.
  Proof.
    intros n c t U Hc Ht Hne.
    rewrite lift_ctrl by (try (now apply good_wires_2); simpl; intuition).
    apply ctrl_ext. symmetry. rewrite lift_lift by (try (now apply good_wires_2); simpl; intuition). reflexivity.
  Qed.

  Lemma ctrl_lift2 : forall n a b t U, (a < n -> b < n -> t < n -> a <> b -> a <> t -> b <> t ->
    op_eq n (ctrl [a; b] (lift U [t])) (lift (ctrl [0; 1] (lift U [2])) [a; b; t]))%nat.
  Proof.
    intros.
    rewrite lift_ctrl by (try (now apply good_wires_3); simpl; intuition).
    apply ctrl_ext. symmetry. rewrite lift_lift by (try (now apply good_wires_3); simpl; intuition). reflexivity.
  Qed.

  Lemma swap_lift : forall n a b, (a < n -> b < n -> a <> b ->
    op_eq n (swap_op a b) (lift (swap_op 0 1) [a; b]))%nat.
  Proof.
    intros n a b Ha Hb Hab r c Hr Hc. unfold lift, swap_op.
    pose proof (bits_length _ _ Hr) as Lr. pose proof (bits_length _ _ Hc) as Lc.
    pose proof (swapped_iff n a b r c Lr Lc Ha Hb Hab) as H.
    unfold id_op. destruct (list_eq_dec Nat.eq_dec r (swapped a b c)) as [E|E].
    - apply H in E. destruct E as [E1 [E2 E3]]. rewrite E1.
      unfold rd, swapped. cbn [map wr set_nth nth]. rewrite E2, E3.
      destruct (list_eq_dec Nat.eq_dec [nth b c 0%nat; nth a c 0%nat] [nth b c 0%nat; nth a c 0%nat]); congruence.
    - destruct (same_off [a; b] r c) eqn:S; auto.
      unfold rd, swapped. cbn [map wr set_nth nth].
      destruct (list_eq_dec Nat.eq_dec [nth a r 0%nat; nth b r 0%nat] [nth b c 0%nat; nth a c 0%nat]) as [E2|]; auto.
      exfalso. apply E, H. inversion E2. auto.
  Qed.

  Lemma swap_unitary_op : forall n a b, (a < n -> b < n -> unitary n (swap_op a b))%nat.
  Proof.
    intros n a b Ha Hb.
    assert (A : op_eq n (adj_op (swap_op a b)) (swap_op a b)).
    { intros r c Hr Hc. unfold adj_op, swap_op. rewrite id_op_conj.
      pose proof (bits_length _ _ Hr) as Lr. pose proof (bits_length _ _ Hc) as Lc.
      unfold id_op. destruct (list_eq_dec Nat.eq_dec c (swapped a b r)) as [E|E], (list_eq_dec Nat.eq_dec r (swapped a b c)) as [F|F]; auto.
      - exfalso. apply F. rewrite E, swapped_invol by lia. auto.
      - exfalso. apply E. rewrite F, swapped_invol by lia. auto. }
    assert (M : op_eq n (mul_op n (swap_op a b) (swap_op a b)) id_op).
    { intros r c Hr Hc. unfold mul_op, swap_op.
      pose proof (bits_length _ _ Hc) as Lc.
      rewrite (bigsum_single _ _ (swapped a b c)).
      - rewrite swapped_invol, id_op_refl by lia. ring.
      - apply bits_NoDup.
      - now apply swapped_in_bits.
      - intros x Hx Hne. rewrite (id_op_ne x) by auto. ring. }
    split; rewrite A; exact M.
  Qed.

  (** ** factor lists *)
  Lemma eyes_op : forall n, eyes (Z.of_nat n) = map (op_tensor 1) (repeat id_op n).
  Proof.
    intros. unfold eyes. rewrite Nat2Z.id. unfold eye2. rewrite (eye_op 1) || change 2%nat with (2 ^ 1)%nat; rewrite ?(eye_op 1).
    induction n; simpl; auto. now rewrite IHn.
  Qed.

  Lemma py_set_op : forall (Fs : list qop) n w (G : qop), length Fs = n -> (w < n)%nat ->
    py_set (map (op_tensor 1) Fs) (Z.of_nat w) (op_tensor 1 G) = Ok (map (op_tensor 1) (set_nth w G Fs)).
  Proof. intros. rewrite py_set_nat by (rewrite map_length; lia). now rewrite map_set_nth. Qed.

  (** a factor list, read as a function of the position *)
  Definition fac (Fs : list qop) : nat -> qop := fun i => nth i Fs id_op.

  Lemma multi_kron_fac : forall Fs n, length Fs = n -> (0 < n)%nat ->
    multi_kron (map (op_tensor 1) Fs) = Ok (op_tensor n (prod_of n (fac Fs))).
  Proof.
    intros Fs n L Hn. subst. apply multi_kron_op. intros ->. simpl in Hn; lia.
  Qed.

  Lemma fac_repeat : forall n i, fac (repeat id_op n) i = id_op.
  Proof.
    intros. unfold fac. destruct (lt_dec i n).
    - now apply nth_repeat_lt.
    - apply nth_overflow. rewrite repeat_length; lia.
  Qed.
  Lemma fac_set : forall Fs w G i, (w < length Fs)%nat -> fac (set_nth w G Fs) i = if (i =? w)%nat then G else fac Fs i.
  Proof. intros. unfold fac. now apply nth_set_nth. Qed.

  Lemma prod_of_1 : forall n G w F, (w < n)%nat -> (forall i, (i < n)%nat -> F i = if (i =? w)%nat then G else id_op) ->
    op_eq n (prod_of n F) (lift G [w]).
  Proof.
    intros n G w F Hw HF.
    rewrite (prod_lift n F [w]).
    - apply lift_ext. { intros x [<-|[]]; auto. } intros r c Hr Hc. cbn [length seq]. rewrite bigprod_cons, bigprod_nil.
      cbn [nth]. rewrite HF, Nat.eqb_refl by auto.
      pose proof (bits_length _ _ Hr) as Lr. pose proof (bits_length _ _ Hc) as Lc.
      destruct r as [|x [|]]; try discriminate. destruct c as [|y [|]]; try discriminate. cbn [nth]. ring.
    - now apply good_wires_1.
    - intros i Hi Hni. rewrite HF by auto. destruct (i =? w)%nat eqn:E; auto. apply Nat.eqb_eq in E. subst. simpl in Hni; tauto.
  Qed.

  Lemma prod_of_id : forall n F, (forall i, (i < n)%nat -> F i = id_op) -> op_eq n (prod_of n F) id_op.
  Proof.
    intros n F HF. rewrite (prod_lift n F []).
    - rewrite <- (lift_id n []); [|split; [constructor|intros w []]].
      apply lift_ext. { intros w []. } intros r c Hr Hc. simpl in Hr, Hc.
      destruct Hr as [<-|[]]. destruct Hc as [<-|[]]. reflexivity.
    - split; [constructor|intros w []].
    - auto.
  Qed.

  (** factors killed unless the bit passes a test *)
  Definition mask (p : nat -> bool) (A : qop) : qop := fun r c => if p (hd 0%nat c) then A r c else 0.

  Lemma prod_of_mask : forall n F G (cs : list nat) p, (forall w, In w cs -> w < n)%nat ->
    (forall i, (i < n)%nat -> op_eq 1 (F i) (if existsb (Nat.eqb i) cs then mask p (G i) else G i)) ->
    op_eq n (prod_of n F) (fun r c => if forallb (fun w => p (nth w c 0%nat)) cs then prod_of n G r c else 0).
  Proof.
    intros n F G cs p Hc HF. rewrite (prod_of_ext n F _ HF). clear HF F.
    intros r c Hr Hcc. unfold prod_of. destruct (forallb _ cs) eqn:E.
    - apply bigprod_ext. intros i Hi. destruct (existsb (Nat.eqb i) cs) eqn:X; auto.
      unfold mask. cbn [hd]. apply existsb_eqb_In in X. rewrite forallb_forall in E. now rewrite E.
    - assert (D : exists w, In w cs /\ p (nth w c 0%nat) = false).
      { clear - E. induction cs as [|w cs IH]; simpl in E; [discriminate|].
        destruct (p (nth w c 0%nat)) eqn:P; simpl in E.
        - destruct (IH E) as [v [H1 H2]]. exists v; simpl; auto.
        - exists w; simpl; auto. }
      destruct D as [w [H1 H2]]. apply (bigprod_zero _ _ _ w). { apply in_seq. specialize (Hc w H1). lia. }
      replace (existsb (Nat.eqb w) cs) with true by (symmetry; now apply existsb_eqb_In).
      unfold mask. cbn [hd]. now rewrite H2.
  Qed.

  Definition o00 : qop := op2 1 0 0 0.
  Definition o11 : qop := op2 0 0 0 1.
  Definition o01 : qop := op2 0 1 0 0.
  Definition o10 : qop := op2 0 0 1 0.
  Lemma mat_of_op2 : forall a b c d, mat_of [[a; b]; [c; d]] = op_tensor 1 (op2 a b c d).
  Proof. reflexivity. Qed.
  Lemma bits1_cases : forall b, In b (bits 1) -> b = [0%nat] \/ b = [1%nat].
  Proof. intros b [<-|[<-|[]]]; auto. Qed.
  Lemma op_eq_1 : forall A B, A [0%nat] [0%nat] = B [0%nat] [0%nat] -> A [0%nat] [1%nat] = B [0%nat] [1%nat] ->
    A [1%nat] [0%nat] = B [1%nat] [0%nat] -> A [1%nat] [1%nat] = B [1%nat] [1%nat] -> op_eq 1 A B.
  Proof.
    intros A B H1 H2 H3 H4 r c Hr Hc.
    destruct (bits1_cases r Hr) as [-> | ->], (bits1_cases c Hc) as [-> | ->]; auto.
  Qed.
  Lemma o11_mask : op_eq 1 o11 (mask (fun x => x =? 1)%nat id_op).
  Proof. now apply op_eq_1. Qed.
  Lemma o00_mask : op_eq 1 o00 (mask (fun x => x =? 0)%nat id_op).
  Proof. now apply op_eq_1. Qed.

  Lemma set_many_length : forall (cs : list nat) (G : qop) Fs,
    length (fold_left (fun l w => set_nth w G l) cs Fs) = length Fs.
  Proof. induction cs; simpl; intros; auto. now rewrite IHcs, set_nth_length. Qed.
  Lemma fac_set_many : forall (cs : list nat) G Fs i, (forall w, In w cs -> w < length Fs)%nat ->
    fac (fold_left (fun l w => set_nth w G l) cs Fs) i = if existsb (Nat.eqb i) cs then G else fac Fs i.
  Proof.
    induction cs as [|w cs IH]; simpl; intros G Fs i H; auto.
    rewrite IH by (intros; rewrite set_nth_length; auto). rewrite fac_set by auto.
    destruct (i =? w)%nat; simpl; auto. now destruct (existsb (Nat.eqb i) cs).
  Qed.
  Lemma mfold_set_op : forall (cs : list nat) (G : qop) Fs n, length Fs = n -> (forall w, In w cs -> w < n)%nat ->
    mfold (fun l each => py_set l each (op_tensor 1 G)) (map Z.of_nat cs) (map (op_tensor 1) Fs) =
    Ok (map (op_tensor 1) (fold_left (fun l w => set_nth w G l) cs Fs)).
  Proof.
    induction cs as [|w cs IH]; intros G Fs n L H; [reflexivity|]. cbn [map mfold].
    rewrite (py_set_op _ n) by (simpl in H; auto). cbn [bind].
    apply (IH _ _ n). { now rewrite set_nth_length. } simpl in H; auto.
  Qed.

  (** ** the expansion functions *)
  Lemma gate_expand_ok : forall n w G, (w < n)%nat ->
    gate_expand_1toN (op_tensor 1 G) (Z.of_nat n) (Z.of_nat w) = Ok (op_tensor n (lift G [w])).
  Proof.
    intros n w G Hw. unfold gate_expand_1toN, raise_if.
    replace (Z.of_nat n <? 1)%Z with false by lia.
    replace ((Z.of_nat w <? 0)%Z || (Z.of_nat n - 1 <? Z.of_nat w)%Z) with false by lia.
    rewrite eyes_op, (py_set_op _ n) by (rewrite ?repeat_length; auto). cbn [bind].
    rewrite (multi_kron_fac _ n) by (rewrite ?set_nth_length, ?repeat_length; lia). f_equal. apply op_tensor_ext.
    apply prod_of_1; auto. intros i Hi. rewrite fac_set by (now rewrite repeat_length). now rewrite fac_repeat.
  Qed.

  (** one-qubit factors U at t and |1><1| at the controls *)
  Lemma ctrl_prod : forall n cs t U F, (t < n)%nat -> (forall w, In w cs -> w < n)%nat -> ~ In t cs ->
    (forall i, (i < n)%nat -> F i = if (i =? t)%nat then U else if existsb (Nat.eqb i) cs then o11 else id_op) ->
    op_eq n (prod_of n F) (fun r c => if all_one cs c then lift U [t] r c else 0).
  Proof.
    intros n cs t U F Ht Hc Hn HF.
    rewrite (prod_of_mask n F (fun i => if (i =? t)%nat then U else id_op) cs (fun x => x =? 1)%nat); auto.
    - intros r c Hr Hcc. unfold all_one.
      rewrite (prod_of_1 n U t (fun i => if (i =? t)%nat then U else id_op) Ht) by auto. reflexivity.
    - intros i Hi. rewrite HF by auto. destruct (i =? t)%nat eqn:E.
      + apply Nat.eqb_eq in E. subst.
        destruct (existsb (Nat.eqb t) cs) eqn:X; [|reflexivity]. apply existsb_eqb_In in X. tauto.
      + destruct (existsb (Nat.eqb i) cs); [|reflexivity]. apply o11_mask.
  Qed.

  Lemma two_qubit_control_ok : forall n c t U, (c < n)%nat -> (t < n)%nat -> c <> t ->
    two_qubit_control_gate (op_tensor 1 U) (Z.of_nat n) (Z.of_nat c) (Z.of_nat t) =
    Ok (op_tensor n (ctrl [c] (lift U [t]))).
  Proof.
    intros n c t U Hc Ht Hne. unfold two_qubit_control_gate, raise_if.
    replace (Z.of_nat n <? 1)%Z with false by lia.
    replace (Z.of_nat n - 1 <? Z.max (Z.of_nat c) (Z.of_nat t))%Z with false by lia.
    replace (Z.min (Z.of_nat c) (Z.of_nat t) <? 0)%Z with false by lia.
    replace (Z.of_nat c =? Z.of_nat t)%Z with false by lia.
    unfold zero_zero, one_one. rewrite !mat_of_op2. fold o00 o11.
    rewrite eyes_op, !(py_set_op _ n) by (rewrite ?repeat_length; auto). cbn [bind].
    rewrite !(py_set_op _ n) by (rewrite ?set_nth_length, ?repeat_length; auto). cbn [bind].
    rewrite !(multi_kron_fac _ n) by (rewrite ?set_nth_length, ?repeat_length; lia). cbn [bind].
    rewrite tadd_op. f_equal. apply op_tensor_ext.
    intros r cc Hr Hcc.
    rewrite (ctrl_prod n [c] t U (fac (set_nth t U (set_nth c o11 (repeat id_op n))))); auto.
    2:{ intros w [<-|[]]; auto. }
    2:{ intros [E|[]]; congruence. }
    2:{ intros i Hi. rewrite !fac_set, fac_repeat by (rewrite ?set_nth_length, ?repeat_length; auto).
        cbn [existsb]. rewrite orb_false_r. reflexivity. }
    rewrite (prod_of_mask n _ (fun _ => id_op) [c] (fun x => x =? 0)%nat); auto.
    - rewrite (prod_of_id n (fun _ => id_op)) by auto.
      cbn [forallb all_one]. unfold ctrl, all_one. cbn [forallb]. rewrite !andb_true_r.
      assert (nth c cc 0 < 2)%nat by (apply in_bits in Hcc; apply Hcc; auto).
      destruct (nth c cc 0%nat) as [|[|]]; [| |lia]; cbn [Nat.eqb]; ring.
    - intros w [<-|[]]; auto.
    - intros i Hi. rewrite fac_set, fac_repeat by (now rewrite repeat_length).
      cbn [existsb]. rewrite orb_false_r. destruct (i =? c)%nat; [apply o00_mask|reflexivity].
  Qed.

  Lemma fold_max_bound : forall l a b, (a <= b)%Z -> (forall x, In x l -> (x <= b)%Z) -> (fold_left Z.max l a <= b)%Z.
  Proof. induction l; simpl; intros; auto. apply IHl; auto. assert (a <= b)%Z by auto. lia. Qed.
  Lemma fold_min_bound : forall l a b, (b <= a)%Z -> (forall x, In x l -> (b <= x)%Z) -> (b <= fold_left Z.min l a)%Z.
  Proof. induction l; simpl; intros; auto. apply IHl; auto. assert (b <= a)%Z by auto. lia. Qed.

  Lemma multi_control_ok : forall n cs t U, cs <> [] -> (forall w, In w cs -> w < n)%nat -> (t < n)%nat -> ~ In t cs ->
    multi_control_gate (op_tensor 1 U) (Z.of_nat n) (map Z.of_nat cs) (Z.of_nat t) =
    Ok (op_tensor n (ctrl cs (lift U [t]))).
  Proof.
    intros n cs t U Hne Hc Ht Hni. unfold multi_control_gate, raise_if.
    replace (Z.of_nat n <? 1)%Z with false by lia.
    destruct cs as [|c0 cs']; [congruence|]. cbn [map py_max py_min bind].
    set (mx := fold_left Z.max (map Z.of_nat cs') (Z.of_nat c0)).
    set (mn := fold_left Z.min (map Z.of_nat cs') (Z.of_nat c0)).
    assert (Hmx : (mx <= Z.of_nat n - 1)%Z).
    { apply fold_max_bound. { specialize (Hc c0 (or_introl eq_refl)); lia. }
      intros x Hx. apply in_map_iff in Hx. destruct Hx as [w [<- Hw]]. specialize (Hc w (or_intror Hw)). lia. }
    assert (Hmn : (0 <= mn)%Z).
    { apply fold_min_bound; [lia|]. intros x Hx. apply in_map_iff in Hx. destruct Hx as [w [<- Hw]]. lia. }
    replace (Z.of_nat n - 1 <? Z.max mx (Z.of_nat t))%Z with false by lia.
    replace (Z.min mn (Z.of_nat t) <? 0)%Z with false by lia.
    replace (existsb (fun each => each =? Z.of_nat t)%Z (Z.of_nat c0 :: map Z.of_nat cs')) with false.
    2:{ symmetry. apply not_true_iff_false. intros X. apply existsb_exists in X. destruct X as [x [Hx Ex]].
        apply Z.eqb_eq in Ex. subst x. apply Hni. change (Z.of_nat c0 :: map Z.of_nat cs') with (map Z.of_nat (c0 :: cs')) in Hx.
        apply in_map_iff in Hx. destruct Hx as [w [E Hw]]. apply Nat2Z.inj in E. now subst. }
    change (Z.of_nat c0 :: map Z.of_nat cs') with (map Z.of_nat (c0 :: cs')).
    clear mx mn Hmx Hmn Hne. set (cs := c0 :: cs') in *. clearbody cs.
    unfold one_one. rewrite !mat_of_op2. fold o11.
    rewrite eyes_op, !(mfold_set_op _ _ _ n) by (rewrite ?repeat_length; auto). cbn [bind].
    rewrite !(py_set_op _ n) by (rewrite ?set_many_length, ?repeat_length; auto). cbn [bind].
    rewrite !(multi_kron_fac _ n) by (rewrite ?set_nth_length, ?set_many_length, ?repeat_length; lia). cbn [bind].
    rewrite tsub_op. cbn [bind]. rewrite tadd_op. f_equal. apply op_tensor_ext.
    intros r cc Hr Hcc.
    rewrite (ctrl_prod n cs t U (fac (set_nth t U (fold_left (fun l w => set_nth w o11 l) cs (repeat id_op n))))); auto.
    2:{ intros i Hi. rewrite fac_set, fac_set_many, fac_repeat by (rewrite ?set_many_length, ?repeat_length; auto). reflexivity. }
    rewrite (prod_of_id n (fac (repeat id_op n))); auto using fac_repeat.
    rewrite (prod_of_mask n (fac (fold_left (fun l w => set_nth w o11 l) cs (repeat id_op n))) (fun _ => id_op) cs (fun x => x =? 1)%nat); auto.
    - rewrite (prod_of_id n (fun _ => id_op)) by auto.
      unfold ctrl, all_one. destruct (forallb _ cs); ring.
    - intros i Hi. rewrite fac_set_many, fac_repeat by (rewrite repeat_length; auto).
      destruct (existsb (Nat.eqb i) cs); [apply o11_mask|reflexivity].
  Qed.

  (** two factors *)
  Lemma prod_of_2 : forall n A B a b F, (a < n)%nat -> (b < n)%nat -> a <> b ->
    (forall i, (i < n)%nat -> F i = if (i =? b)%nat then B else if (i =? a)%nat then A else id_op) ->
    op_eq n (prod_of n F)
      (lift (fun r c => A [nth 0 r 0%nat] [nth 0 c 0%nat] * B [nth 1 r 0%nat] [nth 1 c 0%nat]) [a; b]).
  Proof.
    intros n A B a b F Ha Hb Hab HF.
    rewrite (prod_lift n F [a; b]).
    - apply lift_ext. { intros x [<-|[<-|[]]]; auto. } intros r c Hr Hc. cbn [length seq]. rewrite !bigprod_cons, bigprod_nil.
      cbn [nth]. rewrite !HF, !Nat.eqb_refl by auto.
      replace (a =? b)%nat with false by (symmetry; now apply Nat.eqb_neq). ring.
    - now apply good_wires_2.
    - intros i Hi Hni. simpl in Hni. rewrite HF by auto.
      destruct (i =? b)%nat eqn:E. { apply Nat.eqb_eq in E. intuition congruence. }
      destruct (i =? a)%nat eqn:E2; auto. apply Nat.eqb_eq in E2. intuition congruence.
  Qed.

  Lemma lift2_mul : forall n A B a b, (a < n)%nat -> (b < n)%nat -> a <> b ->
    op_eq n (mul_op n (lift A [a]) (lift B [b]))
      (lift (fun r c => A [nth 0 r 0%nat] [nth 0 c 0%nat] * B [nth 1 r 0%nat] [nth 1 c 0%nat]) [a; b]).
  Proof.
    intros n A B a b Ha Hb Hab r c Hr Hc.
    rewrite lift_mul_disjoint; auto using good_wires_1. { intros w [<-|[]] [E|[]]. congruence. }
  Qed.

  Lemma lift_add : forall ws A B r c, lift A ws r c + lift B ws r c = lift (fun r c => A r c + B r c) ws r c.
  Proof. intros. unfold lift. destruct (same_off ws r c); ring. Qed.

  Lemma bits2_cases : forall b, In b (bits 2) ->
    b = [0%nat; 0%nat] \/ b = [0%nat; 1%nat] \/ b = [1%nat; 0%nat] \/ b = [1%nat; 1%nat].
  Proof. intros b Hb. cbn in Hb. intuition. Qed.

  Lemma op_eq_2 : forall A B, (forall x y z w, x < 2 -> y < 2 -> z < 2 -> w < 2 -> A [x; y] [z; w] = B [x; y] [z; w])%nat ->
    op_eq 2 A B.
  Proof.
    intros A B H r c Hr Hc. apply in_bits in Hr, Hc. destruct Hr as [Lr Hr], Hc as [Lc Hc].
    destruct r as [|x [|y [|? ?]]]; try discriminate. destruct c as [|z [|w [|? ?]]]; try discriminate.
    apply H; [apply (Hr 0%nat)|apply (Hr 1%nat)|apply (Hc 0%nat)|apply (Hc 1%nat)]; lia.
  Qed.

  Lemma swap_U_ok : forall n a b, (a < n)%nat -> (b < n)%nat -> a <> b ->
    swap_U (Z.of_nat n) (Z.of_nat a) (Z.of_nat b) = Ok (op_tensor n (swap_op a b)).
  Proof.
    intros n a b Ha Hb Hab. unfold swap_U.
    unfold zero_zero, one_one, zero_one, one_zero. rewrite !mat_of_op2. fold o00 o11 o01 o10.
    rewrite eyes_op, !(py_set_op _ n) by (rewrite ?repeat_length; auto). cbn [bind].
    rewrite !(py_set_op _ n) by (rewrite ?set_nth_length, ?repeat_length; auto). cbn [bind].
    rewrite !(multi_kron_fac _ n) by (rewrite ?set_nth_length, ?repeat_length; lia). cbn [bind].
    rewrite !tadd_op. cbn [bind]. rewrite tadd_op. cbn [bind]. rewrite tadd_op. f_equal. apply op_tensor_ext.
    intros r cc Hr Hcc.
    assert (F : forall A B, op_eq n (prod_of n (fac (set_nth b B (set_nth a A (repeat id_op n)))))
      (lift (fun r c => A [nth 0 r 0%nat] [nth 0 c 0%nat] * B [nth 1 r 0%nat] [nth 1 c 0%nat]) [a; b])).
    { intros A B. apply prod_of_2; auto. intros i Hi.
      rewrite !fac_set, fac_repeat by (rewrite ?set_nth_length, ?repeat_length; auto). reflexivity. }
    rewrite !F, !lift_add by auto. rewrite (swap_lift n a b) by auto.
    apply (lift_ext n); auto. { intros x [<-|[<-|[]]]; auto. } clear.
    apply op_eq_2. intros x y z w Hx Hy Hz Hw. cbn [nth].
    destruct x as [|[|]], y as [|[|]], z as [|[|]], w as [|[|]]; try lia; cbn; ring.
  Qed.

  Lemma rpp_U_ok : forall n a b P cc s, (a < n)%nat -> (b < n)%nat -> a <> b ->
    rpp_U (op_tensor 1 P) cc s (Z.of_nat n) (Z.of_nat a) (Z.of_nat b) =
    Ok (op_tensor n (add_op (scale_op cc id_op) (scale_op s (mul_op n (lift P [a]) (lift P [b]))))).
  Proof.
    intros n a b P cc s Ha Hb Hab. unfold rpp_U, raise_if.
    replace (Z.of_nat n <? 1)%Z with false by lia.
    replace ((Z.of_nat a <? 0)%Z || (Z.of_nat n - 1 <? Z.of_nat a)%Z || (Z.of_nat b <? 0)%Z || (Z.of_nat n - 1 <? Z.of_nat a)%Z) with false by lia.
    replace (Z.of_nat a =? Z.of_nat b)%Z with false by lia.
    rewrite eyes_op, !(py_set_op _ n) by (rewrite ?repeat_length; auto). cbn [bind].
    rewrite !(py_set_op _ n) by (rewrite ?set_nth_length, ?repeat_length; auto). cbn [bind].
    rewrite !(multi_kron_fac _ n) by (rewrite ?set_nth_length, ?repeat_length; lia). cbn [bind].
    rewrite !tscale_op, tadd_op. f_equal. apply op_tensor_ext.
    intros r c Hr Hc. unfold add_op, scale_op. f_equal; f_equal.
    - apply (prod_of_id n); auto. intros; apply fac_repeat.
    - rewrite (lift2_mul n) by auto. apply (prod_of_2 n); auto. intros i Hi.
      rewrite !fac_set, fac_repeat by (rewrite ?set_nth_length, ?repeat_length; auto). reflexivity.
  Qed.
End ExpandFacts2.
