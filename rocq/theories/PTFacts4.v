(** Lemmas: the recursion of partial_trace and partial_trace_old. *)
From Coq Require Import List ZArith QArith Lia Bool Arith Permutation Sorted.
From Verif Require Import PyBase Scalar BigSum Index Tensor TensorFacts Spec SpecFacts QMath PTSpec PTFacts1 PTFacts2 PTFacts3.
Import ListNotations.
Local Close Scope Q_scope.
Local Open Scope nat_scope.

(** sorting *)
Notation sortedZ := (StronglySorted Z.le).
Lemma zinsert_perm : forall x l, Permutation (zinsert x l) (x :: l).
Proof.
  induction l as [|y l IH]; cbn; auto. destruct (x <=? y)%Z; auto. rewrite IH. apply perm_swap.
Qed.
Lemma zsort_perm : forall l, Permutation (zsort l) l.
Proof. induction l as [|y l IH]; cbn; auto. change (Permutation (zinsert y (zsort l)) (y :: l)). rewrite zinsert_perm. auto. Qed.
Lemma zinsert_sorted : forall x l, sortedZ l -> sortedZ (zinsert x l).
Proof.
  induction l as [|y l IH]; intros H; cbn. { repeat constructor. } inversion H as [|? ? H1 H2]; subst.
  destruct (x <=? y)%Z eqn:E; [apply Z.leb_le in E|apply Z.leb_gt in E].
  - constructor; auto. constructor; auto. rewrite Forall_forall in *. intros z Hz. specialize (H2 z Hz). lia.
  - constructor; auto. apply Forall_forall. intros z Hz. apply (Permutation_in _ (zinsert_perm x l)) in Hz. destruct Hz as [<-|Hz]; [lia|]. rewrite Forall_forall in H2. auto.
Qed.
Lemma zsort_sorted : forall l, sortedZ (zsort l).
Proof. induction l as [|y l IH]; cbn; [constructor|]. now apply zinsert_sorted. Qed.
Lemma zsort_id : forall l, sortedZ l -> zsort l = l.
Proof.
  induction l as [|y l IH]; intros H; auto. inversion H as [|? ? H1 H2]; subst. change (zinsert y (zsort l) = y :: l). rewrite IH by auto. destruct l as [|z l]; auto. cbn.
  inversion H2; subst. apply Z.leb_le in H4. now rewrite H4.
Qed.
Lemma sorted_sub : forall k l, sortedZ l -> sortedZ (map (fun x => (x - k)%Z) l).
Proof.
  intros k l S. induction S as [|a l S IH F]; cbn; constructor; auto. apply Forall_forall. intros x Hx. apply in_map_iff in Hx. destruct Hx as (y & <- & Hy). rewrite Forall_forall in F. specialize (F y Hy). lia.
Qed.
Lemma sorted_unique : forall l s, Permutation s l -> sortedZ s -> zsort l = s.
Proof.
  intros l s P S. assert (G : forall a b, Permutation a b -> sortedZ a -> sortedZ b -> a = b).
  { induction a as [|x a IH]; intros b Pb Sa Sb. { apply Permutation_nil in Pb. now subst. }
    destruct b as [|y b]; [now apply Permutation_sym, Permutation_nil in Pb|].
    inversion Sa as [|? ? A1 A2]; inversion Sb as [|? ? B1 B2]; subst. rewrite Forall_forall in A2, B2.
    assert (x = y).
    { assert (X : In x (y :: b)) by (apply (Permutation_in _ Pb); now left). assert (Y : In y (x :: a)) by (apply (Permutation_in _ (Permutation_sym Pb)); now left).
      destruct X as [X|X]; auto. destruct Y as [Y|Y]; auto. specialize (A2 y Y). specialize (B2 x X). lia. }
    subst y. f_equal. apply IH; auto. now apply Permutation_cons_inv in Pb. }
  apply G; auto using zsort_sorted. rewrite zsort_perm. now symmetry.
Qed.
Lemma py_max_spec : forall l m, py_max l = Ok m -> In m l /\ forall x, In x l -> (x <= m)%Z.
Proof.
  intros [|a l] m H; inversion H; subst. clear H. revert a. induction l as [|b l IH]; intros a; cbn [fold_left].
  - split; [now left|]. intros x [<-|[]]. lia.
  - destruct (IH (Z.max a b)) as [I1 I2]. split.
    + destruct I1 as [E|I1]; [|now right; right]. rewrite <- E. destruct (Z.max_spec a b) as [[_ ->]|[_ ->]]; cbn; auto.
    + intros x [<-|[<-|Hx]]; [specialize (I2 (Z.max a b) (or_introl eq_refl)); lia|specialize (I2 (Z.max a b) (or_introl eq_refl)); lia|apply I2; now right].
Qed.

(** every entry is at least its position, counted from k *)
Fixpoint fits (k : nat) (l : list Z) : bool := match l with [] => true | q :: l' => (Z.of_nat k <=? q)%Z && fits (S k) l' end.
Lemma fits_spec : forall l k, fits k l = true <-> forall i, i < length l -> (Z.of_nat (k + i) <= nth i l 0)%Z.
Proof.
  induction l as [|q l IH]; intros k; cbn [fits]. { split; auto. cbn. intros _ i Hi. lia. }
  rewrite andb_true_iff, Z.leb_le, IH. split.
  - intros [H1 H2] [|i] Hi; cbn [nth]; [rewrite Nat.add_0_r; auto|]. specialize (H2 i ltac:(cbn in Hi; lia)). rewrite <- Nat.add_succ_comm in *. auto.
  - intros H. split; [specialize (H 0 ltac:(cbn; lia)); now rewrite Nat.add_0_r in H|]. intros i Hi. specialize (H (S i) ltac:(cbn; lia)). now rewrite <- Nat.add_succ_comm in H.
Qed.

Lemma removed_length : forall l n k, length (removed n k l) = length l.
Proof. induction l as [|q l IH]; intros; cbn; auto. now rewrite orig_length, IH. Qed.
Lemma removed_good : forall l n k, fits k l = true -> Forall (fun x => (x < Z.of_nat (n + k))%Z) l -> sortedZ l -> good_wires n (removed n k (map Z.to_nat l)).
Proof.
  induction l as [|q l IH]; intros n k F B S; cbn [map removed]. { split; [constructor|intros ? []]. }
  cbn [fits] in F. apply andb_true_iff in F. destruct F as [F1 F2]. apply Z.leb_le in F1. inversion B as [|? ? B1 B2]; inversion S as [|? ? S1 S2]; subst.
  change ((Z.to_nat q - k) :: orig n [Z.to_nat q - k] (removed (n - 1) (Datatypes.S k) (map Z.to_nat l))) with ([Z.to_nat q - k] ++ orig n [Z.to_nat q - k] (removed (n - 1) (Datatypes.S k) (map Z.to_nat l))).
  apply orig_good; [apply good1; lia|]. cbn [length]. apply IH; auto. eapply Forall_impl; [|exact B2]. intros a Ha. cbn beta in Ha. lia.
Qed.
(** strictly increasing lists are traced out as they are *)
Lemma removed_strict : forall l n k, StronglySorted lt l -> Forall (fun x => k <= x < n + k) l -> removed n k l = map (fun x => x - k) l.
Proof.
  induction l as [|q l IH]; intros n k S B; cbn [map removed]; auto. inversion S as [|? ? S1 S2]; inversion B as [|? ? B1 B2]; subst. f_equal.
  rewrite IH; auto.
  - unfold orig. rewrite map_map. apply map_ext_in. intros x Hx. rewrite Forall_forall in S2, B2. specialize (S2 x Hx). specialize (B2 x Hx).
    rewrite nth_kept1 by lia. destruct (x - Datatypes.S k <? q - k) eqn:E; [apply Nat.ltb_lt in E; lia|lia].
  - rewrite Forall_forall in *. intros x Hx. specialize (S2 x Hx). specialize (B2 x Hx). lia.
Qed.

Section PTFacts.
  Context {SC : Scalar}.
  Add Ring KR : k_ring.
  Local Open Scope k_scope.

  (** the trace check *)
  Definition trace_ok (n : nat) (A : qop) : bool := negb (kabsgt (trace_op n A - 1) (1 # 10000)).
  Lemma checks_op : forall X n A l (k : res X), pt_checks (op_tensor n A) n l k =
    if trace_ok n A then (if existsb (fun x => (Z.of_nat n - 1 <? x)%Z) l then Err ValueError else k) else Err ValueError.
  Proof.
    intros X n A l k. unfold pt_checks, trace_ok. rewrite trace_op_tensor. cbn [bind]. change (shape (op_tensor n A)) with [2 ^ n; 2 ^ n]%nat. cbn [hd]. rewrite Nat.eqb_refl.
    destruct (kabsgt _ _); cbn [raise_if negb]; auto. destruct l as [|a l]; auto. cbn [length Nat.eqb negb andb].
    destruct (py_max (a :: l)) as [m|e] eqn:E; [|discriminate]. apply py_max_spec in E. destruct E as [E1 E2].
    replace (existsb (fun x => (Z.of_nat n - 1 <? x)%Z) (a :: l)) with (Z.of_nat n - 1 <? m)%Z; auto.
    apply eq_true_iff_eq. rewrite existsb_exists, Z.ltb_lt. split; [intros; exists m; split; auto; now apply Z.ltb_lt|].
    intros (x & Hx & Hlt). apply Z.ltb_lt in Hlt. specialize (E2 x Hx). lia.
  Qed.

  Section Walk.
    Variable F : nat -> tensor -> nat -> list Z -> res tensor.
    Hypothesis F_step : forall fuel n A l, F fuel (op_tensor n A) n l =
      pt_checks (op_tensor n A) n l (match zsort l with
        | [] => Ok (op_tensor n A)
        | q :: rest => if (q <? 0)%Z then Err TypeError else
            match fuel with 0%nat => Err TypeError | S f => F f (op_tensor (n - 1) (ptr n [Z.to_nat q] A)) (n - 1) (map (fun j => (j - 1)%Z) rest) end end).
    Lemma walk : forall l n k A fuel, sortedZ l -> Forall (fun x => (x < Z.of_nat (n + k))%Z) l -> (length l <= fuel)%nat -> trace_ok n A = true ->
      F fuel (op_tensor n A) n (map (fun x => (x - Z.of_nat k)%Z) l) =
      if fits k l then Ok (op_tensor (n - length l) (ptr n (removed n k (map Z.to_nat l)) A)) else Err TypeError.
    Proof.
      induction l as [|q l IH]; intros n k A fuel S B L T; rewrite F_step, checks_op, T.
      - cbn. rewrite Nat.sub_0_r. f_equal. apply op_tensor_ext. symmetry. apply ptr_nil.
      - replace (existsb _ _) with false.
        2:{ symmetry. apply not_true_iff_false. intros X. apply existsb_exists in X. destruct X as (x & Hx & X). apply Z.ltb_lt in X. apply in_map_iff in Hx. destruct Hx as (y & <- & Hy). rewrite Forall_forall in B. specialize (B y Hy). lia. }
        rewrite zsort_id.
        2:{ now apply sorted_sub. }
        cbn [map fits length]. inversion S as [|? ? S1 S2]; inversion B as [|? ? B1 B2]; subst.
        destruct (q - Z.of_nat k <? 0)%Z eqn:E; [apply Z.ltb_lt in E|apply Z.ltb_ge in E].
        { replace (Z.of_nat k <=? q)%Z with false; auto. symmetry. apply Z.leb_gt. lia. }
        replace (Z.of_nat k <=? q)%Z with true by (symmetry; apply Z.leb_le; lia). cbn [andb].
        destruct fuel as [|fuel]; [cbn in L; lia|].
        assert (Hq : (Z.to_nat (q - Z.of_nat k) < n)%nat) by lia. pose proof (good1 n _ Hq) as G1.
        rewrite map_map. rewrite (map_ext _ (fun x => (x - Z.of_nat (Datatypes.S k))%Z)) by (intros; lia).
        assert (B3 : Forall (fun x => (x < Z.of_nat (n - 1 + Datatypes.S k))%Z) l) by (eapply Forall_impl; [|exact B2]; intros a Ha; cbn beta in Ha; lia).
        rewrite IH; auto; [|cbn in L; lia|].
        2:{ unfold trace_ok in *. pose proof (ptr_trace n [Z.to_nat (q - Z.of_nat k)] A G1) as E2. cbn [length] in E2. now rewrite E2. }
        destruct (fits (Datatypes.S k) l) eqn:Fi; auto. f_equal.
        replace (n - Datatypes.S (length l))%nat with (n - 1 - length l)%nat by lia. apply op_tensor_ext. cbn [removed].
        replace (Z.to_nat (q - Z.of_nat k)) with (Z.to_nat q - k)%nat in * by lia.
        pose proof (removed_good l (n - 1) (Datatypes.S k) Fi B3 S1) as G2.
        pose proof (ptr_comp n [(Z.to_nat q - k)%nat] _ A G1 G2) as E2. cbn [length] in E2. rewrite removed_length, map_length in E2. exact E2.
    Qed.
    Lemma walk_ok : forall l s n A, Permutation s l -> sortedZ s -> F (length l) (op_tensor n A) n l =
      if trace_ok n A then (if existsb (fun x => (Z.of_nat n - 1 <? x)%Z) l then Err ValueError else
        if fits 0 s then Ok (op_tensor (n - length l) (ptr n (removed n 0 (map Z.to_nat s)) A)) else Err TypeError) else Err ValueError.
    Proof.
      intros l s n A P S. destruct (trace_ok n A) eqn:T; [|now rewrite F_step, checks_op, T].
      destruct (existsb _ l) eqn:E; [now rewrite F_step, checks_op, T, E|].
      assert (B : Forall (fun x => (x < Z.of_nat (n + 0))%Z) s).
      { apply Forall_forall. intros x Hx. apply (Permutation_in _ P) in Hx. apply Z.nle_gt. intros X. apply not_true_iff_false in E. apply E. apply existsb_exists. exists x. split; auto. apply Z.ltb_lt. lia. }
      pose proof (walk s n 0 A (length l) S B ltac:(rewrite (Permutation_length P); lia) T) as W.
      rewrite (map_ext _ (fun x => x)) in W by (intros; lia). rewrite map_id in W. rewrite <- (Permutation_length P), <- W. rewrite (Permutation_length P).
      rewrite (F_step _ _ _ l), (F_step _ _ _ s), !checks_op, T.
      replace (existsb (fun x => (Z.of_nat n - 1 <? x)%Z) s) with false.
      - rewrite E. now rewrite (sorted_unique l s P S), (zsort_id s S).
      - symmetry. apply not_true_iff_false. intros X. apply existsb_exists in X. destruct X as (x & Hx & X). rewrite Forall_forall in B. specialize (B x Hx). apply Z.ltb_lt in X. lia.
    Qed.
  End Walk.

  Lemma pt_out : forall n l X (k k' : res X) A, (existsb (fun x => (Z.of_nat n - 1 <? x)%Z) l = false -> k = k') -> pt_checks (op_tensor n A) n l k = pt_checks (op_tensor n A) n l k'.
  Proof. intros n l X k k' A H. rewrite !checks_op. destruct (trace_ok n A); auto. destruct (existsb _ l); auto. Qed.
  Lemma first_lt : forall n l q rest, existsb (fun x => (Z.of_nat n - 1 <? x)%Z) l = false -> zsort l = q :: rest -> (q < Z.of_nat n)%Z.
  Proof.
    intros n l q rest E Z. assert (I : In q l) by (apply (Permutation_in _ (zsort_perm l)); rewrite Z; now left).
    apply Z.nle_gt. intros X. apply not_true_iff_false in E. apply E. apply existsb_exists. exists q. split; auto. apply Z.ltb_lt. lia.
  Qed.
  Lemma pt_rec_step : forall fuel n A l, partial_trace_rec fuel (op_tensor n A) n l =
      pt_checks (op_tensor n A) n l (match zsort l with
        | [] => Ok (op_tensor n A)
        | q :: rest => if (q <? 0)%Z then Err TypeError else
            match fuel with 0%nat => Err TypeError | S f => partial_trace_rec f (op_tensor (n - 1) (ptr n [Z.to_nat q] A)) (n - 1) (map (fun j => (j - 1)%Z) rest) end end).
  Proof.
    intros fuel n A l. destruct fuel; cbn [partial_trace_rec]; apply pt_out; intros E; destruct (zsort l) as [|q rest] eqn:Z; auto; destruct (q <? 0)%Z eqn:Q; auto; apply Z.ltb_ge in Q;
      pose proof (first_lt n l q rest E Z); destruct (pt_step n (Z.to_nat q) A ltac:(lia)) as (M0 & M1 & M00 & M11 & E0 & E1 & E2 & E3 & E4); rewrite E0; cbn [bind]; rewrite E1; cbn [bind]; rewrite E2; cbn [bind]; rewrite E3; cbn [bind]; rewrite E4; reflexivity.
  Qed.
  Lemma pt_old_step : forall fuel n A l, partial_trace_old_rec fuel (op_tensor n A) n l =
      pt_checks (op_tensor n A) n l (match zsort l with
        | [] => Ok (op_tensor n A)
        | q :: rest => if (q <? 0)%Z then Err TypeError else
            match fuel with 0%nat => Err TypeError | S f => partial_trace_old_rec f (op_tensor (n - 1) (ptr n [Z.to_nat q] A)) (n - 1) (map (fun j => (j - 1)%Z) rest) end end).
  Proof.
    intros fuel n A l. destruct fuel; cbn [partial_trace_old_rec]; apply pt_out; intros E; destruct (zsort l) as [|q rest] eqn:Z; auto; destruct (q <? 0)%Z eqn:Q; auto; apply Z.ltb_ge in Q;
      pose proof (first_lt n l q rest E Z); pose proof (old_step n (Z.to_nat q) A ltac:(lia)) as OS; cbv zeta in OS; rewrite OS; reflexivity.
  Qed.
End PTFacts.
