(** The properties of the partial traces, from the lemmas. *)
From Coq Require Import List ZArith QArith Lia Bool Arith Permutation Sorted.
From Verif Require Import PyBase Scalar BigSum Index Tensor TensorFacts Spec SpecFacts QMath PTSpec PTFacts1 PTFacts2 PTFacts3 PTFacts4.
Import ListNotations.
Local Close Scope Q_scope.
Local Open Scope nat_scope.

Section PTProofs.
  Context {SC : Scalar}.
  Add Ring KR : k_ring.
  Local Open Scope k_scope.

  Lemma tol_ok : forall n (A : qop), kabsgt (trace_op n A - 1) (1 # 10000) = false <-> trace_ok n A = true.
  Proof. intros. unfold trace_ok. rewrite negb_true_iff. tauto. Qed.
  Lemma tol_bad : forall n (A : qop), kabsgt (trace_op n A - 1) (1 # 10000) = true <-> trace_ok n A = false.
  Proof. intros. unfold trace_ok. rewrite negb_false_iff. tauto. Qed.

  Lemma strict_perm : forall ts, NoDup ts -> exists s, Permutation s ts /\ StronglySorted lt s /\ sortedZ (map Z.of_nat s).
  Proof.
    intros ts N. set (z := zsort (map Z.of_nat ts)). exists (map Z.to_nat z).
    assert (P : Permutation (map Z.to_nat z) ts).
    { unfold z. rewrite zsort_perm, map_map. rewrite (map_ext _ (fun x => x)) by apply Nat2Z.id. now rewrite map_id. }
    assert (Z0 : forall x, In x z -> (0 <= x)%Z).
    { intros x Hx. apply (Permutation_in _ (zsort_perm _)) in Hx. apply in_map_iff in Hx. destruct Hx as (y & <- & _). lia. }
    assert (E : map Z.of_nat (map Z.to_nat z) = z).
    { rewrite map_map. transitivity (map (fun x => x) z); [|apply map_id]. apply map_ext_in. intros x Hx. specialize (Z0 x Hx). lia. }
    split; auto. split.
    - assert (N2 : NoDup (map Z.to_nat z)) by (apply (Permutation_NoDup (Permutation_sym P)); auto).
      assert (S : sortedZ z) by apply zsort_sorted. clearbody z. clear P E. induction S as [|a l S IH F]; cbn; constructor.
      + apply IH; [intros; apply Z0; now right|now inversion N2].
      + apply Forall_forall. intros x Hx. assert (X := Hx). apply in_map_iff in Hx. destruct Hx as (y & <- & Hy). rewrite Forall_forall in F. specialize (F y Hy). pose proof (Z0 a (or_introl eq_refl)).
        inversion N2; subst. assert (Z.to_nat a <> Z.to_nat y) by (intros Q; rewrite Q in H2; contradiction). lia.
    - rewrite E. apply zsort_sorted.
  Qed.
  Lemma fits_strict : forall l k, StronglySorted lt l -> Forall (fun x => k <= x)%nat l -> fits k (map Z.of_nat l) = true.
  Proof.
    induction l as [|q l IH]; intros k S B; cbn; auto. inversion S as [|? ? S1 S2]; inversion B as [|? ? B1 B2]; subst. apply andb_true_iff. split; [apply Z.leb_le; lia|].
    apply IH; auto. rewrite Forall_forall in *. intros x Hx. specialize (S2 x Hx). lia.
  Qed.

  (** any function that walks like partial_trace *)
  Lemma good_list : forall (F : nat -> tensor -> nat -> list Z -> res tensor), (forall l s n A, Permutation s l -> sortedZ s -> F (length l) (op_tensor n A) n l =
      if trace_ok n A then (if existsb (fun x => (Z.of_nat n - 1 <? x)%Z) l then Err ValueError else
        if fits 0 s then Ok (op_tensor (n - length l) (ptr n (removed n 0 (map Z.to_nat s)) A)) else Err TypeError) else Err ValueError) ->
    forall n A ts, trace_ok n A = true -> good_wires n ts -> F (length (map Z.of_nat ts)) (op_tensor n A) n (map Z.of_nat ts) = Ok (op_tensor (n - length ts) (ptr n ts A)).
  Proof.
    intros F W n A ts T [N B]. destruct (strict_perm ts N) as (s & P & S & SZ). rewrite (W _ (map Z.of_nat s)), T; auto; [|now apply Permutation_map].
    replace (existsb _ _) with false.
    2:{ symmetry. apply not_true_iff_false. intros X. apply existsb_exists in X. destruct X as (x & Hx & X). apply Z.ltb_lt in X. apply in_map_iff in Hx. destruct Hx as (y & <- & Hy). specialize (B y Hy). lia. }
    rewrite fits_strict; auto; [|apply Forall_forall; intros; lia]. rewrite map_length. f_equal. f_equal.
    rewrite map_map. rewrite (map_ext _ (fun x => x)) by apply Nat2Z.id. rewrite map_id.
    rewrite removed_strict; auto.
    2:{ apply Forall_forall. intros x Hx. apply (Permutation_in _ P) in Hx. specialize (B x Hx). lia. }
    rewrite (map_ext _ (fun x => x)) by (intros; lia). rewrite map_id. apply ptr_set. intros i _. split; apply Permutation_in; auto. now symmetry.
  Qed.
  Lemma pt_walk : forall l s n A, Permutation s l -> sortedZ s -> partial_trace (op_tensor n A) n l =
      if trace_ok n A then (if existsb (fun x => (Z.of_nat n - 1 <? x)%Z) l then Err ValueError else
        if fits 0 s then Ok (op_tensor (n - length l) (ptr n (removed n 0 (map Z.to_nat s)) A)) else Err TypeError) else Err ValueError.
  Proof. intros. unfold partial_trace. apply walk_ok; auto. intros. apply pt_rec_step. Qed.
  Lemma pt_good : forall n A ts, trace_ok n A = true -> good_wires n ts -> partial_trace (op_tensor n A) n (map Z.of_nat ts) = Ok (op_tensor (n - length ts) (ptr n ts A)).
  Proof. intros. unfold partial_trace. apply (good_list (partial_trace_rec)); auto. intros. apply walk_ok; auto. intros. apply pt_rec_step. Qed.

  Lemma pt_traces : forall n t A ts, is_op n t A -> kabsgt (trace_op n A - 1) (1 # 10000) = false -> good_wires n ts ->
    exists r, partial_trace t n (map Z.of_nat ts) = Ok r /\ is_op (n - length ts) r (ptr n ts A).
  Proof. intros n t A ts Ht T G. apply is_op_eq in Ht. subst t. eexists. split; [apply pt_good; auto; now apply tol_ok|]. apply is_op_tensor. Qed.
  Lemma pt_trace_off : forall n t A l, is_op n t A -> kabsgt (trace_op n A - 1) (1 # 10000) = true -> partial_trace t n l = Err ValueError /\ partial_trace_old t n l = Err ValueError.
  Proof.
    intros n t A l Ht T. apply is_op_eq in Ht. subst t. apply tol_bad in T. split.
    - unfold partial_trace. now rewrite pt_rec_step, checks_op, T.
    - unfold partial_trace_old. now rewrite pt_old_step, checks_op, T.
  Qed.
  Lemma pt_dim : forall n m t A l, is_op m t A -> kabsgt (trace_op m A - 1) (1 # 10000) = false -> m <> n -> partial_trace t n l = Err ValueError /\ partial_trace_old t n l = Err ValueError.
  Proof.
    intros n m t A l Ht T H. apply is_op_eq in Ht. subst t.
    assert (X : forall Y (k : res Y), pt_checks (op_tensor m A) n l k = Err ValueError).
    { intros. unfold pt_checks. rewrite trace_op_tensor. cbn [bind]. rewrite T. cbn [raise_if]. change (shape (op_tensor m A)) with [2 ^ m; 2 ^ m]%nat. cbn [hd].
      replace (2 ^ m =? 2 ^ n)%nat with false; auto. symmetry. apply Nat.eqb_neq. intros E. apply H. apply (Nat.pow_inj_r 2); auto. }
    split; [unfold partial_trace; destruct (length l); cbn [partial_trace_rec]; apply X|unfold partial_trace_old; destruct (length l); cbn [partial_trace_old_rec]; apply X].
  Qed.
  Lemma pt_same : forall n t A l, is_op n t A -> partial_trace_old t n l = partial_trace t n l.
  Proof.
    intros n t A l Ht. apply is_op_eq in Ht. subst t. rewrite (pt_walk l (zsort l)); auto using zsort_perm, zsort_sorted. unfold partial_trace_old.
    apply walk_ok; auto using zsort_perm, zsort_sorted. intros. apply pt_old_step.
  Qed.
  Lemma ptrace_is : forall a b t A, is_op (a + b) t A -> exists r, ptrace t a b = Ok r /\ is_op a r (ptr (a + b) (seq a b) A).
  Proof. intros a b t A Ht. apply is_op_eq in Ht. subst t. rewrite ptrace_ok. eexists. split; [reflexivity|]. apply is_op_tensor. Qed.
  Lemma ptrace_same : forall a b t A, is_op (a + b) t A -> kabsgt (trace_op (a + b) A - 1) (1 # 10000) = false -> ptrace t a b = partial_trace t (a + b) (map Z.of_nat (seq a b)).
  Proof.
    intros a b t A Ht T. apply is_op_eq in Ht. subst t. rewrite ptrace_ok, pt_good; auto using last_good; [|now apply tol_ok]. rewrite seq_length. now replace (a + b - b)%nat with a by lia.
  Qed.

  (** whatever the list, a returned matrix is a partial trace over distinct qubits *)
  Lemma pt_returns : forall n t A l r, is_op n t A -> partial_trace t n l = Ok r -> exists ts, good_wires n ts /\ length ts = length l /\ is_op (n - length l) r (ptr n ts A).
  Proof.
    intros n t A l r Ht E. apply is_op_eq in Ht. subst t. rewrite (pt_walk l (zsort l)) in E; auto using zsort_perm, zsort_sorted.
    destruct (trace_ok n A); [|discriminate]. destruct (existsb _ l) eqn:X; [discriminate|]. destruct (fits 0 (zsort l)) eqn:F; [|discriminate]. inversion E; subst. clear E.
    exists (removed n 0 (map Z.to_nat (zsort l))). split; [|split].
    - apply removed_good; auto using zsort_sorted. apply Forall_forall. intros x Hx. apply (Permutation_in _ (zsort_perm l)) in Hx. apply Z.nle_gt. intros Y. apply not_true_iff_false in X. apply X. apply existsb_exists. exists x. split; auto. apply Z.ltb_lt. lia.
    - rewrite removed_length, map_length. apply Permutation_length, zsort_perm.
    - apply is_op_tensor.
  Qed.
  Lemma pt_preserves : forall n t A l r, is_op n t A -> partial_trace t n l = Ok r ->
    exists B, is_op (n - length l) r B /\ trace_op (n - length l) B = trace_op n A /\ (op_eq n A (adj_op A) -> op_eq (n - length l) B (adj_op B)).
  Proof.
    intros n t A l r Ht E. destruct (pt_returns n t A l r Ht E) as (ts & G & L & H). exists (ptr n ts A). rewrite <- L in *. split; auto. split; [now apply ptr_trace|].
    intros HA. rewrite <- ptr_adj by auto. now apply ptr_ext.
  Qed.
  Lemma pt_twice : forall n t A ts us, is_op n t A -> kabsgt (trace_op n A - 1) (1 # 10000) = false -> good_wires n ts -> good_wires (n - length ts) us ->
    exists r s, partial_trace t n (map Z.of_nat ts) = Ok r /\ partial_trace r (n - length ts) (map Z.of_nat us) = Ok s /\ partial_trace t n (map Z.of_nat (ts ++ orig n ts us)) = Ok s.
  Proof.
    intros n t A ts us Ht T G U. apply is_op_eq in Ht. subst t. apply tol_ok in T. do 2 eexists. split; [now apply pt_good|]. split; [apply pt_good; auto; unfold trace_ok in *; now rewrite ptr_trace|].
    rewrite pt_good; auto using orig_good. f_equal. rewrite app_length, orig_length. replace (n - (length ts + length us))%nat with (n - length ts - length us)%nat by lia. apply op_tensor_ext. symmetry. now apply ptr_comp.
  Qed.

  (** malformed lists *)
  Lemma pt_range : forall n t A l, is_op n t A -> Exists (fun x => (Z.of_nat n <= x)%Z) l -> partial_trace t n l = Err ValueError.
  Proof.
    intros n t A l Ht H. apply is_op_eq in Ht. subst t. rewrite (pt_walk l (zsort l)); auto using zsort_perm, zsort_sorted. destruct (trace_ok n A); auto.
    replace (existsb _ l) with true; auto. symmetry. apply existsb_exists. apply Exists_exists in H. destruct H as (x & Hx & H). exists x. split; auto. apply Z.ltb_lt. lia.
  Qed.
  Lemma in_range : forall n l, Forall (fun x => (x < Z.of_nat n)%Z) l -> existsb (fun x => (Z.of_nat n - 1 <? x)%Z) l = false.
  Proof. intros n l H. apply not_true_iff_false. intros X. apply existsb_exists in X. destruct X as (x & Hx & X). apply Z.ltb_lt in X. rewrite Forall_forall in H. specialize (H x Hx). lia. Qed.
  Lemma pt_list : forall n t A l s, is_op n t A -> kabsgt (trace_op n A - 1) (1 # 10000) = false -> Forall (fun x => (x < Z.of_nat n)%Z) l -> Permutation s l -> sortedZ s ->
    ((exists k, (k < length s)%nat /\ (nth k s 0 < Z.of_nat k)%Z) -> partial_trace t n l = Err TypeError) /\
    ((forall k, (k < length s)%nat -> (Z.of_nat k <= nth k s 0)%Z) -> exists r, partial_trace t n l = Ok r /\ is_op (n - length l) r (ptr n (removed n 0 (map Z.to_nat s)) A)).
  Proof.
    intros n t A l s Ht T B P S. apply is_op_eq in Ht. subst t. apply tol_ok in T. rewrite (pt_walk l s), T, in_range; auto. split.
    - intros (k & Hk & H). destruct (fits 0 s) eqn:E; auto. rewrite fits_spec in E. specialize (E k Hk). cbn in E. lia.
    - intros H. replace (fits 0 s) with true. { eexists. split; [reflexivity|]. apply is_op_tensor. } symmetry. apply fits_spec. intros i Hi. apply H. auto.
  Qed.
  Lemma pt_negative : forall n t A l, is_op n t A -> kabsgt (trace_op n A - 1) (1 # 10000) = false -> Forall (fun x => (x < Z.of_nat n)%Z) l -> Exists (fun x => (x < 0)%Z) l -> partial_trace t n l = Err TypeError.
  Proof.
    intros n t A l Ht T B N. destruct (pt_list n t A l (zsort l) Ht T B (zsort_perm l) (zsort_sorted l)) as [H _]. apply H. exists 0%nat.
    apply Exists_exists in N. destruct N as (x & Hx & N). apply (Permutation_in _ (Permutation_sym (zsort_perm l))) in Hx. pose proof (zsort_sorted l) as S. destruct (zsort l) as [|q z]; [destruct Hx|]. cbn. split; [lia|].
    inversion S as [|? ? S1 S2]; subst. rewrite Forall_forall in S2. destruct Hx as [->|Hx]; [lia|]. specialize (S2 x Hx). lia.
  Qed.
  Lemma pt_too_many : forall n t A l, is_op n t A -> (n < length l)%nat -> partial_trace t n l =
    Err (if kabsgt (trace_op n A - 1) (1 # 10000) then ValueError else if existsb (fun x => (Z.of_nat n <=? x)%Z) l then ValueError else TypeError).
  Proof.
    intros n t A l Ht L. destruct (kabsgt (trace_op n A - 1) (1 # 10000)) eqn:T; [now apply (pt_trace_off n t A l Ht)|].
    destruct (existsb _ l) eqn:X.
    - apply (pt_range n t A l Ht). apply existsb_exists in X. destruct X as (x & Hx & X). apply Exists_exists. exists x. split; [exact Hx|lia].
    - assert (B : Forall (fun x => (x < Z.of_nat n)%Z) l).
      { apply Forall_forall. intros x Hx. apply Z.nle_gt. intros Y. apply not_true_iff_false in X. apply X. apply existsb_exists. exists x. split; [exact Hx|lia]. }
      destruct (pt_list n t A l (zsort l) Ht T B (zsort_perm l) (zsort_sorted l)) as [H _]. apply H. exists n.
      pose proof (Permutation_length (zsort_perm l)) as PL. split; [lia|]. rewrite Forall_forall in B. apply B. apply (Permutation_in _ (zsort_perm l)). apply nth_In. lia.
  Qed.
  Lemma pt_repeated : forall n t A q, is_op n t A -> kabsgt (trace_op n A - 1) (1 # 10000) = false -> (1 <= q < n)%nat ->
    exists r, partial_trace t n [Z.of_nat q; Z.of_nat q] = Ok r /\ is_op (n - 2) r (ptr n [q; (q - 1)%nat] A).
  Proof.
    intros n t A q Ht T H. destruct (pt_list n t A [Z.of_nat q; Z.of_nat q] [Z.of_nat q; Z.of_nat q] Ht T) as [_ X].
    - repeat constructor; lia.
    - auto.
    - repeat constructor; lia.
    - destruct X as (r & E & X).
      + intros [|[|k]] Hk; cbn in *; lia.
      + exists r. split; auto. cbn [length map removed] in X. rewrite Nat2Z.id, Nat.sub_0_r in X. unfold orig in X. cbn [map length] in X. rewrite nth_kept1 in X by lia.
        replace (q - 1 <? q)%nat with true in X by (symmetry; apply Nat.ltb_lt; lia). exact X.
  Qed.
  Lemma pt_repeated_zero : forall n t A, is_op n t A -> kabsgt (trace_op n A - 1) (1 # 10000) = false -> (1 <= n)%nat -> partial_trace t n [0%Z; 0%Z] = Err TypeError.
  Proof.
    intros n t A Ht T H. destruct (pt_list n t A [0%Z; 0%Z] [0%Z; 0%Z] Ht T) as [X _].
    - repeat constructor; lia.
    - auto.
    - repeat constructor; lia.
    - apply X. exists 1%nat. cbn. lia.
  Qed.
  Lemma pt_argument : forall n t A l, is_op n t A -> kabsgt (trace_op n A - 1) (1 # 10000) = false -> Forall (fun x => (x < Z.of_nat n)%Z) l ->
    Permutation (partial_trace_list_after t n l) l /\ sortedZ (partial_trace_list_after t n l).
  Proof.
    intros n t A l Ht T B. apply is_op_eq in Ht. subst t. apply tol_ok in T. unfold partial_trace_list_after. rewrite checks_op, T, in_range by auto. split; [apply zsort_perm|apply zsort_sorted].
  Qed.
End PTProofs.
