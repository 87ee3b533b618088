(** Lemmas: every call of a function of layers/qlayer.py raises. *)
From Coq Require Import List ZArith Reals Lra Lia ZifyBool Bool Arith String.
From Verif Require Import PyBase Scalar CInst BigSum Index Tensor QMath QTN QOperator QLayers LayerOldSpec QLayerOld.
Import ListNotations.
Local Close Scope R_scope.
Local Open Scope nat_scope.

Ltac Zify.zify_post_hook ::= Z.to_euclidean_division_equations.

Definition fails (r : res (@tensor C_scalar)) : Prop := exists e, r = Err e.
Lemma raise_fails : forall c e k, (c = false -> fails k) -> fails (raise_if c e k).
Proof. intros [] e k H; cbn; [now exists e|auto]. Qed.

Lemma zrange2_0 : forall N, (1 <= N)%Z -> zrange2 0 N = 0%Z :: tl (zrange2 0 N).
Proof. intros N H. unfold zrange2. destruct (Z.to_nat (N - 0)) as [|k] eqn:E; [lia|]. reflexivity. Qed.
Lemma py_nth_ok : forall A (l : list A) (i : Z), (0 <= i < Z.of_nat (List.length l))%Z -> exists a, py_nth l i = Ok a.
Proof.
  intros A l i H. unfold py_nth, py_index. replace (0 <=? i)%Z with true by lia.
  replace (i <? Z.of_nat (List.length l))%Z with true by lia. cbn. destruct (nth_error l (Z.to_nat i)) eqn:E; [eauto|].
  apply nth_error_None in E. lia.
Qed.

Lemma old3_valid : forall g1 g2 g3 N ps, (forall t, g3 t = Err TypeError) -> (1 <= N)%Z -> Z.of_nat (List.length ps) = (3 * N)%Z -> old3 cir_class g1 g2 g3 N ps = Err TypeError.
Proof.
  intros g1 g2 g3 N ps Hg H L. unfold old3, raise_if. replace (N <? 1)%Z with false by lia. rewrite L, Z.eqb_refl. cbn [negb].
  rewrite (zrange2_0 N H). cbn [mmap].
  destruct (py_nth_ok _ ps (3 * 0 + 0)%Z ltac:(lia)) as (a & ->). destruct (py_nth_ok _ ps (3 * 0 + 1)%Z ltac:(lia)) as (b & ->). destruct (py_nth_ok _ ps (3 * 0 + 2)%Z ltac:(lia)) as (c & ->).
  cbn [bind]. rewrite Hg. reflexivity.
Qed.
Lemma old_XZ_valid : forall N ps, (1 <= N)%Z -> Z.of_nat (List.length ps) = (2 * N)%Z -> old_XZ cir_class N ps = Err TypeError.
Proof.
  intros N ps H L. unfold old_XZ, raise_if. replace (N <? 1)%Z with false by lia. rewrite L, Z.eqb_refl. cbn [negb].
  rewrite (zrange2_0 N H). cbn [mmap].
  destruct (py_nth_ok _ ps (2 * 0 + 0)%Z ltac:(lia)) as (a & ->). destruct (py_nth_ok _ ps (2 * 0 + 1)%Z ltac:(lia)) as (b & ->). reflexivity.
Qed.
Lemma old3_fails : forall g1 g2 g3 N ps, (forall t, g3 t = Err TypeError) -> fails (old3 cir_class g1 g2 g3 N ps).
Proof.
  intros g1 g2 g3 N ps Hg. destruct (Z.ltb_spec N 1) as [|H]. { unfold old3, raise_if. replace (N <? 1)%Z with true by lia. now eexists. }
  destruct (Z.eq_dec (Z.of_nat (List.length ps)) (3 * N)) as [E|E]; [eexists; now apply old3_valid|].
  unfold old3, raise_if. replace (N <? 1)%Z with false by lia. replace (Z.of_nat (List.length ps) =? 3 * N)%Z with false by lia. now eexists.
Qed.
Lemma old_XZ_fails : forall N ps, fails (old_XZ cir_class N ps).
Proof.
  intros N ps. destruct (Z.ltb_spec N 1) as [|H]. { unfold old_XZ, raise_if. replace (N <? 1)%Z with true by lia. now eexists. }
  destruct (Z.eq_dec (Z.of_nat (List.length ps)) (2 * N)) as [E|E]; [eexists; now apply old_XZ_valid|].
  unfold old_XZ, raise_if. replace (N <? 1)%Z with false by lia. replace (Z.of_nat (List.length ps) =? 2 * N)%Z with false by lia. now eexists.
Qed.
Lemma old_H_valid : forall N, (1 <= N)%Z -> old_H cir_class N = Err TypeError.
Proof. intros N H. unfold old_H, raise_if. replace (N <? 1)%Z with false by lia. rewrite (zrange2_0 N H). reflexivity. Qed.

Lemma old_pairs_valid : forall gate up down N b, (forall n c t, gate n c t = Err AttributeError) -> ((3 <= N)%Z -> up <> [] /\ down <> []) -> (2 <= N)%Z ->
  old_pairs gate up down N b = Err AttributeError.
Proof.
  intros gate up down N b Hg Hne H. unfold old_pairs, raise_if. replace (N <? 2)%Z with false by lia. destruct (Z.eqb_spec N 2) as [|Ne].
  - destruct b; apply Hg.
  - destruct (Hne ltac:(lia)) as [U D]. unfold old_loop. destruct b; [destruct up as [|[c t] r]|destruct down as [|[c t] r]]; try contradiction; cbn [mfold]; now rewrite Hg.
Qed.
Lemma zrange2_ne : forall N, (1 <= N)%Z -> zrange2 0 N <> [].
Proof. intros N H. rewrite (zrange2_0 N H). discriminate. Qed.
Lemma zrange_down_ne : forall N, (1 <= N)%Z -> zrange_down (N - 1) (-1) <> [].
Proof. intros N H. unfold zrange_down. destruct (Z.to_nat _) eqn:E; [lia|]. discriminate. Qed.
Lemma map_ne : forall A B (f : A -> B) l, l <> [] -> map f l <> [].
Proof. intros A B f [|a l]; [auto|discriminate]. Qed.
Lemma app_ne : forall A (l l' : list A), l <> [] -> l ++ l' <> [].
Proof. intros A [|a l] l'; [auto|discriminate]. Qed.
Lemma zrange_by_ne : forall a b s, ((0 < s)%Z /\ (a < b)%Z) \/ ((s < 0)%Z /\ (b < a)%Z) -> zrange_by a b s <> [].
Proof.
  intros a b s H. unfold zrange_by. apply map_ne. destruct (Z.to_nat _) eqn:E; [|discriminate]. exfalso.
  destruct (Z.ltb_spec 0 s) as [P|P].
  - assert (1 <= (b - a + s - 1) / s)%Z by (apply Z.div_le_lower_bound; lia). lia.
  - assert (1 <= (a - b - s - 1) / - s)%Z by (apply Z.div_le_lower_bound; lia). lia.
Qed.
Lemma old_ring_valid : forall gate d N b, (forall n c t, gate n c t = Err AttributeError) -> (2 <= N)%Z -> old_ring gate d N b = Err AttributeError.
Proof. intros. apply old_pairs_valid; auto. intros. split; apply map_ne; [apply zrange2_ne|apply zrange_down_ne]; lia. Qed.
Lemma old_nearest_valid : forall gate N b, (forall n c t, gate n c t = Err AttributeError) -> (2 <= N)%Z -> old_nearest gate N b = Err AttributeError.
Proof. intros. apply old_pairs_valid; auto. intros. split; apply map_ne, app_ne, zrange_by_ne; lia. Qed.
Lemma flat_ne : forall A B (f : A -> list B) l a, In a l -> f a <> [] -> flat_map f l <> [].
Proof. intros A B f l a H N E. destruct (f a) as [|b r] eqn:F; [auto|]. assert (In b (flat_map f l)) as X by (apply in_flat_map; exists a; rewrite F; split; [auto|now left]). rewrite E in X. destruct X. Qed.
Lemma in_zrange2 : forall N i, (0 <= i < N)%Z -> In i (zrange2 0 N).
Proof. intros N i H. unfold zrange2. apply in_map_iff. exists (Z.to_nat i). split; [lia|]. apply in_seq. lia. Qed.
Lemma in_zrange_down : forall N i, (0 <= i < N)%Z -> In i (zrange_down (N - 1) (-1)).
Proof. intros N i H. unfold zrange_down. apply in_map_iff. exists (Z.to_nat (N - 1 - i)). split; [lia|]. apply in_seq. lia. Qed.
Lemma filter_ne : forall A (p : A -> bool) l a, In a l -> p a = true -> filter p l <> [].
Proof. intros A p l a H P E. assert (In a (filter p l)) as X by now apply filter_In. rewrite E in X. destruct X. Qed.
Lemma old_all2all_valid : forall N b, (2 <= N)%Z -> old_all2all cir_class N b = Err AttributeError.
Proof.
  intros N b H. apply old_pairs_valid; auto. intros _. split.
  - apply (flat_ne _ _ _ _ 0%Z); [apply in_zrange2; lia|]. apply map_ne, (filter_ne _ _ _ 1%Z); [apply in_zrange2; lia|reflexivity].
  - apply (flat_ne _ _ _ _ 0%Z); [apply in_zrange_down; lia|]. apply map_ne, (filter_ne _ _ _ 1%Z); [apply in_zrange_down; lia|reflexivity].
Qed.
Lemma old_pairs_small : forall gate up down N b, (N < 2)%Z -> old_pairs gate up down N b = Err ValueError.
Proof. intros. unfold old_pairs, raise_if. now replace (N <? 2)%Z with true by lia. Qed.

Lemma py_slice_all : forall A (l : list A) (b : Z), (0 <= b)%Z -> Z.of_nat (List.length (py_slice l 0 b)) = Z.min (Z.of_nat (List.length l)) b.
Proof.
  intros A l b H. unfold py_slice, py_bound, pslice. rewrite firstn_length, skipn_length. replace (0 <? 0)%Z with false by reflexivity.
  replace (b <? 0)%Z with false by lia. lia.
Qed.

Lemma gate_angles_spec : forall g w, gate_angles g = Some w ->
  (g = "YZY" /\ w = 3%Z \/ g = "XZX" /\ w = 3%Z \/ g = "XYZ" /\ w = 3%Z \/ g = "XZ" /\ w = 2%Z)%string.
Proof.
  intros g w. unfold gate_angles. cbn [existsb].
  destruct (String.eqb_spec g "YZY"); [intros E; injection E as <-; auto|]. destruct (String.eqb_spec g "XZX"); [intros E; injection E as <-; auto|].
  destruct (String.eqb_spec g "XYZ"); [intros E; injection E as <-; auto|]. cbn [orb]. destruct (String.eqb_spec g "XZ"); [intros E; injection E as <-; auto 6|discriminate].
Qed.

Lemma old_basic_valid : forall N ps g w, (1 <= N)%Z -> gate_angles g = Some w -> Z.of_nat (List.length ps) = (w * N)%Z -> old_basic cir_class N ps g = Err TypeError.
Proof.
  intros N ps g w H Hg L. unfold old_basic, old_count, raise_if.
  destruct (gate_angles_spec g w Hg) as [[-> ->]|[[-> ->]|[[-> ->]|[-> ->]]]]; cbn [String.length Nat.eqb andb String.eqb Ascii.eqb Bool.eqb];
    rewrite ?L; match goal with |- context [negb ?b] => replace b with true by lia end; cbn [negb].
  - unfold old_YZY. rewrite old3_valid; auto. rewrite py_slice_all by lia. lia.
  - unfold old_XZX. rewrite old3_valid; auto. rewrite py_slice_all by lia. lia.
  - unfold old_XYZ. rewrite old3_valid; auto. rewrite py_slice_all by lia. lia.
  - rewrite old_XZ_valid; auto. rewrite py_slice_all by lia. lia.
Qed.
Lemma old_basic_fails : forall N ps g, fails (old_basic cir_class N ps g).
Proof.
  intros N ps g. unfold old_basic, old_count. apply raise_fails. intros _. apply raise_fails. intros _.
  match goal with |- fails (bind ?x _) => assert (F : fails x) end; [|destruct F as (e & ->); now exists e].
  repeat match goal with |- fails (if ?b then _ else _) => destruct b end; try (apply old3_fails; reflexivity); [apply old_XZ_fails|now eexists].
Qed.
Lemma old_rot2_valid : forall g N ps, (forall t, g t = Err TypeError) -> (2 <= N)%Z -> Z.of_nat (List.length ps) = (N - 1)%Z -> old_rot2 cir_class g N ps = Err TypeError.
Proof.
  intros g N ps Hg H L. unfold old_rot2, raise_if. rewrite L, Z.eqb_refl. cbn [negb]. replace (N <? 2)%Z with false by lia.
  assert (S : forall b, (1 <= b)%Z -> exists r, mmap g (py_slice ps 0 b) = r /\ r = Err TypeError).
  { intros b Hb. pose proof (py_slice_all _ ps b ltac:(lia)) as E. destruct (py_slice ps 0 b) as [|a l]; [cbn in E; lia|]. cbn [mmap]. rewrite Hg. eauto. }
  destruct (Z.eqb_spec N 2) as [|Ne].
  - destruct (py_nth_ok _ ps 0%Z ltac:(lia)) as (a & ->). cbn [bind]. apply Hg.
  - destruct (N mod 2 =? 0)%Z.
    + destruct (S (N / 2)%Z ltac:(lia)) as (r & -> & ->). reflexivity.
    + destruct (S ((N - 1) / 2)%Z ltac:(lia)) as (r & -> & ->). reflexivity.
Qed.

Lemma old_rot2_fails : forall g N ps, (forall t, g t = Err TypeError) -> fails (old_rot2 cir_class g N ps).
Proof.
  intros g N ps Hg. destruct (Z.eq_dec (Z.of_nat (List.length ps)) (N - 1)) as [L|L].
  - destruct (Z.lt_ge_cases N 2) as [S|S]; [|eexists; apply old_rot2_valid; auto; lia].
    unfold old_rot2, raise_if. rewrite L, Z.eqb_refl. cbn [negb]. replace (N <? 2)%Z with true by lia. now eexists.
  - unfold old_rot2, raise_if. replace (N - 1 =? Z.of_nat (List.length ps))%Z with false by lia. now eexists.
Qed.

Lemma old_valid_raises : forall c, old_valid c -> run_old cir_class c = Err (if only_controlled c then AttributeError else TypeError).
Proof.
  intros [N ps|N ps|N ps|N ps|N|N b|N b|N b|N b|N b|N b|N ps g|N ps g|N ps g|N ps|N ps|N ps] H; cbn [old_valid only_controlled run_old] in *.
  - destruct H. now apply old3_valid.
  - destruct H. now apply old3_valid.
  - destruct H. now apply old3_valid.
  - destruct H. now apply old_XZ_valid.
  - now apply old_H_valid.
  - now apply old_ring_valid.
  - now apply old_ring_valid.
  - now apply old_ring_valid.
  - now apply old_nearest_valid.
  - now apply old_nearest_valid.
  - now apply old_all2all_valid.
  - destruct H as (H & w & Hw & L). apply (old_basic_valid N ps g w); auto. lia.
  - destruct H as (H & w & Hw & L). unfold old_basic2, old_count, raise_if.
    assert (X : Z.of_nat (String.length g) = w /\ (w = 3 \/ w = 2)%Z) by (destruct (gate_angles_spec g w Hw) as [[-> ->]|[[-> ->]|[[-> ->]|[-> ->]]]]; split; auto).
    destruct X as [X1 X2]. 
    replace ((String.length g =? 3) && negb (Z.of_nat (List.length ps) =? 3 * 2 * N)%Z) with false.
    replace ((String.length g =? 2) && negb (Z.of_nat (List.length ps) =? 2 * 2 * N)%Z) with false.
    + cbv zeta. rewrite X1. rewrite (old_basic_valid N _ g w); auto; [lia|]. rewrite py_slice_all by lia. nia.
    + destruct X2; subst w; destruct (Nat.eqb_spec (String.length g) 2); cbn [andb]; auto; symmetry; apply negb_false_iff, Z.eqb_eq; lia.
    + destruct X2; subst w; destruct (Nat.eqb_spec (String.length g) 3); cbn [andb]; auto; symmetry; apply negb_false_iff, Z.eqb_eq; lia.
  - destruct H as (H & w & Hw & L). unfold old_strong, old_count, raise_if.
    destruct (gate_angles_spec g w Hw) as [[-> ->]|[[-> ->]|[[-> ->]|[-> ->]]]]; cbn [String.length Nat.eqb andb String.eqb Ascii.eqb Bool.eqb];
    rewrite ?L; match goal with |- context [negb ?b] => replace b with true by lia end; cbn [negb]; cbv zeta.
    + unfold old_YZY. rewrite old3_valid; auto; [lia|]. rewrite py_slice_all by lia. lia.
    + unfold old_XZX. rewrite old3_valid; auto; [lia|]. rewrite py_slice_all by lia. lia.
    + unfold old_XYZ. rewrite old3_valid; auto; [lia|]. rewrite py_slice_all by lia. lia.
    + rewrite old_XZ_valid; auto; [lia|]. rewrite py_slice_all by lia. lia.
  - destruct H. now apply old_rot2_valid.
  - destruct H. now apply old_rot2_valid.
  - destruct H. now apply old_rot2_valid.
Qed.

Lemma old_never_returns : forall c u, run_old cir_class c <> Ok u.
Proof.
  assert (P : forall gate up down N b, ((2 <= N)%Z -> old_pairs gate up down N b = Err AttributeError) -> fails (old_pairs gate up down N b)).
  { intros gate up down N b H. destruct (Z.ltb_spec N 2); [eexists; now apply old_pairs_small|eexists; now apply H]. }
  assert (X : forall c, fails (run_old cir_class c)); [|intros c u E; destruct (X c) as (e & E'); congruence].
  intros [N ps|N ps|N ps|N ps|N|N b|N b|N b|N b|N b|N b|N ps g|N ps g|N ps g|N ps|N ps|N ps]; cbn [run_old].
  1, 2, 3: apply old3_fails; reflexivity.
  - apply old_XZ_fails.
  - destruct (Z.ltb_spec N 1); [unfold old_H, raise_if; replace (N <? 1)%Z with true by lia; now eexists|eexists; now apply old_H_valid].
  - apply P. intros. now apply old_ring_valid.
  - apply P. intros. now apply old_ring_valid.
  - apply P. intros. now apply old_ring_valid.
  - apply P. intros. now apply old_nearest_valid.
  - apply P. intros. now apply old_nearest_valid.
  - apply P. intros. now apply old_all2all_valid.
  - apply old_basic_fails.
  - unfold old_basic2, old_count. apply raise_fails. intros _. apply raise_fails. intros _. cbv zeta.
    match goal with |- fails (bind ?x _) => assert (F : fails x) by apply old_basic_fails end. destruct F as (e & ->). now exists e.
  - unfold old_strong, old_count. apply raise_fails. intros _. apply raise_fails. intros _. cbv zeta.
    destruct (String.eqb g "YZY"). { destruct (old3_fails (g_ry cir_class) (g_rz cir_class) (g_ry cir_class) N (py_slice ps 0 (3 * N)) ltac:(reflexivity)) as (e & E). unfold old_YZY. rewrite E. now exists e. }
    destruct (String.eqb g "XZX"). { destruct (old3_fails (g_rx cir_class) (g_rz cir_class) (g_rx cir_class) N (py_slice ps 0 (3 * N)) ltac:(reflexivity)) as (e & E). unfold old_XZX. rewrite E. now exists e. }
    destruct (String.eqb g "XYZ"). { destruct (old3_fails (g_rx cir_class) (g_ry cir_class) (g_rz cir_class) N (py_slice ps 0 (3 * N)) ltac:(reflexivity)) as (e & E). unfold old_XYZ. rewrite E. now exists e. }
    destruct (String.eqb g "XZ"). { destruct (old_XZ_fails N (py_slice ps 0 (2 * N))) as (e & E). rewrite E. now exists e. }
    now eexists.
  - apply old_rot2_fails. reflexivity.
  - apply old_rot2_fails. reflexivity.
  - apply old_rot2_fails. reflexivity.
Qed.
