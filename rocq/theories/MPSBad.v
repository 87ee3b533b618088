(** Lemmas: gates on several wires applied to matrix product states, with wires outside 0..N-1. *)
From Coq Require Import List ZArith Reals Lia ZifyBool Bool Arith.
From Verif Require Import PyBase Scalar CInst BigSum Index Tensor TensorFacts Spec SpecFacts QMath QTN QOperator ContractFacts QGates GateSpec GateCalls GateFacts6 ContractSpec
  GateProofs ContractBad MPSSpec MPSFacts5 MPSFacts8 MPSFacts12 LayerAnySpec.
Import ListNotations.
Local Close Scope R_scope.
Local Open Scope nat_scope.

Section Shift.
  Context {SC : Scalar}.
  Variable svd : tensor -> tensor * tensor * tensor.
  Variable n : nat.
  Notation sh := (fun i : Z => (i + Z.of_nat n)%Z).

  Lemma index_shift : forall i, (- Z.of_nat n <= i < 0)%Z -> py_index n i = py_index n (i + Z.of_nat n).
  Proof.
    intros w H. unfold py_index. replace ((0 <=? w)%Z && (w <? Z.of_nat n)%Z) with false by lia. replace ((- Z.of_nat n <=? w)%Z && (w <? 0)%Z) with true by lia.
    replace ((0 <=? w + Z.of_nat n)%Z && (w + Z.of_nat n <? Z.of_nat n)%Z) with true by lia. reflexivity.
  Qed.
  Lemma nth_shift : forall (l : list tensor) i, length l = n -> (- Z.of_nat n <= i < 0)%Z -> py_nth l i = py_nth l (i + Z.of_nat n).
  Proof. intros l i L H. unfold py_nth. rewrite L. now rewrite index_shift. Qed.
  Lemma set_shift : forall (l : list tensor) i x, length l = n -> (- Z.of_nat n <= i < 0)%Z -> py_set l i x = py_set l (i + Z.of_nat n) x.
  Proof. intros l i x L H. unfold py_set. rewrite L. now rewrite index_shift. Qed.
  Lemma py_set_length : forall (l : list tensor) i x l', py_set l i x = Ok l' -> length l' = length l.
  Proof. intros l i x l' H. unfold py_set in H. apply bind_inv in H. destruct H as (k & _ & H). injection H as <-. apply set_nth_length. Qed.
  Lemma index_in : forall (l : list tensor) i x, py_nth l i = Ok x -> in_register (length l) i.
  Proof.
    intros l i x H. unfold py_nth in H. apply bind_inv in H. destruct H as (k & H & _). unfold py_index in H. unfold in_register.
    destruct ((0 <=? i)%Z && (i <? Z.of_nat (length l))%Z) eqn:A; [lia|]. destruct ((- Z.of_nat (length l) <=? i)%Z && (i <? 0)%Z) eqn:B; [lia|discriminate].
  Qed.
  Lemma bind_ext : forall A B (m : res A) (f g : A -> res B), (forall a, m = Ok a -> f a = g a) -> bind m f = bind m g.
  Proof. intros A B [a|e] f g H; cbn [bind]; auto. Qed.
  Lemma two_site_inv : forall M l i j l', two_site svd M l i j = Ok l' -> in_register (length l) i /\ in_register (length l) j /\ length l' = length l.
  Proof.
    intros M l i j l' H. unfold two_site in H. apply bind_inv in H. destruct H as (a & A & H). apply bind_inv in H. destruct H as (b & B & H).
    split; [now apply index_in in A|]. split; [now apply index_in in B|].
    cbv zeta in H. do 14 (apply bind_inv in H; let x := fresh "x" in let E := fresh "E" in destruct H as (x & E & H)).
    apply py_set_length in H. rewrite H. repeat match goal with E : py_set l i _ = Ok _ |- _ => apply py_set_length in E; exact E end.
  Qed.
  Lemma two_site_shift : forall M l i j, length l = n -> (- Z.of_nat n <= i < 0)%Z -> (- Z.of_nat n <= j < 0)%Z -> two_site svd M l i j = two_site svd M l (i + Z.of_nat n) (j + Z.of_nat n).
  Proof.
    intros M l i j L Hi Hj. unfold two_site. rewrite (nth_shift l i L Hi), (nth_shift l j L Hj). cbv zeta.
    repeat (apply bind_ext; intros ? ?). rewrite (set_shift l i _ L Hi). apply bind_ext. intros l1 E. apply set_shift; [|exact Hj]. apply py_set_length in E. lia.
  Qed.
  Lemma mfold_shift : forall (f g : list tensor -> Z -> res (list tensor)) us l, length l = n ->
    (forall l i, length l = n -> In i us -> f l i = g l (i + Z.of_nat n)%Z) -> (forall l i l', length l = n -> f l i = Ok l' -> length l' = n) ->
    mfold f us l = mfold g (map sh us) l.
  Proof.
    intros f g us. induction us as [|u us IH]; intros l L E P; [reflexivity|]. cbn [map mfold]. rewrite <- (E l u L) by (now left). apply bind_ext. intros l' F.
    apply IH; [eapply P; eauto|intros; apply E; auto; now right|exact P].
  Qed.
  Lemma mfold_inv : forall (f : list tensor -> Z -> res (list tensor)) (Q : Z -> Prop) m us l l', length l = m -> (forall l i l', length l = m -> f l i = Ok l' -> Q i /\ length l' = m) ->
    mfold f us l = Ok l' -> (forall i, In i us -> Q i) /\ length l' = m.
  Proof.
    intros f Q m us. induction us as [|u us IH]; intros l l' L P H; cbn [mfold] in H.
    - injection H as <-. split; [intros i []|exact L].
    - apply bind_inv in H. destruct H as (l1 & E & H). destruct (P l u l1 L E) as [QU L1]. destruct (IH l1 l' L1 P H) as [QS L']. split; [|exact L']. intros i [<-|Hi]; auto.
  Qed.
  Lemma range_shift : forall a b k, zrange2 (a + k) (b + k) = map (fun i => (i + k)%Z) (zrange2 a b).
  Proof. intros. unfold zrange2. rewrite map_map. replace (b + k - (a + k))%Z with (b - a)%Z by lia. apply map_ext. intros; lia. Qed.
  Lemma down_shift : forall a b k, zrange_down (a + k) (b + k) = map (fun i => (i + k)%Z) (zrange_down a b).
  Proof. intros. unfold zrange_down. rewrite map_map. replace (a + k - (b + k))%Z with (a - b)%Z by lia. apply map_ext. intros; lia. Qed.
  Lemma range_ends : forall a b i, (a <= i < b)%Z -> In i (zrange2 a b).
  Proof. intros a b i H. unfold zrange2. apply in_map_iff. exists (Z.to_nat (i - a)). split; [lia|]. apply in_seq. lia. Qed.
  Lemma down_ends : forall a b i, (b < i <= a)%Z -> In i (zrange_down a b).
  Proof. intros a b i H. unfold zrange_down. apply in_map_iff. exists (Z.to_nat (a - i)). split; [lia|]. apply in_seq. lia. Qed.

  (** ** SWAP *)
  Lemma swap_unfold : forall a b l, swap_TN_operation svd (Z.of_nat n) (WList [a; b]) l =
    (do l <- mfold (fun l i => two_site svd swap_matrix l i (i + 1)%Z) (zrange2 (Z.min a b) (Z.max a b)) l;
     mfold (fun l i => two_site svd swap_matrix l (i - 1)%Z i) (zrange_down (Z.max a b - 1) (Z.min a b)) l).
  Proof.
    intros a b l. unfold swap_TN_operation. replace (unset (Z.of_nat n) (WList [a; b])) with false by (unfold unset; cbn [wires_unset]; lia). reflexivity.
  Qed.
  Lemma swap_shift : forall a b l, length l = n -> (- Z.of_nat n <= a < 0)%Z -> (- Z.of_nat n <= b < 0)%Z ->
    swap_TN_operation svd (Z.of_nat n) (WList [a; b]) l = swap_TN_operation svd (Z.of_nat n) (WList [(a + Z.of_nat n)%Z; (b + Z.of_nat n)%Z]) l.
  Proof.
    intros a b l L Ha Hb. rewrite !swap_unfold. replace (Z.min (a + Z.of_nat n) (b + Z.of_nat n)) with (Z.min a b + Z.of_nat n)%Z by lia.
    replace (Z.max (a + Z.of_nat n) (b + Z.of_nat n)) with (Z.max a b + Z.of_nat n)%Z by lia.
    replace (Z.max a b + Z.of_nat n - 1)%Z with (Z.max a b - 1 + Z.of_nat n)%Z by lia. rewrite range_shift, down_shift.
    rewrite <- (mfold_shift (fun l i => two_site svd swap_matrix l i (i + 1)%Z) (fun l i => two_site svd swap_matrix l i (i + 1)%Z) _ l L).
    2: { intros m i Lm Hi. apply in_zrange2 in Hi. rewrite two_site_shift by (auto; lia). f_equal; lia. }
    2: { intros m i m' Lm H. apply two_site_inv in H. lia. }
    apply bind_ext. intros l1 E.
    apply mfold_shift.
    - apply (mfold_inv _ (fun _ => True) n _ _ _ L) in E; [apply E|]. intros m i m' Lm H. cbn beta in H. apply two_site_inv in H. split; [exact I|lia].
    - intros m i Lm Hi. apply in_zrange_down in Hi. rewrite two_site_shift by (auto; lia). f_equal; lia.
    - intros m i m' Lm H. apply two_site_inv in H. lia.
  Qed.
  Lemma swap_inv : forall N a b l l', swap_TN_operation svd N (WList [a; b]) l = Ok l' -> length l' = length l /\ (a <> b -> in_register (length l) a /\ in_register (length l) b).
  Proof.
    intros N a b l l' H. unfold swap_TN_operation in H. destruct (unset N (WList [a; b])); [discriminate|]. cbn [raise_if wire_list bind length Nat.eqb negb py_min py_max fold_left] in H.
    apply bind_inv in H. destruct H as (l1 & E & H).
    apply (mfold_inv _ (fun i => in_register (length l) i /\ in_register (length l) (i + 1)) (length l) _ _ _ eq_refl) in E.
    2: { intros m i m' Lm X. cbn beta in X. apply two_site_inv in X. rewrite Lm in X. tauto. }
    destruct E as [Q L1]. apply (mfold_inv _ (fun _ => True) (length l) _ _ _ L1) in H.
    2: { intros m i m' Lm X. cbn beta in X. apply two_site_inv in X. split; [exact I|lia]. }
    destruct H as [_ L2].
    split; [exact L2|]. intros D. destruct (Q (Z.min a b)) as [Q1 _]; [apply range_ends; lia|]. destruct (Q (Z.max a b - 1)%Z) as [_ Q2]; [apply range_ends; lia|].
    replace (Z.max a b - 1 + 1)%Z with (Z.max a b) in Q2 by lia. destruct (Z.le_ge_cases a b) as [O|O]; [rewrite Z.min_l in Q1 by lia; rewrite Z.max_r in Q2 by lia|rewrite Z.min_r in Q1 by lia; rewrite Z.max_l in Q2 by lia]; auto.
  Qed.
  Lemma swap_step_shift : forall i j l, length l = n -> (- Z.of_nat n <= i < 0)%Z -> (- Z.of_nat n <= j < 0)%Z ->
    swap_step svd (Z.of_nat n) l i j = swap_step svd (Z.of_nat n) l (i + Z.of_nat n) (j + Z.of_nat n).
  Proof. intros. unfold swap_step. now apply swap_shift. Qed.
  Lemma swap_step_inv : forall N l i j l', swap_step svd N l i j = Ok l' -> length l' = length l /\ (i <> j -> in_register (length l) i /\ in_register (length l) j).
  Proof. intros N l i j l' H. now apply swap_inv in H. Qed.
  Lemma up_shift : forall a b l, length l = n -> (- Z.of_nat n <= a)%Z -> (b < 0)%Z ->
    mfold (fun l i => swap_step svd (Z.of_nat n) l i (i + 1)%Z) (zrange2 (a + Z.of_nat n) (b + Z.of_nat n)) l = mfold (fun l i => swap_step svd (Z.of_nat n) l i (i + 1)%Z) (zrange2 a b) l.
  Proof.
    intros a b l L Ha Hb. rewrite range_shift. symmetry. apply mfold_shift; [exact L| |].
    - intros m i Lm Hi. apply in_zrange2 in Hi. rewrite swap_step_shift by (auto; lia). f_equal; lia.
    - intros m i m' Lm H. apply swap_step_inv in H. lia.
  Qed.
  Lemma dn_shift : forall a b l, length l = n -> (a < 0)%Z -> (- Z.of_nat n <= b)%Z ->
    mfold (fun l i => swap_step svd (Z.of_nat n) l (i - 1)%Z i) (zrange_down (a + Z.of_nat n) (b + Z.of_nat n)) l = mfold (fun l i => swap_step svd (Z.of_nat n) l (i - 1)%Z i) (zrange_down a b) l.
  Proof.
    intros a b l L Ha Hb. rewrite down_shift. symmetry. apply mfold_shift; [exact L| |].
    - intros m i Lm Hi. apply in_zrange_down in Hi. rewrite swap_step_shift by (auto; lia). f_equal; lia.
    - intros m i m' Lm H. apply swap_step_inv in H. lia.
  Qed.
  Lemma up_inv : forall N us l l', mfold (fun l i => swap_step svd N l i (i + 1)%Z) us l = Ok l' ->
    (forall i, In i us -> in_register (length l) i /\ in_register (length l) (i + 1)) /\ length l' = length l.
  Proof.
    intros N us l l' H. apply (mfold_inv _ (fun i => in_register (length l) i /\ in_register (length l) (i + 1)) (length l) _ _ _ eq_refl) in H; [exact H|]. intros m i m' Lm X. cbn beta in X. apply swap_step_inv in X. rewrite Lm in X.
    split; [apply X; lia|apply X].
  Qed.
  Lemma dn_inv : forall N us l l', mfold (fun l i => swap_step svd N l (i - 1)%Z i) us l = Ok l' ->
    (forall i, In i us -> in_register (length l) (i - 1) /\ in_register (length l) i) /\ length l' = length l.
  Proof.
    intros N us l l' H. apply (mfold_inv _ (fun i => in_register (length l) (i - 1) /\ in_register (length l) i) (length l) _ _ _ eq_refl) in H; [exact H|]. intros m i m' Lm X. cbn beta in X. apply swap_step_inv in X. rewrite Lm in X.
    split; [apply X; lia|apply X].
  Qed.

  (** ** gates with two wires *)
  Lemma ladder2_shift : forall G a b l, length l = n -> (- Z.of_nat n <= a)%Z -> (a < b < 0)%Z ->
    ladder2 svd (Z.of_nat n) G a b l = ladder2 svd (Z.of_nat n) G (a + Z.of_nat n) (b + Z.of_nat n) l.
  Proof.
    intros G a b l L Ha Hb. unfold ladder2. replace (b + Z.of_nat n - 1)%Z with (b - 1 + Z.of_nat n)%Z by lia. rewrite (up_shift a (b - 1) l) by lia.
    apply bind_ext. intros l1 E1. apply up_inv in E1. destruct E1 as [_ L1]. apply bind_ext. intros g _.
    rewrite <- (two_site_shift g l1 (b - 1) b) by lia. apply bind_ext. intros l2 E2. apply two_site_inv in E2. symmetry. apply dn_shift; lia.
  Qed.
  Lemma ladder2_inv : forall N G a b l l', (a <= b)%Z -> ladder2 svd N G a b l = Ok l' -> in_register (length l) a /\ in_register (length l) b.
  Proof.
    intros N G a b l l' O H. unfold ladder2 in H. apply bind_inv in H. destruct H as (l1 & E1 & H). apply up_inv in E1. destruct E1 as [Q L1].
    apply bind_inv in H. destruct H as (g & _ & H). apply bind_inv in H. destruct H as (l2 & E2 & _). apply two_site_inv in E2. rewrite L1 in E2. destruct E2 as (R1 & R2 & _).
    split; [|exact R2]. destruct (Z.eq_dec a b) as [->|D]; [exact R2|]. destruct (Z.eq_dec a (b - 1)) as [->|D']; [exact R1|]. apply Q. apply range_ends. lia.
  Qed.
  Lemma bind_ok_r : forall A (m : res A), (do x <- m; Ok x) = m. Proof. intros A [x|e]; reflexivity. Qed.
  Lemma ctrl_is : forall M Mrev N a b l, N <> (-1)%Z -> ctrl_TN_operation svd M Mrev N (WList [a; b]) l =
    ladder2 svd N (if (a =? Z.min a b)%Z then Ok M else Mrev) (Z.min a b) (Z.max a b) l.
  Proof.
    intros M Mrev N a b l HN. unfold ctrl_TN_operation. replace (unset N (WList [a; b])) with false by (unfold unset; cbn [wires_unset]; lia). reflexivity.
  Qed.
  Lemma cnot_is : forall M Mrev N a b l, N <> (-1)%Z -> cnot_TN_operation svd M Mrev N (WList [a; b]) l =
    ladder2 svd N (if (a =? Z.min a b)%Z then Ok M else Mrev) (Z.min a b) (Z.max a b) l.
  Proof.
    intros M Mrev N a b l HN. unfold cnot_TN_operation. replace (unset N (WList [a; b])) with false by (unfold unset; cbn [wires_unset]; lia).
    cbn [raise_if wire_list bind py_min py_max fold_left]. change (py_nth [a; b] 0) with (Ok a). cbn [bind]. destruct (Z.min a b + 1 =? Z.max a b)%Z eqn:E; [|reflexivity].
    unfold ladder2. replace (Z.max a b - 1)%Z with (Z.min a b) by lia. rewrite (zrange2_empty (Z.min a b) (Z.min a b)), (zrange_down_empty (Z.min a b) (Z.min a b)) by lia.
    cbn [mfold bind]. apply bind_ext. intros g _. symmetry. apply bind_ok_r.
  Qed.

  (** ** toffoli *)
  Lemma three_site_inv : forall G l m l', three_site svd G l m = Ok l' -> in_register (length l) (m - 1) /\ in_register (length l) m /\ in_register (length l) (m + 1) /\ length l' = length l.
  Proof.
    intros G l m l' H. unfold three_site in H. apply bind_inv in H. destruct H as (a & A & H). apply bind_inv in H. destruct H as (b & B & H). apply bind_inv in H. destruct H as (c & C & H).
    split; [now apply index_in in A|]. split; [now apply index_in in B|]. split; [now apply index_in in C|]. cbv zeta in H.
    do 19 (apply bind_inv in H; let x := fresh "x" in let E := fresh "E" in destruct H as (x & E & H)).
    apply bind_inv in H. destruct H as ([[r0 r1] r2] & _ & H).
    apply bind_inv in H. destruct H as (l1 & F1 & H). apply bind_inv in H. destruct H as (l2 & F2 & H).
    apply py_set_length in F1, F2, H. congruence.
  Qed.
  Lemma three_site_shift : forall G l m, length l = n -> (- Z.of_nat n <= m - 1)%Z -> (m + 1 < 0)%Z -> three_site svd G l m = three_site svd G l (m + Z.of_nat n).
  Proof.
    intros G l m L H1 H2. unfold three_site. replace (m + Z.of_nat n - 1)%Z with (m - 1 + Z.of_nat n)%Z by lia. replace (m + Z.of_nat n + 1)%Z with (m + 1 + Z.of_nat n)%Z by lia.
    rewrite (nth_shift l (m - 1) L ltac:(lia)), (nth_shift l m L ltac:(lia)), (nth_shift l (m + 1) L ltac:(lia)). cbv zeta.
    do 22 (apply bind_ext; intros ? _). apply bind_ext. intros [[r0 r1] r2] _. rewrite (set_shift l (m - 1) _ L) by lia. apply bind_ext. intros l1 E1. apply py_set_length in E1.
    rewrite (set_shift l1 m) by lia. apply bind_ext. intros l2 E2. apply py_set_length in E2. apply set_shift; lia.
  Qed.
  Lemma ladder3_shift : forall G a m b l, length l = n -> (- Z.of_nat n <= a)%Z -> (a < m)%Z -> (m < b < 0)%Z ->
    ladder3 svd (Z.of_nat n) G a m b l = ladder3 svd (Z.of_nat n) G (a + Z.of_nat n) (m + Z.of_nat n) (b + Z.of_nat n) l.
  Proof.
    intros G a m b l L Ha Hm Hb. unfold ladder3. replace (m + Z.of_nat n - 1)%Z with (m - 1 + Z.of_nat n)%Z by lia. replace (m + Z.of_nat n + 1)%Z with (m + 1 + Z.of_nat n)%Z by lia.
    rewrite (up_shift a (m - 1) l) by lia. apply bind_ext. intros l1 E1. apply up_inv in E1. destruct E1 as [_ L1]. rewrite (dn_shift b (m + 1) l1) by lia.
    apply bind_ext. intros l2 E2. apply dn_inv in E2. destruct E2 as [_ L2]. rewrite <- (three_site_shift G l2 m) by lia. apply bind_ext. intros l3 E3. apply three_site_inv in E3.
    rewrite (dn_shift (m - 1) a l3) by lia. apply bind_ext. intros l4 E4. apply dn_inv in E4. destruct E4 as [_ L4]. symmetry. apply up_shift; lia.
  Qed.
  Lemma ladder3_inv : forall N G a m b l l', (a < m)%Z -> (m < b)%Z -> ladder3 svd N G a m b l = Ok l' -> in_register (length l) a /\ in_register (length l) m /\ in_register (length l) b.
  Proof.
    intros N G a m b l l' O O' H. unfold ladder3 in H. apply bind_inv in H. destruct H as (l1 & E1 & H). apply up_inv in E1. destruct E1 as [Q1 L1].
    apply bind_inv in H. destruct H as (l2 & E2 & H). apply dn_inv in E2. destruct E2 as [Q2 L2]. apply bind_inv in H. destruct H as (l3 & E3 & _). apply three_site_inv in E3.
    rewrite L2, L1 in E3. rewrite L1 in Q2. destruct E3 as (R1 & R2 & R3 & _). split; [|split; [exact R2|]].
    - destruct (Z.eq_dec a (m - 1)) as [->|D]; [exact R1|]. apply Q1. apply range_ends. lia.
    - destruct (Z.eq_dec b (m + 1)) as [->|D]; [exact R3|]. apply Q2. apply down_ends. lia.
  Qed.
  Lemma sort3 : forall a b c, a <> b -> a <> c -> b <> c -> exists u m d, (u < m < d)%Z /\ zsort [a; b; c] = [u; m; d] /\ (forall x, In x [a; b; c] <-> In x [u; m; d]) /\
    forall k, zsort [(a + k)%Z; (b + k)%Z; (c + k)%Z] = [(u + k)%Z; (m + k)%Z; (d + k)%Z].
  Proof.
    intros a b c H1 H2 H3. cbn [zsort fold_right zinsert].
    destruct (Z.leb_spec b c), (Z.leb_spec a b), (Z.leb_spec a c); try lia;
      [exists a, b, c|exists b, a, c|exists b, c, a|exists a, c, b|exists c, a, b|exists c, b, a]; cbn [zinsert];
      (split; [lia|]; split; [repeat match goal with |- context [(?x <=? ?y)%Z] => first [replace (x <=? y)%Z with true by lia|replace (x <=? y)%Z with false by lia]; cbn [zinsert] end; reflexivity|];
       split; [intros x; cbn [In]; tauto|]; intros k;
       repeat match goal with |- context [(?x <=? ?y)%Z] => first [replace (x <=? y)%Z with true by lia|replace (x <=? y)%Z with false by lia]; cbn [zinsert] end; reflexivity).
  Qed.
  Lemma toffoli_is : forall M Mm Mu N a b c u m d l, N <> (-1)%Z -> zsort [a; b; c] = [u; m; d] ->
    toffoli_TN_operation svd M Mm Mu N (WList [a; b; c]) l = ladder3 svd N (if (d =? c)%Z then Ok M else if (m =? c)%Z then Mm else Mu) u m d l.
  Proof.
    intros M Mm Mu N a b c u m d l HN E. unfold toffoli_TN_operation. replace (unset N (WList [a; b; c])) with false by (unfold unset; cbn [wires_unset]; lia).
    cbn [raise_if wire_list bind]. rewrite E. reflexivity.
  Qed.
End Shift.

Lemma wires2 : forall (ws : list Z), length ws = 2 -> exists a b, ws = [a; b].
Proof. intros [|a [|b [|]]] H; try discriminate. now exists a, b. Qed.
Lemma wires3 : forall (ws : list Z), length ws = 3 -> exists a b c, ws = [a; b; c].
Proof. intros [|a [|b [|c [|]]]] H; try discriminate. now exists a, b, c. Qed.
Lemma nodup2 : forall (a b : Z), NoDup [a; b] -> a <> b.
Proof. intros a b H. inversion H as [|? ? X _]; subst. cbn in X. intuition. Qed.
Lemma nodup3 : forall (a b c : Z), NoDup [a; b; c] -> a <> b /\ a <> c /\ b <> c.
Proof. intros a b c H. inversion H as [|? ? X Y]; subst. inversion Y as [|? ? X' _]; subst. cbn in X, X'. intuition. Qed.

Theorem negative_is_counted_back : forall svd g n ws l, wires_read (g_cls g) = Some (length ws) -> g_N g = Z.of_nat n -> g_wires g = WList ws ->
  length l = n -> NoDup ws -> (forall w, In w ws -> (- Z.of_nat n <= w < 0)%Z) ->
  TN_operation svd g l = TN_operation svd (on_wires g (WList (map (fun w => (w + Z.of_nat n)%Z) ws))) l.
Proof.
  intros svd [c N w p M U] n ws l Hr HN Hw L ND B. cbn [g_cls g_N g_wires] in *. subst w N. unfold TN_operation, on_wires. cbn [g_cls g_N g_wires g_matrix g_params g_umatrix].
  assert (NN : Z.of_nat n <> (-1)%Z) by lia.
  destruct c; cbn [wires_read] in Hr; try discriminate; try reflexivity; injection Hr as Hr; symmetry in Hr.
  6: { destruct (wires3 _ Hr) as (a & b & c & ->). destruct (nodup3 _ _ _ ND) as (H1 & H2 & H3). cbn [map]. destruct (sort3 a b c H1 H2 H3) as (u & m & d & O & S & I & Sk).
    rewrite (toffoli_is svd _ _ _ _ a b c u m d) by auto. rewrite (toffoli_is svd _ _ _ _ _ _ _ (u + Z.of_nat n) (m + Z.of_nat n) (d + Z.of_nat n)) by auto.
    rewrite <- (ladder3_shift svd n); [|exact L| | |].
    2: { apply B, I. now left. } 2: lia. 2: { split; [lia|]. apply B, I. right; right; now left. }
    replace (d + Z.of_nat n =? c + Z.of_nat n)%Z with (d =? c)%Z by lia. replace (m + Z.of_nat n =? c + Z.of_nat n)%Z with (m =? c)%Z by lia. reflexivity. }
  all: destruct (wires2 _ Hr) as (a & b & ->); pose proof (nodup2 _ _ ND) as D; cbn [map]; pose proof (B a ltac:(now left)) as Ba; pose proof (B b ltac:(right; now left)) as Bb.
  all: try (rewrite !cnot_is by exact NN); try (rewrite !ctrl_is by exact NN).
  all: try (replace (Z.min (a + Z.of_nat n) (b + Z.of_nat n)) with (Z.min a b + Z.of_nat n)%Z by lia; replace (Z.max (a + Z.of_nat n) (b + Z.of_nat n)) with (Z.max a b + Z.of_nat n)%Z by lia;
    replace (a + Z.of_nat n =? Z.min a b + Z.of_nat n)%Z with (a =? Z.min a b)%Z by lia; apply ladder2_shift; lia).
  apply swap_shift; lia.
Qed.

Theorem outside_refused : forall svd g ws l l', wires_read (g_cls g) = Some (length ws) -> g_wires g = WList ws -> NoDup ws ->
  TN_operation svd g l = Ok l' -> forall w, In w ws -> in_register (length l) w.
Proof.
  intros svd [c N w p M U] ws l l' Hr Hw ND H. cbn [g_cls g_N g_wires] in *. subst w. unfold TN_operation in H. cbn [g_cls g_N g_wires g_matrix g_params g_umatrix] in H.
  destruct (Z.eq_dec N (-1)) as [->|NN]. { destruct c; cbn [wires_read] in Hr; discriminate. }
  destruct c; cbn [wires_read] in Hr; try discriminate; injection Hr as Hr; symmetry in Hr.
  6: { destruct (wires3 _ Hr) as (a & b & c & ->). destruct (nodup3 _ _ _ ND) as (H1 & H2 & H3). destruct (sort3 a b c H1 H2 H3) as (u & m & d & O & S & I & Sk).
    rewrite (toffoli_is svd _ _ _ _ a b c u m d) in H by auto. apply ladder3_inv in H; [|lia|lia]. intros w Hw. apply I in Hw. destruct H as (? & ? & ?).
    destruct Hw as [<-|[<-|[<-|[]]]]; auto. }
  all: destruct (wires2 _ Hr) as (a & b & ->); pose proof (nodup2 _ _ ND) as D.
  all: try (rewrite cnot_is in H by exact NN); try (rewrite ctrl_is in H by exact NN).
  all: try (apply ladder2_inv in H; [|lia]; destruct H as [H1 H2]; intros w [<-|[<-|[]]]; destruct (Z.le_ge_cases a b);
     [rewrite Z.min_l in H1 by lia|rewrite Z.min_r in H1 by lia|rewrite Z.min_l in H1 by lia|rewrite Z.min_r in H1 by lia];
     [rewrite Z.max_r in H2 by lia|rewrite Z.max_l in H2 by lia|rewrite Z.max_r in H2 by lia|rewrite Z.max_l in H2 by lia]; auto).
  apply swap_inv in H. destruct H as [_ H]. specialize (H D). intros w [<-|[<-|[]]]; tauto.
Qed.
