(** Lemmas: contraction with wires outside 0..N-1, equal wires, and tensors of the wrong rank. *)
From Coq Require Import List ZArith Reals Lia ZifyBool Bool Arith.
From Verif Require Import PyBase Scalar CInst BigSum Index Tensor TensorFacts Spec SpecFacts QMath QTN QOperator ContractFacts QGates GateSpec GateCalls GateFacts6 ContractSpec GateProofs.
Import ListNotations.

Lemma remove_absent : forall l x, ~ In x l -> py_remove l x = Err ValueError.
Proof.
  induction l as [|y l IH]; intros x H; [reflexivity|]. cbn [py_remove]. destruct (y =? x)%Z eqn:E; [exfalso; apply H; left; lia|].
  rewrite IH; [reflexivity|]. intros G. apply H. now right.
Qed.
Lemma remove_some : forall l x, In x l -> exists l', py_remove l x = Ok l' /\ forall y, In y l' -> In y l.
Proof.
  induction l as [|y l IH]; intros x H; [destruct H|]. cbn [py_remove]. destruct (y =? x)%Z eqn:E.
  - exists l. split; [reflexivity|]. intros z Hz. now right.
  - destruct H as [->|H]; [lia|]. destruct (IH x H) as (l' & -> & G). exists (y :: l'). split; [reflexivity|]. intros z [<-|Hz]; [now left|right; auto].
Qed.
Lemma in_zrange : forall N x, In x (zrange (Z.to_nat N)) <-> (0 <= x < N)%Z.
Proof.
  intros N x. unfold zrange. rewrite in_map_iff. split.
  - intros (k & <- & Hk). apply in_seq in Hk. lia.
  - intros H. exists (Z.to_nat x). split; [lia|]. apply in_seq. lia.
Qed.
Lemma in_dec_range : forall N x, In x (zrange (Z.to_nat N)) \/ ~ In x (zrange (Z.to_nat N)).
Proof. intros N x. rewrite in_zrange. lia. Qed.

Lemma contract2_range : forall M N c t vs s, ~ ((0 <= c < N)%Z /\ (0 <= t < N)%Z) -> contract2_at M N c t vs s = Err ValueError.
Proof.
  intros M N c t vs s H. unfold contract2_at. destruct (in_dec_range N c) as [C|C]; [|now rewrite remove_absent].
  destruct (remove_some _ _ C) as (l & -> & G). cbn [bind]. rewrite remove_absent; [reflexivity|]. intros T. apply G in T. rewrite in_zrange in C, T. lia.
Qed.
Lemma contract3_range : forall M N c d t vs s, ~ ((0 <= c < N)%Z /\ (0 <= d < N)%Z /\ (0 <= t < N)%Z) -> contract3_at M N c d t vs s = Err ValueError.
Proof.
  intros M N c d t vs s H. unfold contract3_at. destruct (in_dec_range N c) as [C|C]; [|now rewrite remove_absent].
  destruct (remove_some _ _ C) as (l & -> & G). cbn [bind]. destruct (in_dec Z.eq_dec d l) as [D|D]; [|now rewrite remove_absent].
  destruct (remove_some _ _ D) as (l' & -> & G'). cbn [bind]. rewrite remove_absent; [reflexivity|]. intros T. apply G' in T. apply G in T, D. rewrite in_zrange in C, D, T. lia.
Qed.

Ltac cls g :=
  match goal with H : wires_read (g_cls g) = Some _ |- _ => unfold TN_contract; destruct (g_cls g) eqn:?; try discriminate H end.
Lemma two_list : forall A (l : list A), length l = 2 -> exists a b, l = [a; b].
Proof. intros A [|a [|b [|]]] H; try discriminate. eauto. Qed.
Lemma three_list : forall A (l : list A), length l = 3 -> exists a b c, l = [a; b; c].
Proof. intros A [|a [|b [|c [|]]]] H; try discriminate. eauto. Qed.

Lemma at0 : forall a l, wire_at (WList (a :: l)) 0 = Ok a.
Proof. reflexivity. Qed.
Lemma at1 : forall a b l, wire_at (WList (a :: b :: l)) 1 = Ok b.
Proof. intros a b l. unfold wire_at. change 1%Z with (Z.of_nat 1). apply (py_nth_nat _ (a :: b :: l) 1 a). cbn. lia. Qed.
Lemma at2 : forall a b c l, wire_at (WList (a :: b :: c :: l)) 2 = Ok c.
Proof. intros a b c l. unfold wire_at. change 2%Z with (Z.of_nat 2). apply (py_nth_nat _ (a :: b :: c :: l) 2 a). cbn. lia. Qed.

Lemma contract_equal : forall g ws s b, wires_read (g_cls g) = Some (length ws) -> g_N g <> (-1)%Z -> g_wires g = WList ws -> ~ NoDup ws ->
  TN_contract g s b = Err AssertionError.
Proof.
  intros g ws s b C N W D.
  assert (X2 : length ws = 2 -> exists a, ws = [a; a]).
  { intros H. destruct (two_list _ ws H) as (x & y & ->). destruct (Z.eq_dec x y) as [->|E]; [eauto|]. exfalso. apply D. repeat constructor; cbn; intuition congruence. }
  assert (U : unset (g_N g) (g_wires g) = false) by (unfold unset; rewrite W; cbn; lia).
  cls g; injection C as C; symmetry in C.
  1-7: destruct (X2 C) as (a & ->); unfold double_TN_contract; rewrite U, W, at0, at1; cbn [raise_if bind]; now rewrite Z.eqb_refl.
  - destruct (X2 C) as (a & ->). unfold swap_TN_contract. rewrite U, W, at0, at1. cbn [raise_if bind]. now rewrite Z.eqb_refl.
  - destruct (three_list _ ws C) as (x & y & z & ->). unfold triple_TN_contract. rewrite U, W, at0, at1, at2. cbn [raise_if bind].
    replace (negb (x =? z)%Z && negb (y =? z)%Z && negb (x =? y)%Z) with false; [reflexivity|]. symmetry. rewrite !andb_false_iff, !negb_false_iff, !Z.eqb_eq.
    destruct (Z.eq_dec x y), (Z.eq_dec y z), (Z.eq_dec x z); auto. exfalso. apply D. repeat constructor; cbn; intuition congruence.
Qed.
Lemma distinct2 : forall x y : Z, NoDup [x; y] -> (x =? y)%Z = false.
Proof. intros x y H. inversion H as [|? ? H1]. apply Z.eqb_neq. intros ->. apply H1. now left. Qed.
Lemma distinct3 : forall x y z : Z, NoDup [x; y; z] -> (x =? z)%Z = false /\ (y =? z)%Z = false /\ (x =? y)%Z = false.
Proof.
  intros x y z H. rewrite !Z.eqb_neq. pose proof (proj1 (NoDup_cons_iff x [y; z]) H) as [H1 H2]. pose proof (proj1 (NoDup_cons_iff y [z]) H2) as [H3 _]. cbn in H1, H3. repeat split; intros E; subst; tauto.
Qed.
Lemma contract_rank : forall g ws s b, wires_read (g_cls g) = Some (length ws) -> g_N g <> (-1)%Z -> g_wires g = WList ws -> NoDup ws ->
  Z.of_nat (length (shape s)) <> (if b : bool then g_N g + 1 else g_N g)%Z -> TN_contract g s b = Err AssertionError.
Proof.
  intros g ws s b C N W D R. assert (U : unset (g_N g) (g_wires g) = false) by (unfold unset; rewrite W; cbn; lia).
  cls g; injection C as C; symmetry in C.
  1-7: destruct (two_list _ ws C) as (x & y & ->); unfold double_TN_contract; rewrite U, W, at0, at1; cbn [raise_if bind]; rewrite distinct2 by exact D; cbn [negb andb assert_];
       unfold rank; apply Z.eqb_neq in R; destruct b; rewrite R; reflexivity.
  - destruct (two_list _ ws C) as (x & y & ->). unfold swap_TN_contract. rewrite U, W, at0, at1; cbn [raise_if bind]; rewrite distinct2 by exact D; cbn [negb andb assert_];
       unfold rank; apply Z.eqb_neq in R; destruct b; rewrite R; reflexivity.
  - destruct (three_list _ ws C) as (x & y & z & ->). destruct (distinct3 _ _ _ D) as (D1 & D2 & D3). unfold triple_TN_contract. rewrite U, W, at0, at1, at2. cbn [raise_if bind].
    rewrite D1, D2, D3. cbn [negb andb assert_]. unfold rank; apply Z.eqb_neq in R; destruct b; rewrite R; reflexivity.
Qed.
Lemma contract_range : forall g ws s b, wires_read (g_cls g) = Some (length ws) -> g_cls g <> cSWAP -> g_N g <> (-1)%Z -> g_wires g = WList ws -> NoDup ws ->
  Z.of_nat (length (shape s)) = (if b : bool then g_N g + 1 else g_N g)%Z -> (exists w, In w ws /\ ~ ((if b then -1 else 0) <= w < g_N g)%Z) ->
  TN_contract g s b = Err ValueError.
Proof.
  intros g ws s b C NS N W D R (w & Hw & B). assert (U : unset (g_N g) (g_wires g) = false) by (unfold unset; rewrite W; cbn; lia).
  cls g; try congruence; injection C as C; symmetry in C.
  1-7: destruct (two_list _ ws C) as (x & y & ->); unfold double_TN_contract; rewrite U, W, at0, at1; cbn [raise_if bind]; rewrite distinct2 by exact D; cbn [negb andb assert_];
       unfold rank; apply Z.eqb_eq in R; destruct b; rewrite R; cbn [assert_]; apply contract2_range; destruct Hw as [<-|[<-|[]]]; lia.
  destruct (three_list _ ws C) as (x & y & z & ->). destruct (distinct3 _ _ _ D) as (D1 & D2 & D3). unfold triple_TN_contract. rewrite U, W, at0, at1, at2. cbn [raise_if bind].
  rewrite D1, D2, D3. cbn [negb andb assert_]. unfold rank; apply Z.eqb_eq in R; destruct b; rewrite R; cbn [assert_]; apply contract3_range; destruct Hw as [<-|[<-|[<-|[]]]]; lia.
Qed.

(** a batch of two: the batch number is one more qubit *)
Lemma perm_twos : forall n (t : tensor (SC := C_scalar)) p T, shape t = repeat 2 n -> permute t p = Ok T -> shape T = repeat 2 n.
Proof.
  intros n t p T S H. unfold permute in H. destruct (mmap _ p) as [q|] eqn:E; [|discriminate]. cbn [bind] in H. destruct (is_perm q (rank t)) eqn:P; [|discriminate].
  injection H as <-. cbn [tbuild shape]. unfold is_perm in P. apply andb_true_iff in P. destruct P as [P _]. apply Nat.eqb_eq in P. unfold rank in P. rewrite S, repeat_length in P.
  assert (B : forall d, In d q -> d < n).
  { clear P. revert q E. induction p as [|z p IH]; intros q E d Hd; [injection E as <-; destruct Hd|]. cbn [mmap] in E. destruct (dim_index (rank t) z) as [k|] eqn:K; [|discriminate].
    cbn [bind] in E. destruct (mmap _ p) as [q'|] eqn:E'; [|discriminate]. cbn [bind] in E. injection E as <-. destruct Hd as [<-|Hd]; [|now apply (IH q')].
    unfold dim_index in K. destruct (py_index (rank t) z) as [k'|] eqn:K'; [|discriminate]. injection K as <-. apply py_index_bound in K'. unfold rank in K'. now rewrite S, repeat_length in K'. }
  rewrite <- P. rewrite S. clear E. assert (X : forall q n, (forall d, In d q -> d < n) -> map (fun d => nth d (repeat 2 n) 0) q = repeat 2 (length q)).
  { clear. induction q as [|d q IH]; intros n B; [reflexivity|]. cbn [map length repeat]. rewrite (IH n) by (intros; apply B; now right). f_equal.
    assert (L : d < n) by (apply B; now left). clear -L. revert d L. induction n as [|n IHn]; intros [|d] L; try lia; [reflexivity|]. cbn. apply IHn. lia. }
  rewrite P. rewrite X by exact B. now rewrite P.
Qed.
Lemma set_head : forall (l l' : list Z) i y, (i < 0)%Z -> (- i < Z.of_nat (length l))%Z -> py_set l i y = Ok l' -> nth 0 l' 0%Z = nth 0 l 0%Z /\ length l' = length l.
Proof.
  intros l l' i y H1 H2 H. unfold py_set in H. destruct (py_index (length l) i) as [k|] eqn:E; [|discriminate]. cbn [bind] in H. injection H as <-.
  split; [|apply set_nth_length]. unfold py_index in E. replace ((0 <=? i)%Z && (i <? Z.of_nat (length l))%Z) with false in E by lia.
  replace ((- Z.of_nat (length l) <=? i)%Z && (i <? 0)%Z) with true in E by lia. injection E as <-. destruct l as [|a l]; [cbn in H2; lia|].
  destruct (Z.to_nat (i + Z.of_nat (length (a :: l)))) eqn:Q; [lia|reflexivity].
Qed.
Lemma view_head : forall (t T : tensor (SC := C_scalar)) l, nth 0 l 0%Z = 2%Z -> view t l = Ok T -> nth 0 (shape T) 0 = 2.
Proof.
  intros t T l H V. unfold view in V. destruct (infer_shape (prodn (shape t)) l) as [s|] eqn:E; [|discriminate]. injection V as <-. cbn [shape].
  destruct l as [|z l]; [discriminate|]. cbn in H. subst z. unfold infer_shape in E.
  destruct (existsb _ _); [discriminate|]. destruct (_ - _) as [|[|]]; try discriminate.
  - destruct (_ =? _); [|discriminate]. injection E as <-. reflexivity.
  - destruct (_ =? 0); [discriminate|]. destruct (_ =? 0); [|discriminate]. injection E as <-. reflexivity.
Qed.
Lemma contract2_vs : forall n M c t vs vs' (s : tensor (SC := C_scalar)), 3 <= n -> shape s = repeat 2 n -> (forall T, nth 0 (shape T) 0 = 2 -> vs T = vs' T) ->
  contract2_at M (Z.of_nat n) c t vs s = contract2_at M (Z.of_nat n) c t vs' s.
Proof.
  intros n M c t vs vs' s Hn S V. unfold contract2_at.
  destruct (py_remove _ c) as [p|]; [|reflexivity]. cbn [bind]. destruct (py_remove p t) as [p'|]; [|reflexivity]. cbn [bind].
  destruct (permute s _) as [T|] eqn:P; [|reflexivity]. cbn [bind]. apply (perm_twos n) in P; [|exact S]. cbv zeta. rewrite P.
  destruct (py_nth _ (-2)) as [a|]; [|reflexivity]. cbn [bind]. destruct (py_nth _ (-1)) as [b|]; [|reflexivity]. cbn [bind].
  destruct (py_set _ (-2) _) as [s1|] eqn:E1; [|reflexivity]. cbn [bind]. apply set_head in E1; [|lia|rewrite map_length, repeat_length; lia]. destruct E1 as [E1 L1].
  rewrite map_length, repeat_length in L1. destruct (py_set s1 (-1) _) as [s2|] eqn:E2; [|reflexivity]. cbn [bind]. apply set_head in E2; [|lia|lia]. destruct E2 as [E2 L2].
  destruct (view T s2) as [T1|] eqn:VT; [|reflexivity]. cbn [bind]. apply view_head in VT; [|rewrite E2, E1; destruct n; [lia|reflexivity]].
  now rewrite (V T1 VT).
Qed.
Lemma contract3_vs : forall n M c d t vs vs' (s : tensor (SC := C_scalar)), 4 <= n -> shape s = repeat 2 n -> (forall T, nth 0 (shape T) 0 = 2 -> vs T = vs' T) ->
  contract3_at M (Z.of_nat n) c d t vs s = contract3_at M (Z.of_nat n) c d t vs' s.
Proof.
  intros n M c d t vs vs' s Hn S V. unfold contract3_at.
  destruct (py_remove _ c) as [p|]; [|reflexivity]. cbn [bind]. destruct (py_remove p d) as [p1|]; [|reflexivity]. cbn [bind]. destruct (py_remove p1 t) as [p'|]; [|reflexivity]. cbn [bind].
  destruct (permute s _) as [T|] eqn:P; [|reflexivity]. cbn [bind]. apply (perm_twos n) in P; [|exact S]. cbv zeta. rewrite P.
  destruct (py_nth _ (-3)) as [a|]; [|reflexivity]. cbn [bind]. destruct (py_nth _ (-2)) as [b|]; [|reflexivity]. cbn [bind]. destruct (py_nth _ (-1)) as [e|]; [|reflexivity]. cbn [bind].
  destruct (py_set _ (-3) _) as [s0|] eqn:E0; [|reflexivity]. cbn [bind]. apply set_head in E0; [|lia|rewrite map_length, repeat_length; lia]. destruct E0 as [E0 L0]. rewrite map_length, repeat_length in L0.
  destruct (py_set s0 (-2) _) as [s1|] eqn:E1; [|reflexivity]. cbn [bind]. apply set_head in E1; [|lia|lia]. destruct E1 as [E1 L1].
  destruct (py_set s1 (-1) _) as [s2|] eqn:E2; [|reflexivity]. cbn [bind]. apply set_head in E2; [|lia|lia]. destruct E2 as [E2 L2].
  destruct (view T s2) as [T1|] eqn:VT; [|reflexivity]. cbn [bind]. apply view_head in VT; [|rewrite E2, E1, E0; destruct n; [lia|reflexivity]].
  now rewrite (V T1 VT).
Qed.
Lemma batch_of_two : forall n g ws s, wires_read (g_cls g) = Some (length ws) -> g_N g = Z.of_nat n -> g_wires g = WList ws -> length ws <= n -> shape s = repeat 2 (S n) ->
  TN_contract g s true = TN_contract (on_register g (Z.of_nat (S n)) (WList (map (fun w => w + 1)%Z ws))) s false.
Proof.
  intros n g ws s C N W L S. assert (U : unset (g_N g) (g_wires g) = false) by (unfold unset; rewrite W, N; cbn [wires_unset]; lia).
  assert (U' : forall l, unset (Z.of_nat (Datatypes.S n)) (WList l) = false) by (intros; unfold unset; cbn [wires_unset]; lia).
  assert (V : forall T : tensor (SC := C_scalar), nth 0 (shape T) 0 = 2 -> (Z.of_nat (nth 0 (shape T) 0)) :: repeat 2%Z (Z.to_nat (Z.of_nat n)) = repeat 2%Z (Z.to_nat (Z.of_nat (Datatypes.S n)))).
  { intros T ->. rewrite !Nat2Z.id. reflexivity. }
  assert (E1 : (Z.of_nat n + 1 = Z.of_nat (Datatypes.S n))%Z) by lia.
  unfold on_register. unfold TN_contract. cbn [g_cls g_N g_wires g_matrix]. cls g; injection C as C; symmetry in C.
  1-7: destruct (two_list _ ws C) as (x & y & ->); unfold double_TN_contract; cbn [map]; rewrite U, U', W, !at0, !at1; cbn [raise_if bind];
       replace (x + 1 =? y + 1)%Z with (x =? y)%Z by lia; rewrite N, E1;
       destruct (x =? y)%Z; [reflexivity|]; cbn [negb assert_]; destruct (_ =? _)%Z; [|reflexivity]; cbn [assert_]; apply contract2_vs; [lia|exact S|exact V].
  - destruct (two_list _ ws C) as (x & y & ->). unfold swap_TN_contract; cbn [map]. rewrite U, U', W, !at0, !at1; cbn [raise_if bind].
    replace (x + 1 =? y + 1)%Z with (x =? y)%Z by lia. rewrite N, E1. reflexivity.
  - destruct (three_list _ ws C) as (x & y & z & ->). unfold triple_TN_contract; cbn [map]. rewrite U, U', W, !at0, !at1, !at2; cbn [raise_if bind].
    replace (x + 1 =? y + 1)%Z with (x =? y)%Z by lia. replace (x + 1 =? z + 1)%Z with (x =? z)%Z by lia. replace (y + 1 =? z + 1)%Z with (y =? z)%Z by lia. rewrite N, E1.
    destruct (_ && _); [|reflexivity]. cbn [negb assert_]. destruct (_ =? _)%Z; [|reflexivity]. cbn [assert_]. cbn in L. apply contract3_vs; [lia|exact S|exact V].
Qed.

(** one-qubit gates *)
Lemma permute_len : forall (t : tensor (SC := C_scalar)) p, length p <> rank t -> permute t p = Err TorchError.
Proof.
  intros t p H. unfold permute. destruct (mmap (dim_index (rank t)) p) as [q|e] eqn:E.
  - cbn [bind]. assert (L : length q = length p). { clear H. revert q E. induction p as [|z p IH]; intros q E; [now injection E as <-|]. cbn [mmap] in E.
      destruct (dim_index (rank t) z); [|discriminate]. cbn [bind] in E. destruct (mmap _ p) as [q'|]; [|discriminate]. cbn [bind] in E. injection E as <-. cbn. now rewrite (IH q'). }
    unfold is_perm. replace (length q =? rank t) with false by lia. reflexivity.
  - cbn [bind]. f_equal. clear H. revert e E. induction p as [|z p IH]; intros e E; [discriminate|]. cbn [mmap] in E. unfold dim_index at 1 in E.
    destruct (py_index (rank t) z); cbn [bind] in E; [|congruence]. destruct (mmap _ p) as [q'|e'] eqn:E'; cbn [bind] in E; [discriminate|]. injection E as <-. now apply IH.
Qed.
Lemma contract1_neg : forall M n w (s : tensor (SC := C_scalar)), (- Z.of_nat n <= w < 0)%Z ->
  contract1_at M (Z.of_nat n) w s = contract1_at M (Z.of_nat n) (w + Z.of_nat n) s.
Proof.
  intros M n w s H. unfold contract1_at.
  assert (I : py_index n w = py_index n (w + Z.of_nat n)).
  { unfold py_index. replace ((0 <=? w)%Z && (w <? Z.of_nat n)%Z) with false by lia. replace ((- Z.of_nat n <=? w)%Z && (w <? 0)%Z) with true by lia.
    replace ((0 <=? w + Z.of_nat n)%Z && (w + Z.of_nat n <? Z.of_nat n)%Z) with true by lia. reflexivity. }
  unfold py_set. rewrite zrange_length, Nat2Z.id, I. destruct (py_index n (w + Z.of_nat n)) as [k|] eqn:K; [|reflexivity]. cbn [bind].
  rewrite set_nth_length, zrange_length. destruct (py_index n (Z.of_nat n - 1)) as [j|] eqn:J; [|reflexivity]. cbn [bind].
  set (l := set_nth k _ _).
  assert (P : forall t : tensor (SC := C_scalar), permute t (set_nth j w l) = permute t (set_nth j (w + Z.of_nat n)%Z l)).
  { intros t. destruct (Nat.eq_dec n (rank t)) as [Ht|Ht].
    2:{ rewrite !permute_len; auto; unfold l; rewrite !set_nth_length, zrange_length; exact Ht. }
    unfold permute. replace (mmap (dim_index (rank t)) (set_nth j w l)) with (mmap (dim_index (rank t)) (set_nth j (w + Z.of_nat n)%Z l)); [reflexivity|].
    generalize l as q. clear -I K Ht. induction j as [|j IH]; intros [|z q]; try reflexivity; cbn [set_nth mmap].
    - unfold dim_index at 1 3. now rewrite <- Ht, I, K.
    - destruct (dim_index (rank t) z); [|reflexivity]. cbn [bind]. now rewrite (IH q). }
  rewrite P. destruct (permute s _) as [t|]; [|reflexivity]. cbn [bind]. destruct (unsqueeze t (-1)) as [t1|]; [|reflexivity]. cbn [bind].
  destruct (matmul M t1) as [t2|]; [|reflexivity]. cbn [bind]. destruct (squeeze_dim t2 (-1)) as [t3|]; [|reflexivity]. cbn [bind]. apply P.
Qed.
Lemma negative_wire : forall n g w s, one_qubit_cls (g_cls g) = true -> g_N g = Z.of_nat n -> g_wires g = WInt w -> (- Z.of_nat n <= w <= -2)%Z ->
  U_expand g = Err ValueError /\
  TN_contract g s false = TN_contract (on_wires g (WInt (w + Z.of_nat n))) s false /\
  TN_contract g s true = TN_contract (on_wires g (WInt (w + Z.of_nat n + 1))) s true.
Proof.
  intros n g w s C N W H. assert (U : unset (g_N g) (g_wires g) = false) by (unfold unset; rewrite W, N; cbn [wires_unset]; lia).
  assert (U' : forall v, (0 <= v)%Z -> unset (Z.of_nat n) (WInt v) = false) by (intros; unfold unset; cbn [wires_unset]; lia).
  assert (X : U_expand g = single_U_expand (g_matrix g) (g_N g) (g_wires g) /\ forall w s b, TN_contract (on_wires g w) s b = single_TN_contract (g_matrix g) (g_N g) w s b).
  { unfold U_expand, TN_contract, on_wires. cbn [g_cls g_N g_wires g_matrix]. destruct (g_cls g); try discriminate C; split; reflexivity. }
  destruct X as [X Y]. assert (Y' : forall s b, TN_contract g s b = single_TN_contract (g_matrix g) (g_N g) (g_wires g) s b).
  { intros s0 b. rewrite <- Y. unfold on_wires. now destruct g. }
  rewrite !Y, !Y', X. split; [|split].
  - unfold single_U_expand. rewrite U, W, N. cbn [raise_if wire_int bind]. destruct (Z.of_nat n <? 1)%Z; [reflexivity|]. cbn [raise_if]. unfold gate_expand_1toN.
    replace (w <? 0)%Z with true by lia. destruct (_ <? 1)%Z; reflexivity.
  - unfold single_TN_contract. rewrite U, W, N, U' by lia. cbn [raise_if wire_int bind]. apply contract1_neg. lia.
  - unfold single_TN_contract. rewrite U, W, N, U' by lia. cbn [raise_if wire_int bind]. replace (Z.of_nat n + 1)%Z with (Z.of_nat (S n)) by lia.
    rewrite contract1_neg by lia. f_equal. lia.
Qed.
Lemma no_wires : forall g, constructed g -> g_N g = (-1)%Z \/ g_wires g = WInt (-1) ->
  U_expand g = Err ValueError /\
  (forall s b, TN_contract g s b = Err (match g_cls g with cmcx => AttributeError | _ => ValueError end)) /\
  (forall svd l, TN_operation svd g l = Err (match g_cls g with crxx | cryy | crzz | cmcx => AttributeError | _ => ValueError end)).
Proof.
  intros g C H. assert (U : unset (g_N g) (g_wires g) = true) by (unfold unset; destruct H as [->| ->]; [reflexivity|]; cbn [wires_unset]; lia).
  unfold U_expand, TN_contract, TN_operation, single_U_expand, rpp_U_expand, ctrl_U_expand, single_TN_contract, double_TN_contract, swap_TN_contract, triple_TN_contract,
    single_TN_operation, cnot_TN_operation, ctrl_TN_operation, swap_TN_operation, toffoli_TN_operation.
  rewrite U. destruct (g_cls g); repeat split; reflexivity.
Qed.
