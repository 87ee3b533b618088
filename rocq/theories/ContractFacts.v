(** Lemmas: what the TN_contract functions of QOperator.v return. *)
From Coq Require Import List ZArith QArith Lia ZifyBool Bool Arith Permutation Ring Setoid Morphisms.
From Verif Require Import PyBase Scalar BigSum Index Tensor TensorFacts Spec SpecFacts QMath QTN QOperator ExpandFacts ExpandFacts2.
Import ListNotations.
Local Close Scope Q_scope.
Local Open Scope nat_scope.

Ltac ifs := repeat match goal with |- context [if ?x then _ else _] =>
  lazymatch x with context [if _ then _ else _] => fail | _ => destruct x eqn:? end end.

Section ContractFacts.
  Context {SC : Scalar}.
  Add Ring KR : k_ring.

  Lemma unflat_unique : forall s k idx, valid s idx -> flat s idx = k -> unflat s k = idx.
  Proof. intros. subst. now apply unflat_flat. Qed.

  (** a 2^k x 2^k matrix applied to the last k binary dimensions, merged into one *)
  Lemma matmul_last : forall sr k A f,
    matmul (op_tensor k A) (mkT (sr ++ [2 ^ k; 1]) (data (tbuild (sr ++ repeat 2 k) f))) =
    Ok (mkT (sr ++ [2 ^ k; 1]) (data (tbuild (sr ++ repeat 2 k)
         (fun idx => bigsum (bits k) (fun c => kmul (A (skipn (length sr) idx) c) (f (firstn (length sr) idx ++ c))))))).
  Proof.
    intros sr k A f.
    assert (P : prodn (sr ++ repeat 2 k) = prodn (sr ++ [2 ^ k; 1])).
    { rewrite !prodn_app, prodn_repeat. cbn [prodn fold_right]. lia. }
    rewrite !reshape_tbuild by exact P. unfold op_tensor. rewrite matmul_mat_stack. f_equal.
    apply tbuild_ext. intros idx Hv.
    assert (L : length idx = length sr + 2) by (apply valid_length in Hv; rewrite app_length in Hv; exact Hv).
    rewrite <- (firstn_skipn (length sr) idx) in Hv. apply valid_app in Hv. 2:{ rewrite firstn_length; lia. }
    destruct Hv as [Hi Hx].
    assert (E : idx = firstn (length sr) idx ++ skipn (length sr) idx) by (now rewrite firstn_skipn).
    set (i := firstn (length sr) idx) in *.
    assert (Li : length i = length sr) by (subst i; rewrite firstn_length; lia).
    assert (Lx : length (skipn (length sr) idx) = 2) by (rewrite skipn_length; lia).
    destruct (skipn (length sr) idx) as [|x [|z [|? ?]]]; try discriminate.
    apply valid_cons in Hx. destruct Hx as [Hx Hz]. apply valid_cons in Hz. destruct Hz as [Hz _].
    assert (z = 0) by lia. subst z. clear Lx. rewrite E. clearbody i. clear E L idx.
    assert (N1 : nth (length sr) (i ++ [x; 0]) 0 = x) by (rewrite app_nth2, Li, Nat.sub_diag by lia; reflexivity).
    assert (N2 : nth (S (length sr)) (i ++ [x; 0]) 0 = 0).
    { rewrite app_nth2 by lia. replace (S (length sr) - length i) with 1 by lia. reflexivity. }
    assert (F1 : firstn (length sr) (i ++ [x; 0]) = i).
    { rewrite firstn_app, Li, Nat.sub_diag, firstn_O, app_nil_r. apply firstn_all2. lia. }
    rewrite N1, N2. clear F1.
    assert (U : forall l, l < 2 ^ k -> unflat (sr ++ repeat 2 k) (flat (sr ++ [2 ^ k; 1]) (i ++ [l; 0])) = i ++ bitsof k l).
    { intros l Hl. apply unflat_unique.
      - apply valid_app; auto. split; auto. apply bits_valid. now apply bitsof_in.
      - rewrite !flat_app by auto. rewrite <- (bval_flat_n k) by (now apply bitsof_length). rewrite bval_bitsof by auto.
        rewrite prodn_repeat. cbn [prodn flat fold_right]. lia. }
    rewrite U by auto.
    rewrite skipn_app, Li, Nat.sub_diag, skipn_O, skipn_all2, app_nil_l by lia.
    rewrite firstn_app, Li, Nat.sub_diag, firstn_O, app_nil_r, firstn_all2 by lia.
    rewrite bits_map, bigsum_map. apply bigsum_ext. intros l Hl. apply in_seq in Hl.
    cbn [nth]. rewrite U by lia. reflexivity.
  Qed.

  (** q is the inverse of p *)
  Definition inv_of (n : nat) (q p : list nat) : Prop :=
    length q = n /\ forall d, d < n -> nth (nth d p 0) q 0 = d.

  Lemma perm_nth_lt : forall p n d, Permutation p (seq 0 n) -> d < n -> nth d p 0 < n.
  Proof.
    intros p n d H Hd. assert (I : In (nth d p 0) p) by (apply nth_In; rewrite (Permutation_length H), seq_length; auto).
    eapply Permutation_in in I; [|exact H]. apply in_seq in I. lia.
  Qed.

  Lemma inv_perm : forall n p q, Permutation p (seq 0 n) -> inv_of n q p -> Permutation q (seq 0 n).
  Proof.
    intros n p q Hp [Lq Hq]. symmetry. apply NoDup_Permutation_bis.
    - apply seq_NoDup.
    - rewrite seq_length; lia.
    - intros d Hd. apply in_seq in Hd. rewrite <- (Hq d) by lia. apply nth_In. rewrite Lq. apply perm_nth_lt; auto. lia.
  Qed.

  Lemma inv_index : forall n p q d, Permutation p (seq 0 n) -> inv_of n q p -> d < n -> index_of d q = nth d p 0.
  Proof.
    intros n p q d Hp Hi Hd. pose proof (inv_perm n p q Hp Hi) as Hq. destruct Hi as [Lq Hi].
    rewrite <- (Hi d) at 1 by auto. apply index_of_nth.
    - eapply Permutation_NoDup; [symmetry; exact Hq|apply seq_NoDup].
    - rewrite Lq. now apply perm_nth_lt.
  Qed.

  Lemma inv_unperm : forall n p q idx, Permutation p (seq 0 n) -> inv_of n q p ->
    unperm q idx = rd idx p.
  Proof.
    intros n p q idx Hp Hi. assert (Lp : length p = n) by (rewrite (Permutation_length Hp); apply seq_length).
    destruct (Hi) as [Lq _].
    apply nth_ext with (d := 0) (d' := 0). { rewrite unperm_length, rd_length. lia. }
    intros d Hd. rewrite unperm_length in Hd. rewrite nth_unperm by auto.
    rewrite (inv_index n p) by (auto; lia). unfold rd. now rewrite (nth_map' _ _ _ p d 0 0) by lia.
  Qed.

  Lemma inv_shape : forall n p q s, length s = n -> Permutation p (seq 0 n) -> inv_of n q p ->
    map (fun d => nth d (rd s p) 0) q = s.
  Proof.
    intros n p q s Ls Hp Hi. pose proof (inv_perm n p q Hp Hi) as Hq. destruct Hi as [Lq Hi].
    assert (Lp : length p = n) by (rewrite (Permutation_length Hp); apply seq_length).
    apply nth_ext with (d := 0) (d' := 0). { rewrite map_length; lia. }
    intros k Hk. rewrite map_length in Hk. rewrite (nth_map' _ _ _ q k 0 0) by auto.
    unfold rd. assert (Hqk : nth k q 0 < n) by (apply perm_nth_lt; auto; lia).
    rewrite (nth_map' _ _ _ p _ 0 0) by lia. f_equal.
    assert (In k p). { eapply Permutation_in; [symmetry; exact Hp|]. apply in_seq; lia. }
    destruct (In_nth p k 0 H) as [d [Hd E]]. rewrite <- E at 1. rewrite Hi by lia. exact E.
  Qed.

  Lemma index_of_app_l : forall l1 l2 d, In d l1 -> index_of d (l1 ++ l2) = index_of d l1.
  Proof.
    induction l1; simpl; intros l2 d H; [tauto|]. destruct (a =? d) eqn:E; auto. f_equal. apply IHl1.
    destruct H; auto. apply Nat.eqb_neq in E. congruence.
  Qed.
  Lemma index_of_app_r : forall l1 l2 d, ~ In d l1 -> index_of d (l1 ++ l2) = length l1 + index_of d l2.
  Proof.
    induction l1; simpl; intros l2 d H; auto. destruct (a =? d) eqn:E.
    - apply Nat.eqb_eq in E. tauto.
    - f_equal. apply IHl1. tauto.
  Qed.

  Lemma unperm_wr : forall n rest ws idx c, Permutation (rest ++ ws) (seq 0 n) -> length idx = n ->
    length c = length ws -> unperm (rest ++ ws) (rd idx rest ++ c) = wr idx ws c.
  Proof.
    intros n rest ws idx c Hp Li Lc.
    assert (Hnd : NoDup (rest ++ ws)) by (eapply Permutation_NoDup; [symmetry; exact Hp|apply seq_NoDup]).
    assert (Hws : forall w, In w ws -> w < length idx).
    { intros w Hw. assert (In w (seq 0 n)) by (eapply Permutation_in; [exact Hp|apply in_or_app; auto]). apply in_seq in H; lia. }
    assert (Lp : length (rest ++ ws) = n) by (rewrite (Permutation_length Hp); apply seq_length).
    assert (Nws : NoDup ws) by (eapply NoDup_app_r; eauto).
    apply nth_ext with (d := 0) (d' := 0). { rewrite unperm_length, wr_length; lia. }
    intros k Hk. rewrite unperm_length in Hk. rewrite nth_unperm by auto.
    assert (Ik : In k (rest ++ ws)). { eapply Permutation_in; [symmetry; exact Hp|]. apply in_seq; lia. }
    destruct (in_dec Nat.eq_dec k ws) as [Hkw|Hkw].
    - assert (Hnr : ~ In k rest).
      { intros Hr. clear - Hnd Hr Hkw. induction rest; [auto|]. simpl in Hnd. inversion Hnd; subst. destruct Hr as [->|Hr]; auto.
        apply H1, in_or_app; auto. }
      rewrite index_of_app_r by auto. rewrite app_nth2 by (rewrite rd_length; lia).
      rewrite rd_length. replace (length rest + index_of k ws - length rest) with (index_of k ws) by lia.
      symmetry. apply nth_wr_in; auto.
    - assert (Hr : In k rest) by (apply in_app_or in Ik; tauto).
      rewrite index_of_app_l by auto. pose proof (index_of_lt rest k Hr).
      rewrite app_nth1 by (rewrite rd_length; auto). unfold rd. rewrite (nth_map' _ _ _ rest _ 0 0) by auto.
      rewrite nth_index_of by auto. symmetry. apply nth_wr_out; auto.
  Qed.

  Lemma rd_app : forall b l1 l2, rd b (l1 ++ l2) = rd b l1 ++ rd b l2.
  Proof. intros. unfold rd. apply map_app. Qed.

  (** permute, apply the matrix to the last dimensions, permute back *)
  Section Core.
    Variables (n : nat) (s rest ws q : list nat) (A : qop) (f : list nat -> K).
    Hypothesis (Ls : length s = n) (Hp : Permutation (rest ++ ws) (seq 0 n)).
    Hypothesis (H2 : forall w, In w ws -> nth w s 0 = 2).
    Hypothesis (Hq : inv_of n q (rest ++ ws)).

    Lemma core_shape : map (fun d => nth d s 0) (rest ++ ws) = rd s rest ++ repeat 2 (length ws).
    Proof.
      rewrite map_app. f_equal. clear - H2. induction ws as [|w l IH]; simpl; auto. rewrite H2 by (simpl; auto). f_equal.
      apply IH. intros; apply H2; simpl; auto.
    Qed.

    Lemma core_fwd : permute (tbuild s f) (map Z.of_nat (rest ++ ws)) =
      Ok (tbuild (rd s rest ++ repeat 2 (length ws)) (fun idx => f (unperm (rest ++ ws) idx))).
    Proof. rewrite permute_tbuild by (now rewrite Ls). now rewrite core_shape. Qed.

    Lemma core_mat :
      matmul (op_tensor (length ws) A) (mkT (rd s rest ++ [2 ^ length ws; 1])
         (data (tbuild (rd s rest ++ repeat 2 (length ws)) (fun idx => f (unperm (rest ++ ws) idx))))) =
      Ok (mkT (rd s rest ++ [2 ^ length ws; 1]) (data (tbuild (rd s rest ++ repeat 2 (length ws)) (fun idx =>
            bigsum (bits (length ws)) (fun c => kmul (A (skipn (length rest) idx) c) (f (unperm (rest ++ ws) (firstn (length rest) idx ++ c)))))))).
    Proof. rewrite matmul_last. now rewrite rd_length. Qed.

    Lemma core_bwd : permute (tbuild (rd s rest ++ repeat 2 (length ws)) (fun idx =>
        bigsum (bits (length ws)) (fun c => kmul (A (skipn (length rest) idx) c) (f (unperm (rest ++ ws) (firstn (length rest) idx ++ c)))))) (map Z.of_nat q) =
      Ok (tbuild s (apply_on A ws f)).
    Proof.
      assert (Lp : length (rest ++ ws) = n) by (rewrite (Permutation_length Hp); apply seq_length).
      rewrite permute_tbuild.
      2:{ rewrite app_length, rd_length, repeat_length, <- app_length, Lp. now apply (inv_perm n (rest ++ ws)). }
      f_equal.
      replace (map (fun d => nth d (rd s rest ++ repeat 2 (length ws)) 0) q) with s.
      2:{ rewrite <- core_shape. symmetry. now apply (inv_shape n). }
      apply tbuild_ext. intros idx Hv. rewrite (inv_unperm n (rest ++ ws)) by auto.
      rewrite rd_app. rewrite skipn_app, rd_length, Nat.sub_diag, skipn_O, skipn_all2, app_nil_l by (rewrite rd_length; lia).
      unfold apply_on. apply bigsum_ext. intros c Hc. f_equal.
      rewrite firstn_app, rd_length, Nat.sub_diag, firstn_O, app_nil_r, firstn_all2 by (rewrite rd_length; lia).
      rewrite (unperm_wr n); auto.
      - apply valid_length in Hv; lia.
      - now apply bits_length.
    Qed.
  End Core.

  (** ** single-qubit *)
  Lemma zrange_seq : forall n, zrange (Z.to_nat (Z.of_nat n)) = map Z.of_nat (seq 0 n).
  Proof. intros. rewrite Nat2Z.id. reflexivity. Qed.

  Lemma set_last : forall A (l : list A) x y, set_nth (length l) x (l ++ [y]) = l ++ [x].
  Proof. intros. replace (length l) with (length l + 0) by lia. rewrite set_nth_app2. reflexivity. Qed.

  Lemma set_nth_beyond : forall A k (x : A) l, length l <= k -> set_nth k x l = l.
  Proof. induction k; destruct l; simpl; intros; auto; try lia. f_equal. apply IHk. lia. Qed.

  (** exchanging position w with the last one *)
  Lemma swap_last_perm : forall n w, w < S n ->
    set_nth n w (set_nth w n (seq 0 (S n))) = set_nth w n (seq 0 n) ++ [w].
  Proof.
    intros n w Hw. rewrite seq_S. cbn [Nat.add].
    destruct (Nat.eq_dec w n) as [->|Hne].
    - rewrite (set_nth_beyond _ n n (seq 0 n)) by (rewrite seq_length; lia).
      pose proof (set_last _ (seq 0 n) n n) as H. rewrite seq_length in H. rewrite H.
      rewrite H. reflexivity.
    - rewrite set_nth_app1 by (rewrite seq_length; lia).
      pose proof (set_last _ (set_nth w n (seq 0 n)) w n) as H. rewrite set_nth_length, seq_length in H. exact H.
  Qed.

  Lemma nth_swap_last : forall n w i, w < S n -> i < S n ->
    nth i (set_nth w n (seq 0 n) ++ [w]) 0 = if i =? n then w else if i =? w then n else i.
  Proof.
    intros n w i Hw Hi. destruct (i =? n) eqn:E.
    - apply Nat.eqb_eq in E. subst. rewrite app_nth2; rewrite set_nth_length, seq_length; [|lia]. now rewrite Nat.sub_diag.
    - apply Nat.eqb_neq in E. rewrite app_nth1 by (rewrite set_nth_length, seq_length; lia).
      destruct (lt_dec w n).
      + rewrite nth_set_nth by (rewrite seq_length; lia). rewrite seq_nth by lia. reflexivity.
      + rewrite set_nth_beyond by (rewrite seq_length; lia). rewrite seq_nth by lia.
        destruct (i =? w) eqn:E2; auto. apply Nat.eqb_eq in E2. lia.
  Qed.

  Lemma invol_inv : forall n p, length p = n -> (forall d, d < n -> nth (nth d p 0) p 0 = d) ->
    (forall d, d < n -> nth d p 0 < n) -> Permutation p (seq 0 n) /\ inv_of n p p.
  Proof.
    intros n p L H Hl. split; [|split; auto]. symmetry. apply NoDup_Permutation_bis.
    - apply seq_NoDup.
    - rewrite seq_length; lia.
    - intros d Hd. apply in_seq in Hd. rewrite <- (H d) by lia. apply nth_In. rewrite L. apply Hl. lia.
  Qed.

  Lemma swap_last_inv : forall n w, w < S n ->
    Permutation (set_nth w n (seq 0 n) ++ [w]) (seq 0 (S n)) /\
    inv_of (S n) (set_nth w n (seq 0 n) ++ [w]) (set_nth w n (seq 0 n) ++ [w]).
  Proof.
    intros n w Hw. apply invol_inv.
    - rewrite app_length, set_nth_length, seq_length. simpl; lia.
    - intros d Hd. rewrite (nth_swap_last n w d) by auto.
      destruct (d =? n) eqn:E; [|destruct (d =? w) eqn:E2]; rewrite nth_swap_last by lia.
      + apply Nat.eqb_eq in E. destruct (w =? n) eqn:E3; [apply Nat.eqb_eq in E3; lia|]. rewrite Nat.eqb_refl; lia.
      + rewrite Nat.eqb_refl. apply Nat.eqb_eq in E2; auto.
      + now rewrite E, E2.
    - intros d Hd. rewrite nth_swap_last by auto. destruct (d =? n); auto. destruct (d =? w); auto.
  Qed.

  Lemma contract1_ok : forall s w A f, w < length s -> nth w s 0 = 2 ->
    contract1_at (op_tensor 1 A) (Z.of_nat (length s)) (Z.of_nat w) (tbuild s f) = Ok (tbuild s (apply_on A [w] f)).
  Proof.
    intros s w A f Hw H2. unfold contract1_at. rewrite zrange_seq.
    destruct (length s) as [|n] eqn:Ls; [lia|].
    replace (Z.of_nat (S n) - 1)%Z with (Z.of_nat n) by lia.
    rewrite py_set_nat by (rewrite map_length, seq_length; auto). cbn [bind].
    rewrite py_set_nat by (rewrite set_nth_length, map_length, seq_length; auto). cbn [bind].
    rewrite <- !map_set_nth, swap_last_perm by auto.
    destruct (swap_last_inv n w Hw) as [Hp Hi].
    assert (H2' : forall v, In v [w] -> nth v s 0 = 2) by (intros v [<-|[]]; auto).
    rewrite (core_fwd (S n) s _ [w] f Ls Hp H2'). cbn [bind length].
    rewrite unsqueeze_last, tbuild_shape. cbn [bind]. rewrite <- app_assoc. cbn [repeat app].
    pose proof (core_mat s (set_nth w n (seq 0 n)) [w] A f) as HM. cbn [length repeat Nat.pow Nat.mul Nat.add] in HM.
    rewrite HM. cbn [bind].
    unfold squeeze_dim, rank. cbn [shape].
    assert (Lx : length (rd s (set_nth w n (seq 0 n)) ++ [2; 1]) = S (S n)).
    { rewrite app_length, rd_length, set_nth_length, seq_length. simpl; lia. }
    rewrite Lx, dim_index_last. cbn [bind].
    assert (Lr : length (rd s (set_nth w n (seq 0 n))) = n) by (rewrite rd_length, set_nth_length, seq_length; auto).
    replace (nth (S n) (rd s (set_nth w n (seq 0 n)) ++ [2; 1]) 0) with 1.
    2:{ rewrite app_nth2 by lia. rewrite Lr. replace (S n - n) with 1 by lia. reflexivity. }
    cbn [Nat.eqb].
    replace (firstn (S n) (rd s (set_nth w n (seq 0 n)) ++ [2; 1]) ++ skipn (S (S n)) (rd s (set_nth w n (seq 0 n)) ++ [2; 1]))
      with (rd s (set_nth w n (seq 0 n)) ++ [2]).
    2:{ rewrite firstn_app, Lr. replace (S n - n) with 1 by lia. rewrite (skipn_all2 (n := S (S n))) by lia.
        rewrite firstn_all2 by lia. cbn [firstn]. now rewrite app_nil_r. }
    cbn [bind].
    pose proof (core_bwd (S n) s _ [w] _ A f Ls Hp H2' Hi) as HB. cbn [length repeat] in HB. exact HB.
  Qed.

  (** ** helpers on index lists *)
  Lemma py_index_neg : forall m k, py_index (m + S k) (- Z.of_nat (S k)) = Ok m.
  Proof.
    intros. unfold py_index.
    destruct ((0 <=? - Z.of_nat (S k))%Z && (- Z.of_nat (S k) <? Z.of_nat (m + S k))%Z) eqn:E. { exfalso; lia. }
    destruct ((- Z.of_nat (m + S k) <=? - Z.of_nat (S k))%Z && (- Z.of_nat (S k) <? 0)%Z) eqn:E2; [|exfalso; lia].
    f_equal. lia.
  Qed.
  Lemma py_nth_neg : forall B (l1 l2 : list B) x, py_nth (l1 ++ x :: l2) (- Z.of_nat (S (length l2))) = Ok x.
  Proof.
    intros. unfold py_nth. rewrite app_length. cbn [length]. rewrite py_index_neg. cbn [bind].
    rewrite nth_error_app2, Nat.sub_diag by lia. reflexivity.
  Qed.
  Lemma py_set_neg : forall B (l1 l2 : list B) x y, py_set (l1 ++ x :: l2) (- Z.of_nat (S (length l2))) y = Ok (l1 ++ y :: l2).
  Proof.
    intros. unfold py_set. rewrite app_length. cbn [length]. rewrite py_index_neg. cbn [bind].
    replace (length l1) with (length l1 + 0) by lia. rewrite set_nth_app2. reflexivity.
  Qed.

  Lemma end2 : forall B (l : list B) x y z,
    py_nth (l ++ [x; y]) (-2)%Z = Ok x /\ py_nth (l ++ [x; y]) (-1)%Z = Ok y /\
    py_set (l ++ [x; y]) (-2)%Z z = Ok (l ++ [z; y]) /\ py_set (l ++ [x; y]) (-1)%Z z = Ok (l ++ [x; z]).
  Proof.
    intros. pose proof (py_nth_neg _ l [y] x) as H1. pose proof (py_nth_neg _ (l ++ [x]) [] y) as H2.
    pose proof (py_set_neg _ l [y] x z) as H3. pose proof (py_set_neg _ (l ++ [x]) [] y z) as H4.
    rewrite <- !app_assoc in *. auto.
  Qed.
  Lemma end3 : forall B (l : list B) x y w z,
    py_nth (l ++ [x; y; w]) (-3)%Z = Ok x /\ py_nth (l ++ [x; y; w]) (-2)%Z = Ok y /\ py_nth (l ++ [x; y; w]) (-1)%Z = Ok w /\
    py_set (l ++ [x; y; w]) (-3)%Z z = Ok (l ++ [z; y; w]) /\ py_set (l ++ [x; y; w]) (-2)%Z z = Ok (l ++ [x; z; w]) /\
    py_set (l ++ [x; y; w]) (-1)%Z z = Ok (l ++ [x; y; z]).
  Proof.
    intros. pose proof (py_nth_neg _ l [y; w] x) as H1. pose proof (py_set_neg _ l [y; w] x z) as H4.
    pose proof (end2 _ (l ++ [x]) y w z) as [H2 [H3 [H5 H6]]]. rewrite <- !app_assoc in *. auto 10.
  Qed.

  Lemma py_remove_nat : forall l x, NoDup l -> In x l ->
    py_remove (map Z.of_nat l) (Z.of_nat x) = Ok (map Z.of_nat (filter (fun i => negb (i =? x)) l)).
  Proof.
    induction l as [|y l IH]; simpl; intros x Hn Hx; [tauto|]. inversion Hn; subst.
    destruct (y =? x) eqn:E.
    - apply Nat.eqb_eq in E. subst. rewrite Z.eqb_refl. cbn [negb]. f_equal. f_equal.
      clear - H1. induction l as [|z l IH]; simpl; auto. destruct (z =? x) eqn:E.
      + apply Nat.eqb_eq in E. subst. simpl in H1. tauto.
      + cbn [negb]. f_equal. apply IH. simpl in H1; tauto.
    - apply Nat.eqb_neq in E. destruct (Z.of_nat y =? Z.of_nat x)%Z eqn:E2; [lia|].
      destruct Hx as [Hx|Hx]; [congruence|]. rewrite IH by auto. reflexivity.
  Qed.

  Lemma filter_filter : forall B (p q : B -> bool) l, filter p (filter q l) = filter (fun x => q x && p x) l.
  Proof. induction l; simpl; auto. destruct (q a); simpl; [destruct (p a)|]; now rewrite IHl. Qed.

  Lemma pop_last_seq : forall n, pop_last (map Z.of_nat (seq 0 (S n))) = Ok (map Z.of_nat (seq 0 n)).
  Proof.
    intros. unfold pop_last, py_pop. rewrite map_length, seq_length.
    replace (S n) with (n + S 0) at 1 by lia. change (-1)%Z with (- Z.of_nat (S 0))%Z. rewrite py_index_neg. cbn [bind].
    rewrite seq_S, map_app, firstn_app, skipn_app, map_length, seq_length.
    rewrite firstn_all2 by (rewrite map_length, seq_length; lia).
    rewrite skipn_all2 by (rewrite map_length, seq_length; lia).
    replace (n - n) with 0 by lia. replace (S n - n) with 1 by lia. cbn [firstn skipn map app]. now rewrite !app_nil_r.
  Qed.

  Definition ins (w v : nat) (l : list nat) : list nat := firstn w l ++ v :: skipn w l.
  Lemma py_insert_nat : forall l w v, w <= length l ->
    py_insert (map Z.of_nat l) (Z.of_nat w) (Z.of_nat v) = map Z.of_nat (ins w v l).
  Proof.
    intros. unfold py_insert, ins. replace (Z.of_nat w <? 0)%Z with false by lia.
    rewrite map_length. rewrite Z.min_l, Nat2Z.id by lia.
    rewrite map_app. cbn [map]. now rewrite firstn_map, skipn_map.
  Qed.
  Lemma ins_length : forall w v l, w <= length l -> length (ins w v l) = S (length l).
  Proof. intros. unfold ins. rewrite app_length. cbn [length]. rewrite firstn_length, skipn_length. lia. Qed.
  Lemma nth_ins : forall w v l i, w <= length l ->
    nth i (ins w v l) 0 = if i <? w then nth i l 0 else if i =? w then v else nth (i - 1) l 0.
  Proof.
    intros w v l i H. unfold ins.
    assert (L : length (firstn w l) = w) by (rewrite firstn_length; lia).
    destruct (i <? w) eqn:E.
    - rewrite app_nth1 by (rewrite L; lia). apply nth_firstn'. lia.
    - rewrite app_nth2 by (rewrite L; lia). rewrite L. destruct (i =? w) eqn:E2.
      + replace (i - w) with 0 by lia. reflexivity.
      + replace (i - w) with (S (i - w - 1)) by lia. cbn [nth]. rewrite nth_skipn'. f_equal. lia.
  Qed.

  Lemma filter_seq_all : forall p a l, (forall i, a <= i < a + l -> p i = true) -> filter p (seq a l) = seq a l.
  Proof.
    intros p a l. revert a. induction l; intros a H; auto. cbn [seq filter]. rewrite H by lia. f_equal. apply IHl.
    intros. apply H. lia.
  Qed.

  (** others in the sorted case, two and three wires *)
  Lemma others_sorted2 : forall n a b, a < b -> b < n -> forall d, d < n - 2 ->
    nth d (others n [a; b]) 0 = if d <? a then d else if S d <? b then S d else S (S d).
  Proof.
    intros n a b Hab Hb d Hd.
    assert (E : others n [a; b] = seq 0 a ++ seq (S a) (b - a - 1) ++ seq (S b) (n - b - 1)).
    { unfold others. replace n with (a + (1 + ((b - a - 1) + (1 + (n - b - 1))))) at 1 by lia.
      rewrite !seq_app, !filter_app. cbn [Nat.add].
      replace (a + 1 + (b - a - 1)) with b by lia. replace (b + 1) with (S b) by lia. replace (a + 1) with (S a) by lia.
      cbn [seq filter existsb]. rewrite !Nat.eqb_refl, !orb_true_r. cbn [negb orb app].
      rewrite !filter_seq_all; auto; intros i Hi; cbn [existsb];
        replace (i =? a) with false by (symmetry; apply Nat.eqb_neq; lia);
        replace (i =? b) with false by (symmetry; apply Nat.eqb_neq; lia); auto. }
    rewrite E. destruct (d <? a) eqn:E1.
    - rewrite app_nth1 by (rewrite seq_length; lia). rewrite seq_nth by lia. lia.
    - rewrite app_nth2 by (rewrite seq_length; lia). rewrite seq_length. destruct (S d <? b) eqn:E2.
      + rewrite app_nth1 by (rewrite seq_length; lia). rewrite seq_nth by lia. lia.
      + rewrite app_nth2 by (rewrite seq_length; lia). rewrite seq_length, seq_nth by lia. lia.
  Qed.

  Lemma others_sorted3 : forall n a b c, a < b -> b < c -> c < n -> forall d, d < n - 3 ->
    nth d (others n [a; b; c]) 0 = if d <? a then d else if S d <? b then S d else if S (S d) <? c then S (S d) else S (S (S d)).
  Proof.
    intros n a b c Hab Hbc Hc d Hd.
    assert (E : others n [a; b; c] = seq 0 a ++ seq (S a) (b - a - 1) ++ seq (S b) (c - b - 1) ++ seq (S c) (n - c - 1)).
    { unfold others. replace n with (a + (1 + ((b - a - 1) + (1 + ((c - b - 1) + (1 + (n - c - 1))))))) at 1 by lia.
      rewrite !seq_app, !filter_app. cbn [Nat.add].
      replace (a + 1 + (b - a - 1)) with b by lia. replace (b + 1 + (c - b - 1)) with c by lia.
      replace (c + 1) with (S c) by lia. replace (b + 1) with (S b) by lia. replace (a + 1) with (S a) by lia.
      cbn [seq filter existsb]. rewrite !Nat.eqb_refl, !orb_true_r. cbn [negb orb app].
      rewrite !filter_seq_all; auto; intros i Hi; cbn [existsb];
        replace (i =? a) with false by (symmetry; apply Nat.eqb_neq; lia);
        replace (i =? b) with false by (symmetry; apply Nat.eqb_neq; lia);
        replace (i =? c) with false by (symmetry; apply Nat.eqb_neq; lia); auto. }
    rewrite E. destruct (d <? a) eqn:E1.
    - rewrite app_nth1 by (rewrite seq_length; lia). rewrite seq_nth by lia. lia.
    - rewrite app_nth2 by (rewrite seq_length; lia). rewrite seq_length. destruct (S d <? b) eqn:E2.
      + rewrite app_nth1 by (rewrite seq_length; lia). rewrite seq_nth by lia. lia.
      + rewrite app_nth2 by (rewrite seq_length; lia). rewrite seq_length. destruct (S (S d) <? c) eqn:E3.
        * rewrite app_nth1 by (rewrite seq_length; lia). rewrite seq_nth by lia. lia.
        * rewrite app_nth2 by (rewrite seq_length; lia). rewrite seq_length, seq_nth by lia. lia.
  Qed.

  Lemma others_ext : forall n ws ws', (forall i, In i ws <-> In i ws') -> others n ws = others n ws'.
  Proof.
    intros n ws ws' H. unfold others. apply filter_ext. intros i. f_equal. apply eq_true_iff_eq.
    rewrite !existsb_eqb_In. apply H.
  Qed.

  Lemma others_length : forall n ws, good_wires n ws -> length (others n ws) = n - length ws.
  Proof.
    intros n ws H. pose proof (Permutation_length (others_perm n ws H)) as L.
    rewrite seq_length, app_length in L. lia.
  Qed.

  (** the permutation built by successive insertions is the inverse of (others ++ wires) *)
  Lemma inv2 : forall n a b va vb ws, a < b -> b < n -> (forall i, In i ws <-> In i [a; b]) -> good_wires n ws -> length ws = 2 ->
    nth (va - (n - 2)) ws 0 = a -> nth (vb - (n - 2)) ws 0 = b -> n - 2 <= va < n -> n - 2 <= vb < n -> va <> vb ->
    inv_of n (ins b vb (ins a va (seq 0 (n - 2)))) (others n ws ++ ws).
  Proof.
    intros n a b va vb ws Hab Hb Hws Hg Lw Hva Hvb Bva Bvb Hne.
    assert (L1 : length (ins a va (seq 0 (n - 2))) = n - 1) by (rewrite ins_length; rewrite seq_length; lia).
    split. { rewrite ins_length; lia. }
    intros d Hd. assert (Lo : length (others n ws) = n - 2) by (rewrite others_length; auto; lia).
    assert (Q : forall i, i < n -> nth i (ins b vb (ins a va (seq 0 (n - 2)))) 0 =
       if i <? b then (if i <? a then i else if i =? a then va else i - 1) else if i =? b then vb else i - 2).
    { intros i Hi. rewrite nth_ins by lia. destruct (i <? b) eqn:E1.
      - rewrite nth_ins by (rewrite seq_length; lia). destruct (i <? a) eqn:E2. { rewrite seq_nth; lia. }
        destruct (i =? a) eqn:E3; auto. rewrite seq_nth; lia.
      - destruct (i =? b) eqn:E2; auto. rewrite nth_ins by (rewrite seq_length; lia).
        destruct (i - 1 <? a) eqn:E3; [lia|]. destruct (i - 1 =? a) eqn:E4; [lia|]. rewrite seq_nth; lia. }
    destruct (lt_dec d (n - 2)) as [Hlt|Hge].
    - rewrite app_nth1 by lia. rewrite (others_ext n ws [a; b]) by auto. rewrite others_sorted2 by auto.
      rewrite Q by (destruct (d <? a); [lia|]; destruct (S d <? b); lia).
      ifs; lia.
    - rewrite app_nth2 by lia. rewrite Lo.
      assert (D : d = va \/ d = vb) by lia. destruct D as [-> | ->].
      + rewrite Hva, Q by lia. ifs; lia.
      + rewrite Hvb, Q by lia. ifs; lia.
  Qed.

  Lemma inv3 : forall n a b c va vb vc ws, a < b -> b < c -> c < n -> (forall i, In i ws <-> In i [a; b; c]) -> good_wires n ws -> length ws = 3 ->
    nth (va - (n - 3)) ws 0 = a -> nth (vb - (n - 3)) ws 0 = b -> nth (vc - (n - 3)) ws 0 = c ->
    n - 3 <= va < n -> n - 3 <= vb < n -> n - 3 <= vc < n -> va <> vb -> va <> vc -> vb <> vc ->
    inv_of n (ins c vc (ins b vb (ins a va (seq 0 (n - 3))))) (others n ws ++ ws).
  Proof.
    intros n a b c va vb vc ws Hab Hbc Hc Hws Hg Lw Hva Hvb Hvc Bva Bvb Bvc N1 N2 N3.
    assert (L1 : length (ins a va (seq 0 (n - 3))) = n - 2) by (rewrite ins_length; rewrite seq_length; lia).
    assert (L2 : length (ins b vb (ins a va (seq 0 (n - 3)))) = n - 1) by (rewrite ins_length; lia).
    split. { rewrite ins_length; lia. }
    intros d Hd. assert (Lo : length (others n ws) = n - 3) by (rewrite others_length; auto; lia).
    assert (Q : forall i, i < n -> nth i (ins c vc (ins b vb (ins a va (seq 0 (n - 3))))) 0 =
       if i <? c then (if i <? b then (if i <? a then i else if i =? a then va else i - 1) else if i =? b then vb else i - 2)
       else if i =? c then vc else i - 3).
    { assert (Q2 : forall i, i < n - 1 -> nth i (ins b vb (ins a va (seq 0 (n - 3)))) 0 =
       if i <? b then (if i <? a then i else if i =? a then va else i - 1) else if i =? b then vb else i - 2).
      { intros i Hi. rewrite nth_ins by lia. destruct (i <? b) eqn:E1.
        - rewrite nth_ins by (rewrite seq_length; lia). destruct (i <? a) eqn:E2. { rewrite seq_nth; lia. }
          destruct (i =? a) eqn:E3; auto. rewrite seq_nth; lia.
        - destruct (i =? b) eqn:E2; auto. rewrite nth_ins by (rewrite seq_length; lia).
          destruct (i - 1 <? a) eqn:E3; [lia|]. destruct (i - 1 =? a) eqn:E4; [lia|]. rewrite seq_nth; lia. }
      intros i Hi. rewrite nth_ins by lia. destruct (i <? c) eqn:E1. { apply Q2. lia. }
      destruct (i =? c) eqn:E2; auto. rewrite Q2 by lia.
      ifs; lia. }
    destruct (lt_dec d (n - 3)) as [Hlt|Hge].
    - rewrite app_nth1 by lia. rewrite (others_ext n ws [a; b; c]) by auto. rewrite others_sorted3 by auto.
      rewrite Q by (ifs; lia).
      ifs; lia.
    - rewrite app_nth2 by lia. rewrite Lo.
      assert (D : d = va \/ d = vb \/ d = vc) by lia. destruct D as [-> | [-> | ->]].
      + rewrite Hva, Q by lia. ifs; lia.
      + rewrite Hvb, Q by lia. ifs; lia.
      + rewrite Hvc, Q by lia. ifs; lia.
  Qed.

  (** ** two-qubit *)
  Lemma contract2_ok : forall s c t A f vs, c < length s -> t < length s -> c <> t -> nth c s 0 = 2 -> nth t s 0 = 2 ->
    (forall T, shape T = rd s (others (length s) [c; t]) ++ [4; 1] ->
       vs T = map Z.of_nat (rd s (others (length s) [c; t]) ++ [2; 2])) ->
    contract2_at (op_tensor 2 A) (Z.of_nat (length s)) (Z.of_nat c) (Z.of_nat t) vs (tbuild s f) =
    Ok (tbuild s (apply_on A [c; t] f)).
  Proof.
    intros s c t A f vs Hc Ht Hne Hc2 Ht2 Hvs. unfold contract2_at. rewrite zrange_seq.
    remember (length s) as n eqn:En. symmetry in En.
    assert (Hg : good_wires n [c; t]) by (now apply good_wires_2).
    rewrite py_remove_nat by (try apply seq_NoDup; apply in_seq; lia). cbn [bind].
    rewrite py_remove_nat.
    2:{ apply NoDup_filter, seq_NoDup. }
    2:{ apply filter_In. split; [apply in_seq; lia|]. apply negb_true_iff, Nat.eqb_neq; auto. }
    cbn [bind]. rewrite filter_filter.
    replace (filter (fun x => negb (x =? c) && negb (x =? t)) (seq 0 n)) with (others n [c; t]).
    2:{ unfold others. apply filter_ext. intros i. cbn [existsb]. destruct (i =? c), (i =? t); auto. }
    change [Z.of_nat c; Z.of_nat t] with (map Z.of_nat [c; t]). rewrite <- map_app.
    pose proof (Permutation_sym (others_perm n [c; t] Hg)) as Hp.
    assert (H2 : forall w, In w [c; t] -> nth w s 0 = 2) by (intros w [<-|[<-|[]]]; auto).
    rewrite (core_fwd n s _ [c; t] f En Hp H2). cbn [bind length repeat]. rewrite tbuild_shape.
    rewrite map_app. cbn [map].
    set (l := map Z.of_nat (rd s (others n [c; t]))).
    rewrite (proj1 (end2 _ l (Z.of_nat 2) (Z.of_nat 2) 0%Z)). cbn [bind].
    rewrite (proj1 (proj2 (end2 _ l (Z.of_nat 2) (Z.of_nat 2) 0%Z))). cbn [bind].
    rewrite (proj1 (proj2 (proj2 (end2 _ l (Z.of_nat 2) (Z.of_nat 2) _)))). cbn [bind].
    rewrite (proj2 (proj2 (proj2 (end2 _ l _ (Z.of_nat 2) 1%Z)))). cbn [bind]. subst l.
    change (Z.of_nat 2 * Z.of_nat 2)%Z with (Z.of_nat 4).
    replace (map Z.of_nat (rd s (others n [c; t])) ++ [Z.of_nat 4; 1%Z]) with (map Z.of_nat (rd s (others n [c; t]) ++ [4; 1]))
      by (now rewrite map_app).
    rewrite view_nat by (rewrite tbuild_shape, !prodn_app; reflexivity). cbn [bind].
    pose proof (core_mat s (others n [c; t]) [c; t] A f) as HM. cbn [length repeat] in HM. change (2 ^ 2) with 4 in HM.
    rewrite HM. cbn [bind]. clear HM.
    rewrite Hvs by reflexivity.
    rewrite view_nat by (cbn [shape]; rewrite !prodn_app; reflexivity). cbn [bind data].
    destruct n as [|[|n]]; [lia|lia|]. rewrite pop_last_seq. cbn [bind]. rewrite pop_last_seq. cbn [bind].
    replace (Z.of_nat (S (S n)) - 2)%Z with (Z.of_nat n) by lia.
    replace (Z.of_nat (S (S n)) - 1)%Z with (Z.of_nat (S n)) by lia.
    match goal with |- permute _ ?q = _ => assert (E : exists q', q = map Z.of_nat q' /\ inv_of (S (S n)) q' (others (S (S n)) [c; t] ++ [c; t])) end.
    { destruct (Z.of_nat c <? Z.of_nat t)%Z eqn:E.
      - exists (ins t (S n) (ins c n (seq 0 n))). split.
        + rewrite !py_insert_nat by (rewrite ?ins_length; rewrite ?seq_length; lia). reflexivity.
        + pose proof (inv2 (S (S n)) c t n (S n) [c; t]) as H. replace (S (S n) - 2) with n in H by lia. apply H; auto; try lia; try tauto.
          * now rewrite Nat.sub_diag.
          * replace (S n - n) with 1 by lia. reflexivity.
      - exists (ins c n (ins t (S n) (seq 0 n))). split.
        + rewrite !py_insert_nat by (rewrite ?ins_length; rewrite ?seq_length; lia). reflexivity.
        + pose proof (inv2 (S (S n)) t c (S n) n [c; t]) as H. replace (S (S n) - 2) with n in H by lia. apply H; auto; try lia; try tauto.
          * intros i. cbn [In]. tauto.
          * replace (S n - n) with 1 by lia. reflexivity.
          * now rewrite Nat.sub_diag. }
    destruct E as [q' [-> Hi]].
    pose proof (core_bwd _ s _ [c; t] _ A f En Hp H2 Hi) as HB. cbn [length repeat] in HB. exact HB.
  Qed.

  Lemma swap_contract_ok : forall s c t f, c < length s -> t < length s -> c <> t -> nth c s 0 = 2 -> nth t s 0 = 2 ->
    swap_contract_at (Z.of_nat (length s)) (Z.of_nat c) (Z.of_nat t) (tbuild s f) =
    Ok (tbuild s (fun idx => f (swapped c t idx))).
  Proof.
    intros s c t f Hc Ht Hne Hc2 Ht2. unfold swap_contract_at. rewrite zrange_seq.
    rewrite py_set_nat by (rewrite map_length, seq_length; auto). cbn [bind].
    rewrite py_set_nat by (rewrite set_nth_length, map_length, seq_length; auto). cbn [bind].
    rewrite <- !map_set_nth. set (n := length s) in *. set (p := set_nth t c (set_nth c t (seq 0 n))).
    assert (Lp : length p = n) by (subst p; now rewrite !set_nth_length, seq_length).
    assert (N : forall d, d < n -> nth d p 0 = if d =? t then c else if d =? c then t else d).
    { intros d Hd. subst p. rewrite !nth_set_nth by (rewrite ?set_nth_length, seq_length; auto). now rewrite seq_nth. }
    assert (I : Permutation p (seq 0 n) /\ inv_of n p p).
    { apply invol_inv; auto.
      - intros d Hd. rewrite (N d Hd). destruct (d =? t) eqn:E1; [|destruct (d =? c) eqn:E2]; rewrite N by auto;
          ifs; lia.
      - intros d Hd. rewrite N by auto. ifs; lia. }
    destruct I as [Hp Hi]. rewrite permute_tbuild by auto. f_equal.
    replace (map (fun d => nth d s 0) p) with s.
    2:{ apply nth_ext with (d := 0) (d' := 0). { now rewrite map_length. }
        intros d Hd. rewrite (nth_map' _ _ _ p d 0 0) by lia. rewrite N by auto.
        destruct (d =? t) eqn:E1; [|destruct (d =? c) eqn:E2]; auto.
        - apply Nat.eqb_eq in E1. subst. congruence.
        - apply Nat.eqb_eq in E2. subst. congruence. }
    apply tbuild_ext. intros idx Hv. f_equal. rewrite (inv_unperm n p p) by auto.
    apply valid_length in Hv. fold n in Hv.
    apply nth_ext with (d := 0) (d' := 0). { rewrite rd_length, swapped_length; lia. }
    intros d Hd. rewrite rd_length in Hd. unfold rd. rewrite (nth_map' _ _ _ p d 0 0) by auto.
    rewrite N, nth_swapped by lia.
    destruct (d =? t) eqn:E1; [|destruct (d =? c) eqn:E2]; auto.
  Qed.

  Lemma contract3_ok : forall s c1 c2 t A f vs, c1 < length s -> c2 < length s -> t < length s -> c1 <> c2 -> c1 <> t -> c2 <> t ->
    nth c1 s 0 = 2 -> nth c2 s 0 = 2 -> nth t s 0 = 2 ->
    (forall T, shape T = rd s (others (length s) [c1; c2; t]) ++ [8; 1; 1] ->
       vs T = map Z.of_nat (rd s (others (length s) [c1; c2; t]) ++ [2; 2; 2])) ->
    contract3_at (op_tensor 3 A) (Z.of_nat (length s)) (Z.of_nat c1) (Z.of_nat c2) (Z.of_nat t) vs (tbuild s f) =
    Ok (tbuild s (apply_on A [c1; c2; t] f)).
  Proof.
    intros s c1 c2 t A f vs Hc1 Hc2 Ht N12 N1t N2t D1 D2 Dt Hvs. unfold contract3_at. rewrite zrange_seq.
    remember (length s) as n eqn:En. symmetry in En.
    assert (Hg : good_wires n [c1; c2; t]) by (now apply good_wires_3).
    rewrite py_remove_nat by (try apply seq_NoDup; apply in_seq; lia). cbn [bind].
    rewrite py_remove_nat.
    2:{ apply NoDup_filter, seq_NoDup. }
    2:{ apply filter_In. split; [apply in_seq; lia|]. apply negb_true_iff, Nat.eqb_neq; auto. }
    cbn [bind]. rewrite filter_filter. rewrite py_remove_nat.
    2:{ apply NoDup_filter, seq_NoDup. }
    2:{ apply filter_In. split; [apply in_seq; lia|]. apply andb_true_iff; split; apply negb_true_iff, Nat.eqb_neq; auto. }
    cbn [bind]. rewrite filter_filter.
    replace (filter (fun x => negb (x =? c1) && negb (x =? c2) && negb (x =? t)) (seq 0 n)) with (others n [c1; c2; t]).
    2:{ unfold others. apply filter_ext. intros i. cbn [existsb]. destruct (i =? c1), (i =? c2), (i =? t); auto. }
    change [Z.of_nat c1; Z.of_nat c2; Z.of_nat t] with (map Z.of_nat [c1; c2; t]). rewrite <- map_app.
    pose proof (Permutation_sym (others_perm n [c1; c2; t] Hg)) as Hp.
    assert (H2 : forall w, In w [c1; c2; t] -> nth w s 0 = 2) by (intros w [<-|[<-|[<-|[]]]]; auto).
    rewrite (core_fwd n s _ [c1; c2; t] f En Hp H2). cbn [bind length repeat]. rewrite tbuild_shape.
    set (R := rd s (others n [c1; c2; t])) in *.
    rewrite map_app. cbn [map]. set (l := map Z.of_nat R).
    destruct (end3 _ l (Z.of_nat 2) (Z.of_nat 2) (Z.of_nat 2) 0%Z) as [X1 [X2 [X3 _]]]. rewrite X1, X2, X3. cbn [bind].
    destruct (end3 _ l (Z.of_nat 2) (Z.of_nat 2) (Z.of_nat 2) (Z.of_nat 2 * Z.of_nat 2 * Z.of_nat 2)%Z) as [_ [_ [_ [X4 _]]]]. rewrite X4. cbn [bind].
    destruct (end3 _ l (Z.of_nat 2 * Z.of_nat 2 * Z.of_nat 2)%Z (Z.of_nat 2) (Z.of_nat 2) 1%Z) as [_ [_ [_ [_ [X5 _]]]]]. rewrite X5. cbn [bind].
    destruct (end3 _ l (Z.of_nat 2 * Z.of_nat 2 * Z.of_nat 2)%Z 1%Z (Z.of_nat 2) 1%Z) as [_ [_ [_ [_ [_ X6]]]]]. rewrite X6. cbn [bind].
    subst l.
    replace (map Z.of_nat R ++ [(Z.of_nat 2 * Z.of_nat 2 * Z.of_nat 2)%Z; 1%Z; 1%Z]) with (map Z.of_nat (R ++ [8; 1; 1]))
      by (now rewrite map_app).
    rewrite view_nat by (rewrite tbuild_shape, !prodn_app; reflexivity). cbn [bind].
    unfold squeeze_dim, rank. cbn [shape data].
    assert (Lx : length (R ++ [8; 1; 1]) = S (S (S (length R)))) by (rewrite app_length; simpl; lia).
    rewrite Lx, dim_index_last. cbn [bind].
    replace (nth (S (S (length R))) (R ++ [8; 1; 1]) 0) with 1.
    2:{ rewrite app_nth2 by lia. replace (S (S (length R)) - length R) with 2 by lia. reflexivity. }
    cbn [Nat.eqb].
    replace (firstn (S (S (length R))) (R ++ [8; 1; 1]) ++ skipn (S (S (S (length R)))) (R ++ [8; 1; 1])) with (R ++ [8; 1]).
    2:{ rewrite firstn_app. replace (S (S (length R)) - length R) with 2 by lia. rewrite (skipn_all2 (n := S (S (S (length R))))) by lia.
        rewrite firstn_all2 by lia. cbn [firstn]. now rewrite app_nil_r. }
    cbn [bind].
    pose proof (core_mat s (others n [c1; c2; t]) [c1; c2; t] A f) as HM. cbn [length repeat] in HM. change (2 ^ 3) with 8 in HM.
    fold R in HM. rewrite HM. cbn [bind]. clear HM.
    rewrite Hvs by reflexivity.
    rewrite view_nat by (cbn [shape]; rewrite !prodn_app; reflexivity). cbn [bind data].
    destruct n as [|[|[|n]]]; [lia|lia|lia|]. rewrite !pop_last_seq. cbn [bind]. rewrite !pop_last_seq. cbn [bind]. rewrite pop_last_seq. cbn [bind].
    replace (Z.of_nat (S (S (S n))) - 3)%Z with (Z.of_nat n) by lia.
    replace (Z.of_nat (S (S (S n))) - 2)%Z with (Z.of_nat (S n)) by lia.
    replace (Z.of_nat (S (S (S n))) - 1)%Z with (Z.of_nat (S (S n))) by lia.
    match goal with |- permute _ ?q = _ => assert (E : exists q', q = map Z.of_nat q' /\ inv_of (S (S (S n))) q' (others (S (S (S n))) [c1; c2; t] ++ [c1; c2; t])) end.
    { assert (G : forall a b c va vb vc, a < b -> b < c -> c < S (S (S n)) -> (forall i, In i [c1; c2; t] <-> In i [a; b; c]) ->
         nth (va - n) [c1; c2; t] 0 = a -> nth (vb - n) [c1; c2; t] 0 = b -> nth (vc - n) [c1; c2; t] 0 = c ->
         n <= va < S (S (S n)) -> n <= vb < S (S (S n)) -> n <= vc < S (S (S n)) -> va <> vb -> va <> vc -> vb <> vc ->
         exists q', py_insert (py_insert (py_insert (map Z.of_nat (seq 0 n)) (Z.of_nat a) (Z.of_nat va)) (Z.of_nat b) (Z.of_nat vb)) (Z.of_nat c) (Z.of_nat vc) = map Z.of_nat q'
           /\ inv_of (S (S (S n))) q' (others (S (S (S n))) [c1; c2; t] ++ [c1; c2; t])).
      { intros a b c va vb vc Hab Hbc Hc Hi E1 E2 E3 B1 B2 B3 Y1 Y2 Y3.
        exists (ins c vc (ins b vb (ins a va (seq 0 n)))). split.
        - assert (L1 : length (ins a va (seq 0 n)) = S n) by (rewrite ins_length; rewrite seq_length; lia).
          assert (L2 : length (ins b vb (ins a va (seq 0 n))) = S (S n)) by (rewrite ins_length; lia).
          rewrite !py_insert_nat by (rewrite ?seq_length; lia). reflexivity.
        - pose proof (inv3 (S (S (S n))) a b c va vb vc [c1; c2; t]) as H. replace (S (S (S n)) - 3) with n in H by lia.
          apply H; auto. }
      assert (M0 : n - n = 0) by lia. assert (M1 : S n - n = 1) by lia. assert (M2 : S (S n) - n = 2) by lia.
      destruct (lt_eq_lt_dec c1 c2) as [[O12|?]|O12]; [|lia|];
      destruct (lt_eq_lt_dec c1 t) as [[O1t|?]|O1t]; try lia;
      destruct (lt_eq_lt_dec c2 t) as [[O2t|?]|O2t]; try lia;
      repeat match goal with |- context [(Z.of_nat ?a <? Z.of_nat ?b)%Z] =>
        first [replace (Z.of_nat a <? Z.of_nat b)%Z with true by lia | replace (Z.of_nat a <? Z.of_nat b)%Z with false by lia] end;
      cbn [andb]; apply G; rewrite ?M0, ?M1, ?M2; auto; try lia; intros i; cbn [In]; tauto. }
    destruct E as [q' [-> Hi]].
    pose proof (core_bwd _ s _ [c1; c2; t] _ A f En Hp H2 Hi) as HB. cbn [length repeat] in HB. exact HB.
  Qed.
End ContractFacts.
