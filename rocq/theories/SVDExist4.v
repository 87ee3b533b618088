(** Lemmas: every complex matrix has a singular value decomposition. *)
From Coq Require Import List ZArith QArith Reals Lra Lia ZifyBool Arith Ring Classical.
From Verif Require Import Scalar CInst BigSum MeasSpec MeasFacts SVDExist1 SVDExist2 SVDExist3.
Import ListNotations.

Section Rank1.
  Context {SC : Scalar}.
  Add Ring KR : k_ring.
  Local Open Scope k_scope.
  Definition minus1 (A : nat -> nat -> K) (s : K) (u v : nat -> K) : nat -> nat -> K := fun i j => A i j - s * u i * kconj (v j).
  Lemma mv_minus1 : forall n A s u v w i, mv n (minus1 A s u v) w i = mv n A w i - s * u i * ip n v w.
  Proof.
    intros. unfold mv, minus1, ip. rewrite <- bigsum_mul_l, <- bigsum_sub. apply bigsum_ext. intros. ring.
  Qed.
  Lemma ip_minus1 : forall m A s u v w j, ip m w (fun i => minus1 A s u v i j) = ip m w (fun i => A i j) - s * kconj (v j) * ip m w u.
  Proof.
    intros. unfold minus1, ip. rewrite <- bigsum_mul_l, <- bigsum_sub. apply bigsum_ext. intros. ring.
  Qed.
  Lemma ip_mv : forall m n A w x, ip m w (mv n A x) = bigsum (seq 0 n) (fun j => x j * ip m w (fun i => A i j)).
  Proof.
    intros. unfold mv. rewrite (ip_sum_r m w _ (seq 0 n) (fun j i => A i j * x j)). apply bigsum_ext. intros j _.
    rewrite <- ip_scale_r. apply ip_ext; auto. intros. ring.
  Qed.
  Lemma ip_mv_0 : forall m n A w x, (forall j, (j < n)%nat -> ip m w (fun i => A i j) = 0) -> ip m w (mv n A x) = 0.
  Proof. intros m n A w x H. rewrite ip_mv. apply bigsum_zero. intros j Hj. apply in_seq in Hj. rewrite H by lia. ring. Qed.
End Rank1.

Record trip := mkP { ts : R; tu : nat -> C; tv : nat -> C }.
Definition lowrank (L : list trip) (i j : nat) : C := bigsum (SC := C_scalar) L (fun t => Cmul (Cmul (RtoC (ts t)) (tu t i)) (Cconj (tv t j))).
Definition big (t : trip) : bool := Cabsgt (RtoC (ts t)) (1 # 100000000).
Definition d0 : trip := mkP 0 (fun _ => RtoC 0) (fun _ => RtoC 0).

Record inv (m n : nat) (A : nat -> nat -> C) (L : list trip) (A' : nat -> nat -> C) : Prop := {
  i_u : onC m (map tu L);
  i_v : onC n (map tv L);
  i_eq : forall i j, (i < m)%nat -> (j < n)%nat -> A i j = Cadd (lowrank L i j) (A' i j);
  i_mv : forall t, In t L -> forall i, (i < m)%nat -> mvC n A' (tv t) i = RtoC 0;
  i_ip : forall t, In t L -> forall j, (j < n)%nat -> ipC m (tu t) (fun i => A' i j) = RtoC 0;
  i_pos : forall t, In t L -> (0 <= ts t)%R;
  i_big : exists D, (D <= length L)%nat /\ forall l, (l < length L)%nat -> big (nth l L d0) = (l <? D)%nat
}.

(** a new triple goes first if its value is large, last otherwise *)
Definition push (t : trip) (L : list trip) : list trip := if big t then t :: L else L ++ [t].
Lemma in_push : forall t L x, In x (push t L) -> x = t \/ In x L.
Proof.
  intros t L x. unfold push. destruct (big t); intros H; [destruct H; auto|]. apply in_app_or in H. destruct H as [H|[H|[]]]; auto.
Qed.
Lemma length_push : forall t L, length (push t L) = S (length L).
Proof. intros t L. unfold push. destruct (big t); [reflexivity|]. rewrite app_length. cbn. lia. Qed.
Lemma lowrank_push : forall t L i j, lowrank (push t L) i j = Cadd (Cmul (Cmul (RtoC (ts t)) (tu t i)) (Cconj (tv t j))) (lowrank L i j).
Proof.
  intros t L i j. unfold push, lowrank. destruct (big t); [reflexivity|].
  etransitivity; [apply (bigsum_app (SC := C_scalar))|]. rewrite (bigsum_cons (SC := C_scalar)), (bigsum_nil (SC := C_scalar)).
  set (a := bigsum _ _). set (b := Cmul _ _). clearbody a b. cbn in *. apply C_eq; cbn; ring.
Qed.
Lemma big_push : forall t L, (exists D, (D <= length L)%nat /\ forall l, (l < length L)%nat -> big (nth l L d0) = (l <? D)%nat) ->
  exists D, (D <= length (push t L))%nat /\ forall l, (l < length (push t L))%nat -> big (nth l (push t L) d0) = (l <? D)%nat.
Proof.
  intros t L (D & HD & H). rewrite length_push. unfold push. destruct (big t) eqn:Eb.
  - exists (S D). split; [lia|]. intros [|l] Hl; cbn [nth]; [rewrite Eb; reflexivity|]. rewrite H by lia. apply Bool.eq_iff_eq_true. rewrite !Nat.ltb_lt. lia.
  - exists D. split; [lia|]. intros l Hl. destruct (Nat.eq_dec l (length L)) as [->|Ne].
    + rewrite app_nth2, Nat.sub_diag by lia. cbn [nth]. rewrite Eb. symmetry. apply Nat.ltb_ge. lia.
    + rewrite app_nth1 by lia. apply H. lia.
Qed.
Lemma on_push : forall n (f : trip -> nat -> C) t L, onC n (map f L) -> ipC n (f t) (f t) = RtoC 1 -> (forall x, In x L -> ipC n (f t) (f x) = RtoC 0) -> onC n (map f (push t L)).
Proof.
  intros n f t L H H1 H2. assert (P : forall w, In w (map f L) -> ipC n (f t) w = RtoC 0) by (intros w Hw; apply in_map_iff in Hw; destruct Hw as (x & <- & Hx); auto).
  unfold push. destruct (big t); [cbn [map on]; auto|]. rewrite map_app. cbn [map]. now apply (on_end (SC := C_scalar)).
Qed.

Lemma inv_push : forall m n A L A' t, inv m n A L A' ->
  (0 <= ts t)%R ->
  ipC m (tu t) (tu t) = RtoC 1 -> ipC n (tv t) (tv t) = RtoC 1 ->
  (forall x, In x L -> ipC m (tu t) (tu x) = RtoC 0) -> (forall x, In x L -> ipC n (tv t) (tv x) = RtoC 0) ->
  (forall i, (i < m)%nat -> mvC n A' (tv t) i = Cmul (RtoC (ts t)) (tu t i)) ->
  (forall j, (j < n)%nat -> ipC m (tu t) (fun i => A' i j) = Cmul (RtoC (ts t)) (Cconj (tv t j))) ->
  inv m n A (push t L) (minus1 (SC := C_scalar) A' (RtoC (ts t)) (tu t) (tv t)).
Proof.
  intros m n A L A' t H P U V Pu Pv Mv Ip. constructor.
  - apply on_push; auto. apply (i_u _ _ _ _ _ H).
  - apply on_push; auto. apply (i_v _ _ _ _ _ H).
  - intros i j Hi Hj. rewrite (i_eq _ _ _ _ _ H i j Hi Hj), lowrank_push. unfold minus1. cbn. apply C_eq; cbn; ring.
  - intros x Hx i Hi. etransitivity; [apply (mv_minus1 (SC := C_scalar))|]. apply in_push in Hx. destruct Hx as [->|Hx].
    + rewrite Mv by auto. rewrite V. cbn. apply C_eq; cbn; ring.
    + rewrite (i_mv _ _ _ _ _ H x Hx i Hi), (Pv x Hx). cbn. apply C_eq; cbn; ring.
  - intros x Hx j Hj. etransitivity; [apply (ip_minus1 (SC := C_scalar))|]. apply in_push in Hx. destruct Hx as [->|Hx].
    + rewrite Ip by auto. rewrite U. cbn. apply C_eq; cbn; ring.
    + rewrite (i_ip _ _ _ _ _ H x Hx j Hj), (ip_0_sym (SC := C_scalar) _ _ _ (Pu x Hx)). cbn. apply C_eq; cbn; ring.
  - intros x Hx. apply in_push in Hx. destruct Hx as [->|Hx]; [exact P|]. exact (i_pos _ _ _ _ _ H x Hx).
  - apply big_push. apply (i_big _ _ _ _ _ H).
Qed.

Local Open Scope R_scope.
Lemma Cmul_0_inv : forall a z, 0 < a -> Cmul (RtoC a) z = RtoC 0 -> z = RtoC 0.
Proof. intros a [p q] H E. injection E as E1 E2. apply C_eq; cbn in *; nra. Qed.

Lemma ipC_scale_l : forall n c f g, ipC n (fun i => Cmul (RtoC c) (f i)) g = Cmul (RtoC c) (ipC n f g).
Proof.
  intros n c f g. etransitivity; [exact (ip_scale_l (SC := C_scalar) n g (RtoC c) f)|]. set (z := ipC n f g). clearbody z. cbn in *. apply C_eq; cbn; ring.
Qed.
Lemma ipC_scale_r : forall n c f g, ipC n f (fun i => Cmul (RtoC c) (g i)) = Cmul (RtoC c) (ipC n f g).
Proof. intros n c f g. exact (ip_scale_r (SC := C_scalar) n f (RtoC c) g). Qed.

(** one step of the deflation *)
Lemma inv_step : forall m n A L A', inv m n A L A' -> ~ (forall i j, (i < m)%nat -> (j < n)%nat -> A' i j = RtoC 0) ->
  exists t A'', inv m n A (push t L) A''.
Proof.
  intros m n A L A' H N. destruct (eigen m n A' N) as (x & Px & Ex). destruct (normalise _ _ Px) as (c & Hc & Ec).
  set (s := nrm n x) in *. 
  set (v := fun i => Cmul (RtoC c) (x i)). set (u := fun i => Cmul (RtoC c) (mvC n A' v i)).
  assert (Mvv : forall i, mvC n A' v i = Cmul (RtoC c) (mvC n A' x i)) by (intros i; exact (mv_scale (SC := C_scalar) n A' (RtoC c) x i)).
  assert (E1 : forall h, ipC m (mvC n A' v) (mvC n A' h) = Cmul (RtoC s) (ipC n v h)).
  { intros h. rewrite (ip_ext (SC := C_scalar) m (mvC n A' v) (fun i => Cmul (RtoC c) (mvC n A' x i)) _ (mvC n A' h)) by auto.
    rewrite ipC_scale_l, Ex. unfold v. rewrite ipC_scale_l.
    cbn. apply C_eq; cbn; ring. }
  assert (V : ipC n v v = RtoC 1) by (unfold v; rewrite ip_scale_self; fold s; now rewrite Ec).
  assert (U : ipC m u u = RtoC 1).
  { unfold u. rewrite ip_scale_self. rewrite <- Ec. f_equal. f_equal. pose proof (E1 v) as E. rewrite V, nrm_ip in E. injection E as E _. rewrite E. ring. }
  assert (Uh : forall h, ipC m u (mvC n A' h) = Cmul (RtoC (c * s)) (ipC n v h)).
  { intros h. unfold u. rewrite ipC_scale_l, E1. cbn. apply C_eq; cbn; ring. }
  exists (mkP (c * s) u v). eexists. apply (inv_push m n A L A' (mkP (c * s) u v)); cbn [ts tu tv]; auto.
  - left. now apply Rmult_lt_0_compat.
  - intros y Hy. apply (ip_0_sym (SC := C_scalar)). unfold u. rewrite ipC_scale_r.
    rewrite (ip_mv_0 (SC := C_scalar)) by (intros j Hj; exact (i_ip _ _ _ _ _ H y Hy j Hj)). cbn. apply C_eq; cbn; ring.
  - intros y Hy. apply (Cmul_0_inv s); [exact Px|]. rewrite <- E1. apply (ip_0_r (SC := C_scalar)). intros i Hi. exact (i_mv _ _ _ _ _ H y Hy i Hi).
  - intros i Hi. unfold u. replace (Cmul (RtoC (c * s)) (Cmul (RtoC c) (mvC n A' v i))) with (Cmul (RtoC (c * c * s)) (mvC n A' v i)) by (apply C_eq; cbn; ring).
    rewrite Ec. apply C_eq; cbn; ring.
  - intros j Hj. pose proof (Uh (eC j)) as E. rewrite (ip_e_r (SC := C_scalar) n v j Hj) in E. cbn in E. etransitivity; [|exact E].
    apply (ip_ext (SC := C_scalar)); [reflexivity|]. intros i _. symmetry. exact (mv_e (SC := C_scalar) n A' i j Hj).
Qed.

Lemma inv_start : forall m n A, inv m n A [] A.
Proof.
  intros m n A. constructor; cbn; auto; try (intros; contradiction).
  - intros i j _ _. apply C_eq; cbn; ring.
  - exists 0%nat. split; [lia|]. intros l Hl. lia.
Qed.
Lemma inv_end : forall m n A, exists L A', inv m n A L A' /\ forall i j, (i < m)%nat -> (j < n)%nat -> A' i j = RtoC 0.
Proof.
  intros m n A. assert (G : forall k L A', inv m n A L A' -> (n - length L <= k)%nat -> exists L A', inv m n A L A' /\ forall i j, (i < m)%nat -> (j < n)%nat -> A' i j = RtoC 0).
  { induction k as [|k IH]; intros L A' H Hk.
    - destruct (classic (forall i j, (i < m)%nat -> (j < n)%nat -> A' i j = RtoC 0)) as [Z|Z]; [now exists L, A'|].
      destruct (inv_step m n A L A' H Z) as (t & A'' & H'). pose proof (on_length n _ (i_v _ _ _ _ _ H')) as X. rewrite map_length, length_push in X. lia.
    - destruct (classic (forall i j, (i < m)%nat -> (j < n)%nat -> A' i j = RtoC 0)) as [Z|Z]; [now exists L, A'|].
      destruct (inv_step m n A L A' H Z) as (t & A'' & H'). apply (IH _ _ H'). rewrite length_push. lia. }
  apply (G n [] A (inv_start m n A)). cbn. lia.
Qed.
Lemma inv_fill : forall m n A, exists L A', inv m n A L A' /\ (forall i j, (i < m)%nat -> (j < n)%nat -> A' i j = RtoC 0) /\ length L = Nat.min m n.
Proof.
  intros m n A. destruct (inv_end m n A) as (L0 & A0 & H0 & Z0).
  assert (G : forall k L A', inv m n A L A' -> (forall i j, (i < m)%nat -> (j < n)%nat -> A' i j = RtoC 0) -> (Nat.min m n - length L = k)%nat ->
    exists L A', inv m n A L A' /\ (forall i j, (i < m)%nat -> (j < n)%nat -> A' i j = RtoC 0) /\ length L = Nat.min m n).
  { induction k as [|k IH]; intros L A' H Z Hk.
    - exists L, A'. split; [exact H|]. split; [exact Z|]. pose proof (on_length n _ (i_v _ _ _ _ _ H)) as X. pose proof (on_length m _ (i_u _ _ _ _ _ H)) as Y.
      rewrite map_length in X, Y. lia.
    - destruct (on_extend n (map tv L) (i_v _ _ _ _ _ H)) as (v & Hv & Pv); [rewrite map_length; lia|].
      destruct (on_extend m (map tu L) (i_u _ _ _ _ _ H)) as (u & Hu & Pu); [rewrite map_length; lia|].
      apply (IH (push (mkP 0 u v) L) (minus1 (SC := C_scalar) A' (RtoC 0) u v)).
      + apply (inv_push m n A L A' (mkP 0 u v)); cbn [ts tu tv]; auto.
        * lra.
        * intros x Hx. apply Pu. now apply in_map.
        * intros x Hx. apply Pv. now apply in_map.
        * intros i Hi. unfold mv. rewrite (bigsum_zero (SC := C_scalar)); [cbn; apply C_eq; cbn; ring|]. intros j Hj. apply in_seq in Hj. rewrite Z by lia. cbn. apply C_eq; cbn; ring.
        * intros j Hj. rewrite (ip_0_r (SC := C_scalar)); [cbn; apply C_eq; cbn; ring|]. intros i Hi. now apply Z.
      + intros i j Hi Hj. unfold minus1. rewrite Z by auto. cbn. apply C_eq; cbn; ring.
      + rewrite length_push. lia. }
  exact (G _ L0 A0 H0 Z0 eq_refl).
Qed.
