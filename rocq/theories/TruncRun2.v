(** Lemmas: a matrix product state whose left blocks are almost isometric keeps this property when a segment is replaced by a
    truncated one, and the state changes little. *)
From Coq Require Import List ZArith QArith Reals Lra Lia ZifyBool Bool Arith Qreals Permutation.
From Verif Require Import PyBase Scalar CInst BigSum Index Tensor TensorFacts Spec SpecFacts QMath QTN
  MPSSpec MPSFacts1 MPSFacts2 MPSFacts4 MeasSpec MeasFacts QuanvFacts TruncSpec TruncFacts1 TruncFacts2 SVDExist2 SVDExist3 TruncRun1.
Import ListNotations.
Local Close Scope Q_scope.
Local Open Scope R_scope.

Notation tensorC := (@tensor C_scalar).
Notation qopC := (@qop C_scalar).
Notation qstateC := (@qstate C_scalar).

Definition frame (a b : R) (l : list tensorC) (D : nat) : Prop :=
  forall v, a * a * nrm D v <= norm2 (length l) (Lv (SC := C_scalar) l D v) <= b * b * nrm D v.
Definition framed (a b : R) (l : list tensorC) : Prop :=
  forall l1 l2 D, l = l1 ++ l2 -> l2 <> [] -> chain (SC := C_scalar) 1 l1 D -> frame a b l1 D.
(** the squared norm of a right block with a vector on its right bond *)
Definition right (l : list tensorC) (D1 D : nat) (v : nat -> C) : R :=
  rsum (bits (length l)) (fun b => nrm D1 (fun i => rv (SC := C_scalar) l D v i b)).
Definition siso (t : tensorC) (Dl D : nat) : Prop := forall v, right [t] Dl D v = nrm D v.
Fixpoint isos (Dl : nat) (l : list tensorC) : Prop :=
  match l with
  | [] => True
  | t :: l' => match l' with [] => True | _ => siso t Dl (nth 2 (shape t) 0%nat) /\ isos (nth 2 (shape t) 0%nat) l' end
  end.
Definition close (A : qopC) (m : list tensorC) (G : list nat -> nat -> nat -> C) (Dl Dr : nat) (eta : R) : Prop :=
  forall w, rsum (bits (length m)) (fun c => nrm Dl (seg_diff (SC := C_scalar) A m G Dr w c)) <= eta * eta * nrm Dr w.

Lemma norm_split : forall l1 l2 D1 D v, chain (SC := C_scalar) 1 l1 D1 ->
  norm2 (length (l1 ++ l2)) (Lv (SC := C_scalar) (l1 ++ l2) D v) =
  rsum (bits (length l2)) (fun b2 => norm2 (length l1) (Lv (SC := C_scalar) l1 D1 (fun i => rv (SC := C_scalar) l2 D v i b2))).
Proof.
  intros l1 l2 D1 D v H. rewrite app_length. unfold norm2. rewrite rsum_bits_app, rsum_swap. apply rsum_ext. intros b2 _.
  apply rsum_ext. intros b1 Hb1. rewrite (Lv_app (SC := C_scalar) l1 l2 D1) by (auto; now apply bits_length). reflexivity.
Qed.

Lemma block_bounds : forall a b l1 l2 D1 D v, chain (SC := C_scalar) 1 l1 D1 -> frame a b l1 D1 ->
  a * a * right l2 D1 D v <= norm2 (length (l1 ++ l2)) (Lv (SC := C_scalar) (l1 ++ l2) D v) <= b * b * right l2 D1 D v.
Proof.
  intros a b l1 l2 D1 D v H F. rewrite (norm_split l1 l2 D1) by auto. unfold right. rewrite <- !rsum_mul.
  split; apply rsum_le; intros b2 _; apply F.
Qed.

Lemma frame_nil : frame 1 1 [] 1.
Proof.
  intros v. assert (E : norm2 (length (@nil tensorC)) (Lv (SC := C_scalar) [] 1 v) = nrm 1 v); [|lra].
  cbn [length]. unfold norm2, nrm. change (bits 0) with [@nil nat]. cbn [seq rsum]. now rewrite (Lv_nil (SC := C_scalar)).
Qed.

Lemma frame_site : forall a b l1 t Dl D, chain (SC := C_scalar) 1 l1 Dl -> siso t Dl D -> frame a b l1 Dl -> frame a b (l1 ++ [t]) D.
Proof. intros a b l1 t Dl D H S F v. rewrite <- (S v). now apply block_bounds. Qed.

Lemma frame_isos : forall a b m l1 Dl m1 m2 D, chain (SC := C_scalar) 1 l1 Dl -> frame a b l1 Dl -> isos Dl m -> m = m1 ++ m2 -> m2 <> [] ->
  chain (SC := C_scalar) 1 (l1 ++ m1) D -> frame a b (l1 ++ m1) D.
Proof.
  intros a b m. induction m as [|t m IH]; intros l1 Dl m1 m2 D H F I E N HC.
  { symmetry in E. apply app_eq_nil in E. destruct E. contradiction. }
  assert (U : forall l D1 D2, chain (SC := C_scalar) 1 l D1 -> chain (SC := C_scalar) 1 l D2 -> D1 = D2).
  { clear. intros l. generalize 1%nat. induction l as [|t l IH]; cbn [chain]; intros k D1 D2 H1 H2; [congruence|].
    destruct H1 as (x & _ & S1 & _ & H1), H2 as (y & _ & S2 & _ & H2). rewrite S1 in S2. injection S2 as ->. eauto. }
  destruct m1 as [|t' m1].
  { rewrite app_nil_r in *. now rewrite (U _ _ _ HC H). }
  cbn [app] in E. injection E as <- E. destruct m as [|t2 m].
  { symmetry in E. apply app_eq_nil in E. destruct E. contradiction. }
  change (siso t Dl (nth 2 (shape t) 0%nat) /\ isos (nth 2 (shape t) 0%nat) (t2 :: m)) in I. destruct I as [I1 I2]. pose proof HC as HC0. apply chain_app in HC. destruct HC as (D0 & H0 & HC).
  cbn [chain] in HC. destruct HC as (D1 & P1 & S1 & W1 & HC). rewrite (U _ _ _ H0 H) in S1.
  rewrite S1 in I1, I2. cbn [nth] in I1, I2. change (t :: m1) with ([t] ++ m1) in *. rewrite app_assoc in *.
  assert (H1 : chain (SC := C_scalar) 1 (l1 ++ [t]) D1). { apply chain_app. exists Dl. split; auto. now apply chain_1. }
  apply (IH (l1 ++ [t]) D1 m1 m2 D); auto. now apply (frame_site a b l1 t Dl D1).
Qed.

(** the change of a block *)
Lemma change_bound : forall b eta A l1 m G Dl Dr r W (d : list nat -> C), chain (SC := C_scalar) 1 l1 Dl ->
  (forall v, norm2 (length l1) (Lv (SC := C_scalar) l1 Dl v) <= b * b * nrm Dl v) -> close A m G Dl Dr eta ->
  (forall b1 c b2, In b1 (bits (length l1)) -> In c (bits (length m)) -> In b2 (bits r) ->
     d (b1 ++ c ++ b2) = Lv (SC := C_scalar) l1 Dl (seg_diff (SC := C_scalar) A m G Dr (fun j => W j b2) c) b1) ->
  norm2 (length l1 + (length m + r)) d <= b * b * (eta * eta * rsum (bits r) (fun b2 => nrm Dr (fun j => W j b2))).
Proof.
  intros b eta A l1 m G Dl Dr r W d H F Cl Hd. unfold norm2. rewrite rsum_bits_app.
  rewrite (rsum_ext _ _ _ (fun b1 => rsum (bits (length m)) (fun c => rsum (bits r) (fun b2 =>
    Cnorm2 (Lv (SC := C_scalar) l1 Dl (seg_diff (SC := C_scalar) A m G Dr (fun j => W j b2) c) b1))))).
  2:{ intros b1 H1. rewrite rsum_bits_app. apply rsum_ext. intros c Hc. apply rsum_ext. intros b2 H2. now rewrite Hd. }
  rewrite rsum_swap.
  apply Rle_trans with (rsum (bits (length m)) (fun c => rsum (bits r) (fun b2 => b * b * nrm Dl (seg_diff (SC := C_scalar) A m G Dr (fun j => W j b2) c)))).
  - apply rsum_le. intros c _. rewrite rsum_swap. apply rsum_le. intros b2 _. apply F.
  - rewrite rsum_swap. rewrite <- !rsum_mul. apply rsum_le. intros b2 _. rewrite rsum_mul.
    apply Rmult_le_compat_l; [apply Rle_0_sqr|]. apply Cl.
Qed.

Lemma norm2_apply : forall n k i A psi, (i + k <= n)%nat -> unitary (SC := C_scalar) k A -> norm2 n (apply_on (SC := C_scalar) A (seq i k) psi) = norm2 n psi.
Proof.
  intros n k i A psi H U. rewrite <- (norm2_unitary n (lift (SC := C_scalar) A (seq i k)) psi).
  - unfold norm2. apply rsum_ext. intros b Hb. now rewrite (act_lift (SC := C_scalar) n A (seq i k) psi (good_seq n i k H) b Hb).
  - apply lift_unitary; [now apply good_seq|]. now rewrite seq_length.
Qed.

Lemma sq_le : forall x y, 0 <= y -> x * x <= y * y -> x <= y.
Proof. intros x y Hy H. apply Rsqr_incr_0_var; auto. Qed.

Section Seg.
  Variables (n : nat) (A : qopC) (l1 m l2 : list tensorC) (Dl Dr : nat) (a b eta : R).
  Hypothesis Ha : 0 < a.
  Hypothesis Hab : a <= b.
  Hypothesis Heta : 0 <= eta.
  Hypothesis Hsm : eta * b < a.
  Hypothesis Hn : length (l1 ++ m ++ l2) = n.
  Hypothesis H1 : chain (SC := C_scalar) 1 l1 Dl.
  Hypothesis H2 : chain (SC := C_scalar) Dl m Dr.
  Hypothesis H3 : chain (SC := C_scalar) Dr l2 1.
  Hypothesis Hm : m <> [].
  Hypothesis HU : unitary (SC := C_scalar) (length m) A.
  Hypothesis HF : framed a b (l1 ++ m ++ l2).

  Lemma F1 : frame a b l1 Dl.
  Proof. apply (HF l1 (m ++ l2)); auto. intros E. apply app_eq_nil in E. destruct E. contradiction. Qed.

  (** norms of the block of l1 ++ m ++ q before and after *)
  Lemma seg_len : forall G q r D v (d : list nat -> C), close A m G Dl Dr eta -> chain (SC := C_scalar) Dr q D -> r = length q ->
    (forall b1 c b2, In b1 (bits (length l1)) -> In c (bits (length m)) -> In b2 (bits r) ->
     d (b1 ++ c ++ b2) = Lv (SC := C_scalar) l1 Dl (seg_diff (SC := C_scalar) A m G Dr (fun j => rv (SC := C_scalar) q D v j b2) c) b1) ->
    len (bits (length l1 + (length m + r))) d <= eta * b * sqrt (right q Dr D v).
  Proof.
    intros G q r D v d Cl Hq -> Hd. unfold len. change (sqn ?l ?f) with (rsum l (fun x => Cnorm2 (f x))).
    assert (P : 0 <= right q Dr D v) by (apply rsum_pos; intros; apply nrm_pos).
    replace (eta * b * sqrt (right q Dr D v)) with (sqrt (b * b * (eta * eta * right q Dr D v))).
    - apply sqrt_le_1_alt. apply (change_bound b eta A l1 m G Dl Dr (length q) (rv (SC := C_scalar) q D v) d); auto. intros w. apply F1.
    - replace (b * b * (eta * eta * right q Dr D v)) with ((eta * b) * (eta * b) * right q Dr D v) by ring.
      rewrite sqrt_mult_alt by apply Rle_0_sqr. rewrite sqrt_square; [reflexivity|]. apply Rmult_le_pos; lra.
  Qed.
  Lemma right_le : forall q D v, l2 <> [] -> sqrt (right q Dr D v) <= len (bits (length (l1 ++ m ++ q))) (Lv (SC := C_scalar) (l1 ++ m ++ q) D v) / a.
  Proof.
    intros q D v N. apply Rmult_le_reg_l with a; auto. replace (a * (len (bits (length (l1 ++ m ++ q))) (Lv (SC := C_scalar) (l1 ++ m ++ q) D v) / a))
      with (len (bits (length (l1 ++ m ++ q))) (Lv (SC := C_scalar) (l1 ++ m ++ q) D v)) by (field; lra).
    assert (C : chain (SC := C_scalar) 1 (l1 ++ m) Dr) by (apply chain_app; eauto).
    assert (F : frame a b (l1 ++ m) Dr) by (apply (HF (l1 ++ m) l2); auto; now rewrite <- app_assoc).
    pose proof (block_bounds a b (l1 ++ m) q Dr D v C F) as [X _]. rewrite <- app_assoc in X.
    assert (P : 0 <= right q Dr D v) by (apply rsum_pos; intros; apply nrm_pos).
    unfold len. change (sqn ?l ?f) with (rsum l (fun x => Cnorm2 (f x))).
    replace (a * sqrt (right q Dr D v)) with (sqrt (a * a * right q Dr D v)).
    - apply sqrt_le_1_alt. exact X.
    - rewrite sqrt_mult_alt by apply Rle_0_sqr. rewrite sqrt_square; [reflexivity|lra].
  Qed.

  (** the whole state *)
  Definition psi0 : qstateC := mps_amp (SC := C_scalar) (l1 ++ m ++ l2).
  Lemma right_whole : sqrt (right l2 Dr 1 (fun _ => RtoC 1)) <= Rmax 1 (len (bits n) psi0 / a).
  Proof.
    destruct l2 as [|t l2'] eqn:E.
    - eapply Rle_trans; [|apply Rmax_l]. right. cbn [chain] in H3. rewrite H3. unfold right. cbn [length].
      change (bits 0) with [@nil nat]. unfold nrm. cbn [seq rsum]. rewrite (rv_nil (SC := C_scalar)) by lia.
      transitivity (sqrt 1); [f_equal|apply sqrt_1]. unfold Cnorm2, RtoC. cbn [fst snd]. ring.
    - eapply Rle_trans; [|apply Rmax_r]. rewrite <- E in *. eapply Rle_trans; [apply right_le; rewrite E; discriminate|].
      right. f_equal. rewrite Hn. apply len_ext. intros x Hx. exact (Lv_amp (SC := C_scalar) (l1 ++ m ++ l2) x).
  Qed.

  Lemma len_A : len (bits n) (apply_on (SC := C_scalar) A (seq (length l1) (length m)) psi0) = len (bits n) psi0.
  Proof. unfold len. f_equal. apply (norm2_apply n (length m) (length l1)); auto. subst n. rewrite !app_length. lia. Qed.

  (** not everything is small *)
  Lemma seg_not_small : eta * b * Rmax 1 (len (bits n) psi0 / a) < len (bits n) psi0 -> ~ close A m (fun _ _ _ => RtoC 0) Dl Dr eta.
  Proof.
    intros HL Cl. rewrite <- len_A in HL at 2. apply Rlt_not_le in HL. apply HL.
    eapply Rle_trans; [|apply Rmult_le_compat_l; [apply Rmult_le_pos; lra|apply right_whole]].
    replace n with (length l1 + (length m + length l2))%nat by (subst n; now rewrite !app_length).
    apply (seg_len (fun _ _ _ => RtoC 0)); auto. intros b1 c b2 B1 B2 B3.
    rewrite <- (seg_Lv_zero (SC := C_scalar) A l1 m l2 Dl Dr 1 (fun _ => RtoC 1)) by (auto; now apply bits_length).
    unfold apply_on. apply (bigsum_ext (SC := C_scalar)). intros c' _. f_equal. symmetry. apply (Lv_amp (SC := C_scalar)).
  Qed.

  Variable m' : list tensorC.
  Hypothesis H2' : chain (SC := C_scalar) Dl m' Dr.
  Hypothesis Hm' : length m' = length m.
  Hypothesis HI : isos Dl m'.
  Hypothesis Cl : close A m (mps_mat (SC := C_scalar) m') Dl Dr eta.

  Lemma seg_state : len (bits n) (fun x => Csub (apply_on (SC := C_scalar) A (seq (length l1) (length m)) psi0 x) (mps_amp (SC := C_scalar) (l1 ++ m' ++ l2) x))
    <= eta * b * Rmax 1 (len (bits n) psi0 / a).
  Proof.
    eapply Rle_trans; [|apply Rmult_le_compat_l; [apply Rmult_le_pos; lra|apply right_whole]].
    replace n with (length l1 + (length m + length l2))%nat by (subst n; now rewrite !app_length).
    apply (seg_len (mps_mat (SC := C_scalar) m')); auto. intros b1 c b2 B1 B2 B3.
    rewrite <- (seg_Lv_diff (SC := C_scalar) A l1 m m' l2 Dl Dr 1 (fun _ => RtoC 1)) by (auto; now apply bits_length).
    change (ksub (Scalar := C_scalar)) with Csub. rewrite <- (Lv_amp (SC := C_scalar)). f_equal.
    unfold apply_on. apply (bigsum_ext (SC := C_scalar)). intros c' _. f_equal. symmetry. apply (Lv_amp (SC := C_scalar)).
  Qed.

  Lemma seg_block : forall q q2 D, l2 = q ++ q2 -> q2 <> [] -> chain (SC := C_scalar) Dr q D ->
    frame (a - eta * b) (b + eta * b * b / a) (l1 ++ m' ++ q) D.
  Proof.
    intros q q2 D E N Hq v. assert (N2 : l2 <> []) by (intros X; rewrite X in E; symmetry in E; apply app_eq_nil in E; destruct E; contradiction).
    set (f := Lv (SC := C_scalar) (l1 ++ m ++ q) D v). set (g := Lv (SC := C_scalar) (l1 ++ m' ++ q) D v).
    set (k := (length l1 + (length m + length q))%nat).
    set (Af := apply_on (SC := C_scalar) A (seq (length l1) (length m)) f).
    assert (L : length (l1 ++ m ++ q) = k) by (unfold k; now rewrite !app_length).
    assert (L' : length (l1 ++ m' ++ q) = k) by (unfold k; rewrite !app_length; lia). rewrite L'.
    assert (F : frame a b (l1 ++ m ++ q) D).
    { apply (HF _ q2); auto. - rewrite E, <- !app_assoc. reflexivity. - apply chain_app. exists Dl. split; auto. apply chain_app. exists Dr. auto. }
    destruct (F v) as [Fl Fu]. rewrite L in Fl, Fu. fold f in Fl, Fu.
    change (norm2 k f) with (sqn (bits k) f) in *. change (norm2 k g) with (sqn (bits k) g). change (nrm D v) with (sqn (seq 0 D) v) in *.
    assert (EA : len (bits k) Af = len (bits k) f).
    { unfold len. f_equal. apply (norm2_apply k (length m) (length l1)); auto. unfold k. lia. }
    assert (ED : len (bits k) (fun x => Csub (Af x) (g x)) <= eta * b * (len (bits k) f / a)).
    { eapply Rle_trans; [|apply Rmult_le_compat_l; [apply Rmult_le_pos; lra|]].
      2:{ pose proof (right_le q D v N2) as X. rewrite L in X. exact X. }
      apply (seg_len (mps_mat (SC := C_scalar) m')); auto. intros b1 c b2 B1 B2 B3.
      rewrite <- (seg_Lv_diff (SC := C_scalar) A l1 m m' q Dl Dr D v) by (auto; now apply bits_length). reflexivity. }
    pose proof (len_le_sub _ (bits k) Af g) as T1.
    pose proof (len_le_sub _ (bits k) g Af) as T2. rewrite (len_sub_sym _ _ g Af) in T2. rewrite EA in T1, T2.
    pose proof (len_pos _ (seq 0 D) v) as Pv. pose proof (len_pos _ (bits k) f) as Pf.
    assert (Gl : a * len (seq 0 D) v <= len (bits k) f).
    { apply sq_le; auto. rewrite len_sq. replace (a * len (seq 0 D) v * (a * len (seq 0 D) v)) with (a * a * (len (seq 0 D) v * len (seq 0 D) v)) by ring.
      now rewrite len_sq. }
    assert (Gu : len (bits k) f <= b * len (seq 0 D) v) by (apply sqn_le_len; [lra|exact Fu]).
    assert (Pe : 0 <= eta * b / a). { apply Rmult_le_pos; [apply Rmult_le_pos; lra|]. left. now apply Rinv_0_lt_compat. }
    replace (eta * b * (len (bits k) f / a)) with (eta * b / a * len (bits k) f) in ED by (field; lra).
    assert (P1 : eta * b / a < 1). { apply Rmult_lt_reg_r with a; auto. replace (eta * b / a * a) with (eta * b) by (field; lra). lra. }
    assert (XL : (a - eta * b) * len (seq 0 D) v <= len (bits k) g).
    { apply Rle_trans with ((1 - eta * b / a) * len (bits k) f); [|lra].
      replace ((a - eta * b) * len (seq 0 D) v) with ((1 - eta * b / a) * (a * len (seq 0 D) v)) by (field; lra). apply Rmult_le_compat_l; lra. }
    assert (XU : len (bits k) g <= (b + eta * b * b / a) * len (seq 0 D) v).
    { apply Rle_trans with ((1 + eta * b / a) * len (bits k) f); [lra|].
      replace ((b + eta * b * b / a) * len (seq 0 D) v) with ((1 + eta * b / a) * (b * len (seq 0 D) v)) by (field; lra). apply Rmult_le_compat_l; lra. }
    split.
    - rewrite <- !len_sq. replace ((a - eta * b) * (a - eta * b) * (len (seq 0 D) v * len (seq 0 D) v)) with
        (((a - eta * b) * len (seq 0 D) v) * ((a - eta * b) * len (seq 0 D) v)) by ring.
      apply Rmult_le_compat; auto; apply Rmult_le_pos; lra.
    - apply len_le_sqn; auto. replace (b + eta * b * b / a) with (b + eta * b / a * b) by (field; lra).
      assert (0 <= eta * b / a * b) by (apply Rmult_le_pos; lra). lra.
  Qed.

  Lemma framed_weak : forall x y x' y' l, 0 < x' -> x' <= x -> 0 <= y -> y <= y' -> framed x y l -> framed x' y' l.
  Proof.
    intros x y x' y' l P1 P2 P3 P4 F p q D E N H v. destruct (F p q D E N H v) as [X Y]. pose proof (nrm_pos D v). split.
    - eapply Rle_trans; [|exact X]. apply Rmult_le_compat_r; auto. apply Rmult_le_compat; lra.
    - eapply Rle_trans; [exact Y|]. apply Rmult_le_compat_r; auto. apply Rmult_le_compat; lra.
  Qed.
  Lemma frame_weak : forall x y x' y' l D, 0 < x' -> x' <= x -> 0 <= y -> y <= y' -> frame x y l D -> frame x' y' l D.
  Proof.
    intros x y x' y' l D P1 P2 P3 P4 F v. destruct (F v) as [X Y]. pose proof (nrm_pos D v). split.
    - eapply Rle_trans; [|exact X]. apply Rmult_le_compat_r; auto. apply Rmult_le_compat; lra.
    - eapply Rle_trans; [exact Y|]. apply Rmult_le_compat_r; auto. apply Rmult_le_compat; lra.
  Qed.

  Lemma app_split : forall (T : Type) (x y p q : list T), x ++ y = p ++ q -> (length p <= length x)%nat -> exists z, x = p ++ z /\ q = z ++ y.
  Proof.
    intros T x. induction x as [|c x IH]; intros y p q E L; destruct p as [|d p]; cbn [length] in L; try lia.
    - exists []. auto.
    - exists (c :: x). auto.
    - cbn [app] in E. injection E as <- E. destruct (IH y p q E ltac:(lia)) as (z & -> & ->). exists z. auto.
  Qed.

  Lemma seg_framed : framed (a - eta * b) (b + eta * b * b / a) (l1 ++ m' ++ l2).
  Proof.
    assert (P0 : 0 <= eta * b * b / a). { apply Rmult_le_pos; [repeat apply Rmult_le_pos; lra|]. left. now apply Rinv_0_lt_compat. }
    assert (P1 : 0 <= eta * b) by (apply Rmult_le_pos; lra).
    assert (W : forall l D, frame a b l D -> frame (a - eta * b) (b + eta * b * b / a) l D) by (intros l D; apply frame_weak; lra).
    intros p q D E N H. destruct (Nat.le_gt_cases (length p) (length l1)) as [L|L].
    - destruct (app_split _ _ _ _ _ E L) as (z & -> & ->). apply W. apply (HF p (z ++ m ++ l2)); auto.
      + now rewrite <- app_assoc.
      + intros X. apply app_eq_nil in X. destruct X as [_ X]. apply app_eq_nil in X. destruct X. contradiction.
    - symmetry in E. destruct (app_split _ _ _ _ _ E ltac:(lia)) as (z & -> & E'). clear E. rename E' into E.
      rewrite app_length in L.
      destruct (Nat.le_gt_cases (length m') (length z)) as [L2|L2].
      + symmetry in E. destruct (app_split _ _ _ _ _ E L2) as (q1 & -> & Eq).
        apply chain_app in H. destruct H as (D0 & X & H). apply chain_app in H. destruct H as (D3 & Y & H).
        assert (U : forall l k D1 D2, chain (SC := C_scalar) k l D1 -> chain (SC := C_scalar) k l D2 -> D1 = D2).
        { clear. intros l. induction l as [|t l IH]; cbn [chain]; intros k D1 D2 A1 A2; [congruence|].
          destruct A1 as (x & _ & S1 & _ & A1), A2 as (y & _ & S2 & _ & A2). rewrite S1 in S2. injection S2 as ->. eauto. }
        rewrite (U _ _ _ _ X H1) in Y. rewrite (U _ _ _ _ Y H2') in H. now apply (seg_block q1 q).
      + destruct (app_split _ _ _ _ _ E ltac:(lia)) as (y & Ey & ->). apply W.
        apply (frame_isos a b m' l1 Dl z y D); auto; [apply F1|]. intros ->. rewrite app_nil_r in Ey. subst z. lia.
  Qed.
End Seg.
