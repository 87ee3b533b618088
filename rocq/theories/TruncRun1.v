(** Lemmas: the left blocks of a matrix product state and the change of the state when a segment is replaced approximately. *)
From Coq Require Import List ZArith QArith Reals Lra Lia ZifyBool Bool Arith Qreals Permutation.
From Verif Require Import PyBase Scalar CInst BigSum Index Tensor TensorFacts Spec SpecFacts QMath QTN
  MPSSpec MPSFacts1 MPSFacts2 MPSFacts4 MeasSpec MeasFacts QuanvFacts TruncSpec TruncFacts1 TruncFacts2 SVDExist2 SVDExist3.
Import ListNotations.
Local Close Scope Q_scope.
Local Close Scope R_scope.
Local Open Scope nat_scope.

Section Gen.
  Context {SC : Scalar}.
  Add Ring KR : k_ring.
  Local Open Scope k_scope.

  (** the state of a left block with a vector on its right bond; a right block with a vector on its right bond *)
  Definition Lv (l : list tensor) (D : nat) (v : nat -> K) : qstate := fun b => bigsum (seq 0 D) (fun a => mps_mat l b 0%nat a * v a).
  Definition rv (l : list tensor) (D : nat) (v : nat -> K) (i : nat) (b : list nat) : K := bigsum (seq 0 D) (fun a => mps_mat l b i a * v a).

  Lemma Lv_app : forall l1 l2 D1 D v b1 b2, chain 1 l1 D1 -> length b1 = length l1 ->
    Lv (l1 ++ l2) D v (b1 ++ b2) = Lv l1 D1 (fun i => rv l2 D v i b2) b1.
  Proof.
    intros l1 l2 D1 D v b1 b2 H L. unfold Lv, rv.
    transitivity (bigsum (seq 0 D) (fun a => bigsum (seq 0 D1) (fun i => mps_mat l1 b1 0%nat i * (mps_mat l2 b2 i a * v a)))).
    - apply bigsum_ext. intros a _. rewrite (mps_mat_app l1 l2 1 D1) by (auto; lia). rewrite <- bigsum_mul_r. apply bigsum_ext. intros; ring.
    - rewrite bigsum_swap. apply bigsum_ext. intros i _. now rewrite bigsum_mul_l.
  Qed.
  Lemma rv_app : forall m l2 Dl Dr D v c b2 i, chain Dl m Dr -> (i < Dl)%nat -> length c = length m ->
    rv (m ++ l2) D v i (c ++ b2) = bigsum (seq 0 Dr) (fun j => mps_mat m c i j * rv l2 D v j b2).
  Proof.
    intros m l2 Dl Dr D v c b2 i H Hi L. unfold rv.
    transitivity (bigsum (seq 0 D) (fun a => bigsum (seq 0 Dr) (fun j => mps_mat m c i j * (mps_mat l2 b2 j a * v a)))).
    - apply bigsum_ext. intros a _. rewrite (mps_mat_app m l2 Dl Dr) by auto. rewrite <- bigsum_mul_r. apply bigsum_ext. intros; ring.
    - rewrite bigsum_swap. apply bigsum_ext. intros j _. now rewrite bigsum_mul_l.
  Qed.
  Lemma rv_1 : forall t Dl D v x i, shape t = [2%nat; Dl; D] -> rv [t] D v i [x] = bigsum (seq 0 D) (fun a => tget t [x; i; a] * v a).
  Proof. intros t Dl D v x i S. unfold rv. apply bigsum_ext. intros a Ha. apply in_seq in Ha. now rewrite (mps_mat_1 t Dl D) by (auto; lia). Qed.
  Lemma Lv_ext : forall l D v w b, (forall a, (a < D)%nat -> v a = w a) -> Lv l D v b = Lv l D w b.
  Proof. intros l D v w b H. unfold Lv. apply bigsum_ext. intros a Ha. apply in_seq in Ha. now rewrite H by lia. Qed.
  Lemma Lv_amp : forall l b, Lv l 1 (fun _ => 1) b = mps_amp l b.
  Proof. intros l b. unfold Lv, mps_amp. cbn [seq]. rewrite bigsum_cons, bigsum_nil. ring. Qed.
  Lemma Lv_nil : forall v b, Lv [] 1 v b = v 0%nat.
  Proof. intros v b. unfold Lv. cbn [seq mps_mat]. rewrite bigsum_cons, bigsum_nil. cbn [Nat.eqb]. ring. Qed.
  Lemma rv_nil : forall D v i b, (i < D)%nat -> rv [] D v i b = v i.
  Proof.
    intros D v i b H. unfold rv. cbn [mps_mat]. rewrite (bigsum_single _ _ i); [|apply seq_NoDup|apply in_seq; lia|].
    - rewrite Nat.eqb_refl. ring.
    - intros a _ Ha. replace (i =? a)%nat with false by lia. ring.
  Qed.

  (** the effect of an operator on the segment *)
  Lemma apply_mid : forall A k f b1 c b2, In c (bits k) ->
    apply_on A (seq (length b1) k) f (b1 ++ c ++ b2) = bigsum (bits k) (fun c' => A c c' * f (b1 ++ c' ++ b2)).
  Proof.
    intros A k f b1 c b2 Hc. pose proof (bits_length _ _ Hc) as L. subst k. unfold apply_on. rewrite seq_length.
    rewrite rd_seq_mid. apply bigsum_ext. intros c' Hc'. pose proof (bits_length _ _ Hc') as L'.
    rewrite wr_seq_mid by lia. reflexivity.
  Qed.

  Lemma seg_Lv : forall A l1 m l2 Dl Dr D v b1 c b2, chain 1 l1 Dl -> chain Dl m Dr ->
    length b1 = length l1 -> In c (bits (length m)) ->
    apply_on A (seq (length l1) (length m)) (Lv (l1 ++ m ++ l2) D v) (b1 ++ c ++ b2) =
    Lv l1 Dl (fun i => bigsum (seq 0 Dr) (fun j => seg_op A m c i j * rv l2 D v j b2)) b1.
  Proof.
    intros A l1 m l2 Dl Dr D v b1 c b2 H1 H2 L1 Hc. rewrite <- L1, apply_mid by auto.
    transitivity (bigsum (bits (length m)) (fun c' => bigsum (seq 0 Dl) (fun i => mps_mat l1 b1 0%nat i * (A c c' * rv (m ++ l2) D v i (c' ++ b2))))).
    { apply bigsum_ext. intros c' _. rewrite (Lv_app l1 (m ++ l2) Dl) by auto. unfold Lv. rewrite <- bigsum_mul_l. apply bigsum_ext. intros; ring. }
    rewrite bigsum_swap. unfold Lv. apply bigsum_ext. intros i Hi. apply in_seq in Hi. rewrite bigsum_mul_l. f_equal.
    transitivity (bigsum (bits (length m)) (fun c' => bigsum (seq 0 Dr) (fun j => A c c' * mps_mat m c' i j * rv l2 D v j b2))).
    { apply bigsum_ext. intros c' Hc'. rewrite (rv_app m l2 Dl Dr) by (auto; try lia; now apply bits_length). rewrite <- bigsum_mul_l.
      apply bigsum_ext. intros; ring. }
    rewrite bigsum_swap. apply bigsum_ext. intros j _. unfold seg_op. rewrite <- bigsum_mul_r. reflexivity.
  Qed.

  Lemma Lv_sub : forall l D v w b, Lv l D v b - Lv l D w b = Lv l D (fun a => v a - w a) b.
  Proof. intros. unfold Lv. rewrite <- bigsum_sub. apply bigsum_ext. intros; ring. Qed.

  (** the difference between the operator on m and the block G in its place *)
  Definition seg_diff (A : qop) (m : list tensor) (G : list nat -> nat -> nat -> K) Dr (w : nat -> K) (c : list nat) (i : nat) : K :=
    bigsum (seq 0 Dr) (fun j => (seg_op A m c i j - G c i j) * w j).

  Lemma seg_Lv_diff : forall A l1 m m' l2 Dl Dr D v b1 c b2, chain 1 l1 Dl -> chain Dl m Dr -> chain Dl m' Dr -> length m' = length m ->
    length b1 = length l1 -> In c (bits (length m)) ->
    apply_on A (seq (length l1) (length m)) (Lv (l1 ++ m ++ l2) D v) (b1 ++ c ++ b2) - Lv (l1 ++ m' ++ l2) D v (b1 ++ c ++ b2) =
    Lv l1 Dl (seg_diff A m (mps_mat m') Dr (fun j => rv l2 D v j b2) c) b1.
  Proof.
    intros A l1 m m' l2 Dl Dr D v b1 c b2 H1 H2 H2' Hm L1 Hc. pose proof (bits_length _ _ Hc) as Lc.
    rewrite (seg_Lv A l1 m l2 Dl Dr) by auto. rewrite (Lv_app l1 (m' ++ l2) Dl) by auto. rewrite Lv_sub. apply Lv_ext.
    intros i Hi. rewrite (rv_app m' l2 Dl Dr) by (auto; lia). rewrite <- bigsum_sub. apply bigsum_ext. intros; ring.
  Qed.
  Lemma seg_Lv_zero : forall A l1 m l2 Dl Dr D v b1 c b2, chain 1 l1 Dl -> chain Dl m Dr ->
    length b1 = length l1 -> In c (bits (length m)) ->
    apply_on A (seq (length l1) (length m)) (Lv (l1 ++ m ++ l2) D v) (b1 ++ c ++ b2) =
    Lv l1 Dl (seg_diff A m (fun _ _ _ => 0) Dr (fun j => rv l2 D v j b2) c) b1.
  Proof.
    intros A l1 m l2 Dl Dr D v b1 c b2 H1 H2 L1 Hc. rewrite (seg_Lv A l1 m l2 Dl Dr) by auto. apply Lv_ext.
    intros i Hi. apply bigsum_ext. intros; ring.
  Qed.
End Gen.

(** ** norms *)
Local Open Scope R_scope.
Definition sqn {A} (l : list A) (f : A -> C) : R := rsum l (fun a => Cnorm2 (f a)).
Definition len {A} (l : list A) (f : A -> C) : R := sqrt (sqn l f).

Lemma rsum_pos : forall A (l : list A) f, (forall a, In a l -> 0 <= f a) -> 0 <= rsum l f.
Proof. intros A l f H. rewrite <- (rsum_0 A l). now apply rsum_le. Qed.
Lemma sqn_pos : forall A (l : list A) f, 0 <= sqn l f.
Proof. intros. apply rsum_pos. intros. apply Cnorm2_nonneg. Qed.
Lemma len_pos : forall A (l : list A) f, 0 <= len l f.
Proof. intros. apply sqrt_pos. Qed.
Lemma len_sq : forall A (l : list A) f, len l f * len l f = sqn l f.
Proof. intros. apply sqrt_sqrt, sqn_pos. Qed.
Lemma sqn_ext : forall A (l : list A) f g, (forall a, In a l -> f a = g a) -> sqn l f = sqn l g.
Proof. intros A l f g H. apply rsum_ext. intros a Ha. now rewrite H. Qed.
Lemma len_ext : forall A (l : list A) f g, (forall a, In a l -> f a = g a) -> len l f = len l g.
Proof. intros A l f g H. unfold len. now rewrite (sqn_ext _ l f g). Qed.
Lemma sqn_le_len : forall A B (l : list A) (l' : list B) f g c, 0 <= c -> sqn l f <= c * c * sqn l' g -> len l f <= c * len l' g.
Proof.
  intros A B l l' f g c Hc H. unfold len. rewrite <- (sqrt_square c) by auto. rewrite <- sqrt_mult_alt by nra. apply sqrt_le_1_alt. exact H.
Qed.
Lemma len_le_sqn : forall A B (l : list A) (l' : list B) f g c, 0 <= c -> len l f <= c * len l' g -> sqn l f <= c * c * sqn l' g.
Proof.
  intros A B l l' f g c Hc H. rewrite <- !len_sq. pose proof (len_pos _ l f). pose proof (len_pos _ l' g).
  replace (c * c * (len l' g * len l' g)) with ((c * len l' g) * (c * len l' g)) by ring. apply Rmult_le_compat; auto.
Qed.

Lemma Cnorm2_add_le : forall c z w, 0 < c -> Cnorm2 (Cadd z w) <= (1 + c) * Cnorm2 z + (1 + / c) * Cnorm2 w.
Proof.
  intros c [a b] [d e] Hc. unfold Cnorm2, Cadd. cbn [fst snd].
  assert (X : forall x y, 2 * (x * y) <= c * (x * x) + / c * (y * y)).
  { intros x y. assert (0 <= (c * x - y) * (c * x - y) * / c). { apply Rmult_le_pos; [apply Rle_0_sqr|]. left. now apply Rinv_0_lt_compat. }
    replace (c * (x * x) + / c * (y * y)) with ((c * x - y) * (c * x - y) * / c + 2 * (x * y)) by (field; lra). lra. }
  pose proof (X a d). pose proof (X b e). nra.
Qed.
Lemma Cadd_0_l : forall z, Cadd (RtoC 0) z = z.
Proof. intros [a b]. unfold Cadd, RtoC. cbn. f_equal; ring. Qed.
Lemma Cadd_0_r : forall z, Cadd z (RtoC 0) = z.
Proof. intros [a b]. unfold Cadd, RtoC. cbn. f_equal; ring. Qed.
Lemma sqn_0 : forall A (l : list A) f, sqn l f = 0 -> forall a, In a l -> f a = RtoC 0.
Proof.
  intros A l f H a Ha. apply Cnorm2_0_eq. pose proof (rsum_mem A l (fun a => Cnorm2 (f a)) a (fun x => Cnorm2_nonneg (f x)) Ha) as X.
  pose proof (Cnorm2_nonneg (f a)). unfold sqn in H. cbn beta in X. lra.
Qed.
Lemma len_add : forall A (l : list A) f g, len l (fun a => Cadd (f a) (g a)) <= len l f + len l g.
Proof.
  intros A l f g. pose proof (len_pos _ l f) as Pf. pose proof (len_pos _ l g) as Pg.
  destruct (Rle_lt_or_eq_dec 0 (len l f) Pf) as [Qf|Zf].
  2:{ assert (S0 : sqn l f = 0) by (rewrite <- len_sq, <- Zf; ring). rewrite (len_ext _ l _ g); [lra|].
      intros a Ha. rewrite (sqn_0 _ l f S0 a Ha). apply Cadd_0_l. }
  destruct (Rle_lt_or_eq_dec 0 (len l g) Pg) as [Qg|Zg].
  2:{ assert (S0 : sqn l g = 0) by (rewrite <- len_sq, <- Zg; ring). rewrite (len_ext _ l _ f); [lra|].
      intros a Ha. rewrite (sqn_0 _ l g S0 a Ha). apply Cadd_0_r. }
  set (c := len l g / len l f). assert (Hc : 0 < c) by (apply Rdiv_lt_0_compat; auto).
  assert (X : sqn l (fun a => Cadd (f a) (g a)) <= (1 + c) * sqn l f + (1 + / c) * sqn l g).
  { unfold sqn. rewrite <- !rsum_mul, <- rsum_add. apply rsum_le. intros a _. now apply Cnorm2_add_le. }
  rewrite <- !len_sq in X. set (a := len l f) in *. set (b := len l g) in *.
  replace ((1 + c) * (a * a) + (1 + / c) * (b * b)) with ((a + b) * (a + b)) in X by (unfold c; field; lra).
  apply Rsqr_incr_0_var; [unfold Rsqr; lra|lra].
Qed.
Lemma len_opp : forall A (l : list A) f, len l (fun a => Copp (f a)) = len l f.
Proof. intros A l f. unfold len, sqn. f_equal. apply rsum_ext. intros a _. destruct (f a) as [x y]. unfold Cnorm2, Copp. cbn. ring. Qed.
Lemma len_sub_sym : forall A (l : list A) f g, len l (fun a => Csub (f a) (g a)) = len l (fun a => Csub (g a) (f a)).
Proof.
  intros A l f g. unfold len, sqn. f_equal. apply rsum_ext. intros a _. destruct (f a) as [x y], (g a) as [u v]. unfold Cnorm2, Csub. cbn. ring.
Qed.
Lemma len_tri : forall A (l : list A) f g h, len l (fun a => Csub (f a) (h a)) <= len l (fun a => Csub (f a) (g a)) + len l (fun a => Csub (g a) (h a)).
Proof.
  intros A l f g h. eapply Rle_trans; [|apply len_add]. right. apply len_ext. intros a _.
  destruct (f a), (g a), (h a). unfold Csub, Cadd. cbn. f_equal; ring.
Qed.
Lemma len_le_sub : forall A (l : list A) f g, len l f <= len l g + len l (fun a => Csub (f a) (g a)).
Proof.
  intros A l f g. eapply Rle_trans; [|apply len_add]. right. apply len_ext. intros a _.
  destruct (f a), (g a). unfold Csub, Cadd. cbn. f_equal; ring.
Qed.

(** sums over bit strings *)
Lemma sqn_RtoC : forall A (l : list A) f, RtoC (sqn l f) = bigsum (SC := C_scalar) l (fun a => Cmul (Cconj (f a)) (f a)).
Proof.
  intros A l f. apply C_eq; cbn [fst snd RtoC]; symmetry.
  - etransitivity; [apply (Re_bigsum_rsum _ l)|]. apply rsum_ext. intros s _. cbn. unfold Cnorm2, Re, Im. destruct (f s). cbn. ring.
  - etransitivity; [apply (Im_bigsum_rsum _ l)|]. erewrite rsum_ext; [apply rsum_0|]. intros s _. cbn. unfold Re, Im. destruct (f s). cbn. ring.
Qed.
Lemma rsum_app : forall A (l l' : list A) f, rsum (l ++ l') f = rsum l f + rsum l' f.
Proof. induction l as [|a l IH]; intros l' f; cbn [app rsum]; [ring|]. rewrite IH. ring. Qed.
Lemma rsum_flat_map : forall A B (l : list A) (h : A -> list B) f, rsum (flat_map h l) f = rsum l (fun a => rsum (h a) f).
Proof. induction l as [|a l IH]; intros h f; cbn [flat_map rsum]; [reflexivity|]. now rewrite rsum_app, IH. Qed.
Lemma rsum_RtoC : forall A (l : list A) f, RtoC (rsum l f) = bigsum (SC := C_scalar) l (fun a => RtoC (f a)).
Proof.
  intros A l f. apply C_eq; cbn [fst snd RtoC]; symmetry.
  - etransitivity; [apply (Re_bigsum_rsum _ l)|]. reflexivity.
  - etransitivity; [apply (Im_bigsum_rsum _ l)|]. erewrite rsum_ext; [apply rsum_0|]. reflexivity.
Qed.
Lemma rsum_bits_app : forall m n (f : list nat -> R), rsum (bits (m + n)) f = rsum (bits m) (fun b => rsum (bits n) (fun b' => f (b ++ b'))).
Proof.
  intros m n f. assert (X : RtoC (rsum (bits (m + n)) f) = RtoC (rsum (bits m) (fun b => rsum (bits n) (fun b' => f (b ++ b'))))); [|injection X; auto].
  rewrite !rsum_RtoC. rewrite (bigsum_bits_app (SC := C_scalar) m n). apply (bigsum_ext (SC := C_scalar)). intros b _. symmetry. apply rsum_RtoC.
Qed.
