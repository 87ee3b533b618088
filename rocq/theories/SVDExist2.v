(** Lemmas: a nonzero matrix A has a nonzero vector x with <Ax, Ah> = |x|^2 <x, h> for all h. *)
From Coq Require Import List ZArith Reals Lra Lia ZifyBool Arith Ring.
From Verif Require Import Scalar CInst BigSum MeasSpec MeasFacts SVDExist1.
Import ListNotations.

Section Ip.
  Context {SC : Scalar}.
  Add Ring KR : k_ring.
  Local Open Scope k_scope.
  Definition ip (n : nat) (f g : nat -> K) : K := bigsum (seq 0 n) (fun i => kconj (f i) * g i).
  Definition mv (n : nat) (A : nat -> nat -> K) (x : nat -> K) : nat -> K := fun i => bigsum (seq 0 n) (fun j => A i j * x j).
  Definition ei (j : nat) : nat -> K := fun i => if (i =? j)%nat then 1 else 0.

  Lemma ip_ext : forall n f f' g g', (forall i, (i < n)%nat -> f i = f' i) -> (forall i, (i < n)%nat -> g i = g' i) -> ip n f g = ip n f' g'.
  Proof. intros n f f' g g' H1 H2. apply bigsum_ext. intros i Hi. apply in_seq in Hi. rewrite H1, H2 by lia. reflexivity. Qed.
  Lemma ip_add_r : forall n f g h, ip n f (fun i => g i + h i) = ip n f g + ip n f h.
  Proof. intros. unfold ip. rewrite <- bigsum_add. apply bigsum_ext. intros. ring. Qed.
  Lemma ip_sub_r : forall n f g h, ip n f (fun i => g i - h i) = ip n f g - ip n f h.
  Proof. intros. unfold ip. rewrite <- bigsum_sub. apply bigsum_ext. intros. ring. Qed.
  Lemma ip_scale_r : forall n f c g, ip n f (fun i => c * g i) = c * ip n f g.
  Proof. intros. unfold ip. rewrite <- bigsum_mul_l. apply bigsum_ext. intros. ring. Qed.
  Lemma ip_conj : forall n f g, kconj (ip n f g) = ip n g f.
  Proof. intros. unfold ip. rewrite bigsum_conj. apply bigsum_ext. intros. rewrite kconj_mul, kconj_invol. ring. Qed.
  Lemma ip_sub_l : forall n f g h, ip n (fun i => g i - h i) f = ip n g f - ip n h f.
  Proof.
    intros. unfold ip. rewrite <- bigsum_sub. apply bigsum_ext. intros i _. replace (g i - h i) with (g i + - (1) * h i) by ring.
    rewrite kconj_add, kconj_mul. replace (kconj (- (1))) with (- (1) : K). { ring. }
    assert (E : kconj (1 + - (1)) = 0). { replace (1 + - (1)) with (0 : K) by ring. apply kconj_0. }
    rewrite kconj_add, kconj_1 in E. transitivity (0 - 1 : K); [ring|]. rewrite <- E. ring.
  Qed.
  Lemma ip_scale_l : forall n f c g, ip n (fun i => c * g i) f = kconj c * ip n g f.
  Proof. intros. unfold ip. rewrite <- bigsum_mul_l. apply bigsum_ext. intros. rewrite kconj_mul. ring. Qed.
  Lemma ip_sum_r : forall n f (T : Type) (l : list T) (g : T -> nat -> K), ip n f (fun i => bigsum l (fun a => g a i)) = bigsum l (fun a => ip n f (g a)).
  Proof.
    intros. unfold ip. rewrite <- bigsum_swap. apply bigsum_ext. intros. now rewrite bigsum_mul_l.
  Qed.
  Lemma ip_e_r : forall n f j, (j < n)%nat -> ip n f (ei j) = kconj (f j).
  Proof.
    intros n f j H. unfold ip, ei. rewrite (bigsum_single _ (seq 0 n) j); [|apply seq_NoDup|apply in_seq; lia|].
    - rewrite Nat.eqb_refl. ring.
    - intros i _ Hi. replace (i =? j)%nat with false by lia. ring.
  Qed.
  Lemma mv_e : forall n A i j, (j < n)%nat -> mv n A (ei j) i = A i j.
  Proof.
    intros n A i j H. unfold mv, ei. rewrite (bigsum_single _ (seq 0 n) j); [|apply seq_NoDup|apply in_seq; lia|].
    - rewrite Nat.eqb_refl. ring.
    - intros k _ Hk. replace (k =? j)%nat with false by lia. ring.
  Qed.
  Lemma mv_add : forall n A x h i, mv n A (fun j => x j + h j) i = mv n A x i + mv n A h i.
  Proof. intros. unfold mv. rewrite <- bigsum_add. apply bigsum_ext. intros. ring. Qed.
  Lemma mv_scale : forall n A c x i, mv n A (fun j => c * x j) i = c * mv n A x i.
  Proof. intros. unfold mv. rewrite <- bigsum_mul_l. apply bigsum_ext. intros. ring. Qed.
  Lemma ip_0_r : forall n f g, (forall i, (i < n)%nat -> g i = 0) -> ip n f g = 0.
  Proof. intros n f g H. apply bigsum_zero. intros i Hi. apply in_seq in Hi. rewrite H by lia. ring. Qed.
  Lemma ip_0_l : forall n f g, (forall i, (i < n)%nat -> f i = 0) -> ip n f g = 0.
  Proof. intros n f g H. apply bigsum_zero. intros i Hi. apply in_seq in Hi. rewrite H by lia. rewrite kconj_0. ring. Qed.
End Ip.

Local Open Scope R_scope.
Notation vec := (nat -> C).
Notation ipC := (ip (SC := C_scalar)).
Notation mvC := (mv (SC := C_scalar)).

Definition nrm (n : nat) (f : vec) : R := rsum (seq 0 n) (fun i => Cnorm2 (f i)).
Lemma nrm_ip : forall n f, ipC n f f = RtoC (nrm n f).
Proof.
  intros n f. unfold ip, nrm. apply C_eq; cbn [fst snd RtoC].
  - etransitivity; [apply (Re_bigsum_rsum _ (seq 0 n))|]. apply rsum_ext. intros s _. cbn. unfold Cnorm2, Re, Im. ring.
  - etransitivity; [apply (Im_bigsum_rsum _ (seq 0 n))|]. erewrite rsum_ext; [apply rsum_0|]. intros s _. cbn. unfold Re, Im. ring.
Qed.
Lemma nrm_pos : forall n f, 0 <= nrm n f.
Proof. intros. unfold nrm. rewrite <- (rsum_0 _ (seq 0 n)). apply rsum_le. intros. apply Cnorm2_nonneg. Qed.
Lemma rsum_mem : forall A (l : list A) (f : A -> R) a, (forall x, 0 <= f x) -> In a l -> f a <= rsum l f.
Proof.
  intros A l f a P. induction l as [|b l IH]; intros H; [destruct H|]. cbn [rsum].
  assert (0 <= rsum l f) by (rewrite <- (rsum_0 _ l); now apply rsum_le).
  destruct H as [->|H]; [lra|]. specialize (IH H). pose proof (P b). lra.
Qed.
Lemma nrm_comp : forall n f i, (i < n)%nat -> Cnorm2 (f i) <= nrm n f.
Proof. intros n f i H. apply (rsum_mem _ (seq 0 n) (fun i => Cnorm2 (f i)) i); [intros; apply Cnorm2_nonneg|apply in_seq; lia]. Qed.
Lemma Cnorm2_0_eq : forall z, Cnorm2 z = 0 -> z = RtoC 0.
Proof. intros [a b] H. unfold Cnorm2 in H. cbn in H. apply C_eq; cbn; nra. Qed.
Lemma nrm_0 : forall n f, nrm n f = 0 -> forall i, (i < n)%nat -> f i = RtoC 0.
Proof. intros n f H i Hi. apply Cnorm2_0_eq. pose proof (nrm_comp n f i Hi). pose proof (Cnorm2_nonneg (f i)). lra. Qed.
Lemma nrm_ext : forall n f g, (forall i, (i < n)%nat -> f i = g i) -> nrm n f = nrm n g.
Proof. intros n f g H. apply rsum_ext. intros i Hi. apply in_seq in Hi. now rewrite H by lia. Qed.
Lemma rsum_add : forall A (l : list A) f g, rsum l (fun a => f a + g a) = rsum l f + rsum l g.
Proof. induction l as [|a l IH]; intros; cbn [rsum]; [lra|]. rewrite IH. lra. Qed.
Lemma rsum_mul : forall A (l : list A) c f, rsum l (fun a => c * f a) = c * rsum l f.
Proof. induction l as [|a l IH]; intros; cbn [rsum]; [lra|]. rewrite IH. lra. Qed.
Lemma nrm_line : forall n x h t, nrm n (fun i => Cadd (x i) (Cmul (RtoC t) (h i))) = nrm n x + 2 * t * Re (ipC n x h) + t * t * nrm n h.
Proof.
  intros n x h t. unfold nrm, ip. rewrite Re_bigsum_rsum, <- !rsum_mul, <- !rsum_add. apply rsum_ext. intros i _.
  cbn. unfold Cnorm2, Re, Im. cbn. ring.
Qed.

(** ** the function 2 |Ax|^2 - |x|^4 *)
Definition goal (m n : nat) (A : nat -> vec) (x : vec) : R := 2 * nrm m (mvC n A x) - nrm n x * nrm n x.

Lemma goal_line : forall m n A x h t,
  goal m n A (fun i => Cadd (x i) (Cmul (RtoC t) (h i))) =
  goal m n A x + (4 * Re (ipC m (mvC n A x) (mvC n A h)) - 4 * nrm n x * Re (ipC n x h)) * t
   + (2 * nrm m (mvC n A h) - 2 * nrm n x * nrm n h - 4 * (Re (ipC n x h) * Re (ipC n x h))) * (t * t)
   + (- 4 * Re (ipC n x h) * nrm n h) * (t * t * t) + (- (nrm n h * nrm n h)) * (t * t * t * t).
Proof.
  intros m n A x h t. unfold goal. rewrite nrm_line.
  rewrite (nrm_ext m (mvC n A (fun i => Cadd (x i) (Cmul (RtoC t) (h i)))) (fun i => Cadd (mvC n A x i) (Cmul (RtoC t) (mvC n A h i)))).
  - rewrite nrm_line. ring.
  - intros i _. etransitivity; [apply (mv_add (SC := C_scalar) n A x (fun j => Cmul (RtoC t) (h j)))|].
    apply (f_equal (Cadd (mvC n A x i))). exact (mv_scale (SC := C_scalar) n A (RtoC t) h i).
Qed.

Lemma crit_Re : forall m n A x, (forall y, goal m n A y <= goal m n A x) -> forall h, Re (ipC m (mvC n A x) (mvC n A h)) = nrm n x * Re (ipC n x h).
Proof.
  intros m n A x H h.
  assert (E : 4 * Re (ipC m (mvC n A x) (mvC n A h)) - 4 * nrm n x * Re (ipC n x h) = 0); [|lra].
  eapply no_linear. intros t. pose proof (H (fun i => Cadd (x i) (Cmul (RtoC t) (h i)))) as G. rewrite goal_line in G.
  apply (Rplus_le_reg_l (goal m n A x)). rewrite Rplus_0_r, <- !Rplus_assoc. exact G.
Qed.
Lemma crit : forall m n A x, (forall y, goal m n A y <= goal m n A x) -> forall h,
  ipC m (mvC n A x) (mvC n A h) = Cmul (RtoC (nrm n x)) (ipC n x h).
Proof.
  intros m n A x H h. pose proof (crit_Re m n A x H h) as R1. pose proof (crit_Re m n A x H (fun j => Cmul Ci (h j))) as R2.
  assert (E1 : ipC m (mvC n A x) (mvC n A (fun j => Cmul Ci (h j))) = Cmul Ci (ipC m (mvC n A x) (mvC n A h))).
  { etransitivity; [|apply (ip_scale_r (SC := C_scalar))]. apply (ip_ext (SC := C_scalar)); [reflexivity|]. intros i _. apply (mv_scale (SC := C_scalar)). }
  rewrite E1 in R2. replace (ipC n x (fun j => Cmul Ci (h j))) with (Cmul Ci (ipC n x h)) in R2 by (symmetry; apply (ip_scale_r (SC := C_scalar))).
  destruct (ipC m (mvC n A x) (mvC n A h)) as [p q], (ipC n x h) as [p' q']. cbn in *. apply C_eq; cbn; lra.
Qed.

(** ** the maximum exists *)
Lemma csum_bound : forall (l : list nat) (z : nat -> C), exists c, 0 <= c /\ forall w, Cnorm2 (bigsum (SC := C_scalar) l (fun j => Cmul (z j) (w j))) <= c * rsum l (fun j => Cnorm2 (w j)).
Proof.
  intros l z. induction l as [|a l (c & Hc & IH)].
  - exists 0. split; [lra|]. intros w. cbn. unfold Cnorm2. cbn. lra.
  - exists (2 * (Cnorm2 (z a) + c)). pose proof (Cnorm2_nonneg (z a)). split; [lra|]. intros w. specialize (IH w). cbn [rsum].
    rewrite bigsum_cons. set (tl := bigsum (SC := C_scalar) l (fun j => Cmul (z j) (w j))) in *.
    assert (G : forall a b : C, Cnorm2 (Cadd a b) <= 2 * Cnorm2 a + 2 * Cnorm2 b).
    { intros [p q] [r s]. unfold Cnorm2. cbn. pose proof (Rle_0_sqr (p - r)). pose proof (Rle_0_sqr (q - s)). unfold Rsqr in *. nra. }
    eapply Rle_trans; [apply G|].
    assert (E : Cnorm2 (Cmul (z a) (w a)) = Cnorm2 (z a) * Cnorm2 (w a)) by (destruct (z a), (w a); unfold Cnorm2; cbn; ring).
    rewrite E. pose proof (Cnorm2_nonneg (w a)). assert (0 <= rsum l (fun j => Cnorm2 (w j))).
    { rewrite <- (rsum_0 _ l). apply rsum_le. intros. apply Cnorm2_nonneg. }
    nra.
Qed.
Lemma mv_bound : forall m n A, exists c, 0 <= c /\ forall x, nrm m (mvC n A x) <= c * nrm n x.
Proof.
  intros m n A. unfold nrm at 1. induction (seq 0 m) as [|i l (c & Hc & IH)].
  - exists 0. split; [lra|]. intros. cbn. lra.
  - destruct (csum_bound (seq 0 n) (A i)) as (c' & Hc' & H'). exists (c' + c). split; [lra|]. intros x. cbn [rsum]. specialize (H' x). specialize (IH x).
    unfold mv at 1. change (bigsum (seq 0 n) (fun j => (A i j * x j)%k)) with (bigsum (SC := C_scalar) (seq 0 n) (fun j => Cmul (A i j) (x j))).
    unfold nrm in *. lra.
Qed.

(** vectors as lists of real coordinates *)
Definition vec_of (x : list R) : vec := fun j => (nth (2 * j) x 0, nth (2 * j + 1) x 0).
Fixpoint flatten (n : nat) (f : vec) : list R := match n with O => [] | S n' => flatten n' f ++ [Re (f n'); Im (f n')] end.
Lemma flatten_length : forall n f, length (flatten n f) = (2 * n)%nat.
Proof. induction n as [|n IH]; intros; [reflexivity|]. cbn [flatten]. rewrite app_length, IH. cbn. lia. Qed.
Lemma flatten_vec : forall n f j, (j < n)%nat -> vec_of (flatten n f) j = f j.
Proof.
  induction n as [|n IH]; intros f j H; [lia|]. unfold vec_of. cbn [flatten]. pose proof (flatten_length n f) as L.
  destruct (Nat.eq_dec j n) as [->|Ne].
  - rewrite !app_nth2 by lia. rewrite L. replace (2 * n - 2 * n)%nat with 0%nat by lia. replace (2 * n + 1 - 2 * n)%nat with 1%nat by lia. now destruct (f n).
  - rewrite !app_nth1 by lia. apply (IH f j). lia.
Qed.
Lemma flatten_box : forall n f B, 0 <= B -> (forall j, (j < n)%nat -> Cnorm2 (f j) <= B * B) -> box B (2 * n) (flatten n f).
Proof.
  intros n f B HB H. split; [apply flatten_length|]. induction n as [|n IH]; cbn [flatten]; [constructor|]. apply Forall_app. split; [apply IH; intros; apply H; lia|].
  specialize (H n ltac:(lia)). unfold Cnorm2 in H. destruct (f n) as [p q]. cbn in *.
  constructor; [split; nra|]. constructor; [split; nra|]. constructor.
Qed.

Lemma nice_Re_mv : forall B N n (a : vec), 0 <= B -> nice B N (fun x => Re (bigsum (SC := C_scalar) (seq 0 n) (fun j => Cmul (a j) (vec_of x j)))).
Proof.
  intros B N n a HB. eapply nice_ext; [intros x; symmetry; apply Re_bigsum_rsum|]. apply nice_rsum. intros j _. unfold vec_of. cbn.
  apply nice_sub; apply nice_mul; auto using nice_const, nice_nth.
Qed.
Lemma nice_Im_mv : forall B N n (a : vec), 0 <= B -> nice B N (fun x => Im (bigsum (SC := C_scalar) (seq 0 n) (fun j => Cmul (a j) (vec_of x j)))).
Proof.
  intros B N n a HB. eapply nice_ext; [intros x; symmetry; apply Im_bigsum_rsum|]. apply nice_rsum. intros j _. unfold vec_of. cbn.
  apply nice_add; apply nice_mul; auto using nice_const, nice_nth.
Qed.
Lemma nice_goal : forall B N m n A, 0 <= B -> nice B N (fun x => goal m n A (vec_of x)).
Proof.
  intros B N m n A HB. unfold goal.
  assert (X : nice B N (fun x => nrm n (vec_of x))).
  { unfold nrm. apply nice_rsum. intros i _. unfold Cnorm2, vec_of. cbn. apply nice_add; apply nice_mul; auto using nice_nth. }
  apply nice_sub; [|now apply nice_mul]. apply nice_mul; [apply nice_const|]. unfold nrm. apply nice_rsum. intros i _. unfold Cnorm2, mv.
  apply nice_add; apply nice_mul; (exact (nice_Re_mv B N n (A i) HB) || exact (nice_Im_mv B N n (A i) HB)).
Qed.

Lemma goal_ext : forall m n A x y, (forall i, (i < n)%nat -> x i = y i) -> goal m n A x = goal m n A y.
Proof.
  intros m n A x y H. unfold goal. rewrite (nrm_ext n x y H). rewrite (nrm_ext m (mvC n A x) (mvC n A y)); [reflexivity|].
  intros i _. unfold mv. apply (bigsum_ext (SC := C_scalar)). intros j Hj. apply in_seq in Hj. now rewrite H by lia.
Qed.
Lemma goal_0 : forall m n A, goal m n A (fun _ => RtoC 0) = 0.
Proof.
  intros m n A. unfold goal. assert (Z : forall k f, (forall i, f i = RtoC 0) -> nrm k f = 0).
  { intros k f Hf. unfold nrm. erewrite rsum_ext; [apply rsum_0|]. intros i _. rewrite Hf. unfold Cnorm2. cbn. ring. }
  rewrite !Z; [ring|reflexivity|]. intros i. unfold mv. apply (bigsum_zero (SC := C_scalar)). intros j _. cbn. apply C_eq; cbn; ring.
Qed.

Lemma maximum : forall m n A, exists x, forall y, goal m n A y <= goal m n A x.
Proof.
  intros m n A. destruct (mv_bound m n A) as (c & Hc & HM). set (B := 1 + 2 * c). assert (HB : 1 <= B) by (unfold B; lra).
  destruct (nice_max (2 * n) B (fun x => goal m n A (vec_of x)) ltac:(lra) (nice_goal B (2 * n) m n A ltac:(lra))) as (x & Hx & Max).
  exists (vec_of x). intros y.
  assert (Z : 0 <= goal m n A (vec_of x)).
  { rewrite <- (goal_0 m n A). rewrite (goal_ext m n A (fun _ => RtoC 0) (vec_of (flatten n (fun _ => RtoC 0))))
      by (intros i Hi; symmetry; exact (flatten_vec n (fun _ => RtoC 0) i Hi)).
    apply Max. apply flatten_box; [lra|]. intros. unfold Cnorm2. cbn. nra. }
  destruct (Rle_lt_dec (nrm n y) (B * B)) as [L|L].
  - rewrite (goal_ext m n A y (vec_of (flatten n y))) by (intros i Hi; symmetry; exact (flatten_vec n y i Hi)). apply Max. apply flatten_box; [lra|].
    intros j Hj. exact (Rle_trans _ _ _ (nrm_comp n y j Hj) L).
  - eapply Rle_trans; [|exact Z]. unfold goal. specialize (HM y). pose proof (nrm_pos n y). assert (2 * c <= nrm n y) by (unfold B in *; nra). nra.
Qed.

Lemma eigen : forall m n A, ~ (forall i j, (i < m)%nat -> (j < n)%nat -> A i j = RtoC 0) ->
  exists x, 0 < nrm n x /\ forall h, ipC m (mvC n A x) (mvC n A h) = Cmul (RtoC (nrm n x)) (ipC n x h).
Proof.
  intros m n A HA. destruct (maximum m n A) as (x & Hx). exists x. split; [|now apply crit].
  destruct (nrm_pos n x) as [P|Z]; [exact P|]. exfalso. apply HA. intros i j Hi Hj.
  symmetry in Z. assert (G : goal m n A x = 0).
  { rewrite (goal_ext m n A x (fun _ => RtoC 0)); [apply goal_0|]. intros k Hk. now apply (nrm_0 n x Z). }
  rewrite G in Hx. set (a := nrm m (mvC n A (ei (SC := C_scalar) j))). assert (Ha : a = 0).
  { pose proof (nrm_pos m (mvC n A (ei (SC := C_scalar) j))) as Pa. fold a in Pa. destruct Pa as [Pa|]; [|auto]. exfalso.
    set (t := sqrt a). assert (T : t * t = a) by (unfold t; apply sqrt_sqrt; lra).
    pose proof (Hx (fun i => Cadd (RtoC 0) (Cmul (RtoC t) (ei (SC := C_scalar) j i)))) as H. rewrite goal_line, goal_0 in H. fold a in H.
    assert (N1 : nrm n (ei (SC := C_scalar) j) = 1).
    { assert (E : RtoC (nrm n (ei (SC := C_scalar) j)) = RtoC 1); [|now injection E]. rewrite <- nrm_ip, (ip_e_r (SC := C_scalar)) by auto. unfold ei.
      rewrite Nat.eqb_refl. cbn. apply C_eq; cbn; ring. }
    assert (I1 : ipC n (fun _ => RtoC 0) (ei (SC := C_scalar) j) = RtoC 0) by (apply (ip_0_l (SC := C_scalar)); reflexivity).
    assert (I2 : ipC m (mvC n A (fun _ => RtoC 0)) (mvC n A (ei (SC := C_scalar) j)) = RtoC 0).
    { apply (ip_0_l (SC := C_scalar)). intros k _. unfold mv. apply (bigsum_zero (SC := C_scalar)). intros q _. cbn. apply C_eq; cbn; ring. }
    assert (N0 : nrm n (fun _ => RtoC 0) = 0).
    { unfold nrm. erewrite rsum_ext; [apply rsum_0|]. intros. unfold Cnorm2. cbn. ring. }
    rewrite N1, I1, I2, N0 in H. cbn in H. replace (t * t * t * t) with ((t * t) * (t * t)) in H by ring. rewrite T in H. nra. }
  rewrite <- (mv_e (SC := C_scalar) n A i j Hj). now apply (nrm_0 m (mvC n A (ei (SC := C_scalar) j)) Ha).
Qed.
