(** Lemmas: a Lipschitz function on a box of R^n has a maximum; polynomials are Lipschitz there. *)
From Coq Require Import List Reals Lra Lia Arith.
From Verif Require Import MeasSpec.
Import ListNotations.
Local Open Scope R_scope.

Fixpoint dist1 (x y : list R) : R :=
  match x, y with a :: x', b :: y' => Rabs (a - b) + dist1 x' y' | _, _ => 0 end.
Definition box (B : R) (n : nat) (x : list R) : Prop := length x = n /\ Forall (fun t => - B <= t <= B) x.

Lemma dist1_nonneg : forall x y, 0 <= dist1 x y.
Proof.
  induction x as [|a x IH]; intros [|b y]; cbn [dist1]; try lra. specialize (IH y). pose proof (Rabs_pos (a - b)). lra.
Qed.
Lemma dist1_refl : forall x, dist1 x x = 0.
Proof. induction x as [|a x IH]; [reflexivity|]. cbn [dist1]. rewrite IH, Rminus_diag_eq, Rabs_R0 by reflexivity. lra. Qed.

Definition clamp (B t : R) : R := Rmax (- B) (Rmin B t).
Lemma clamp_in : forall B t, 0 <= B -> - B <= clamp B t <= B.
Proof.
  intros B t H. unfold clamp. split; [apply Rmax_l|]. apply Rmax_lub; [lra|apply Rmin_l].
Qed.
Lemma clamp_id : forall B t, - B <= t <= B -> clamp B t = t.
Proof. intros B t H. unfold clamp. rewrite Rmin_right by lra. apply Rmax_right. lra. Qed.
Lemma clamp_lip : forall B s t, Rabs (clamp B s - clamp B t) <= Rabs (s - t).
Proof.
  intros B s t. unfold clamp, Rmax, Rmin. repeat destruct Rle_dec; unfold Rabs; repeat destruct Rcase_abs; lra.
Qed.

Lemma box_cons : forall B n t x, - B <= t <= B -> box B n x -> box B (S n) (t :: x).
Proof. intros B n t x Ht [L F]. split; [cbn; now rewrite L|now constructor]. Qed.

Lemma evt : forall n B f L, 0 <= B -> 0 <= L ->
  (forall x y, box B n x -> box B n y -> Rabs (f x - f y) <= L * dist1 x y) ->
  exists x, box B n x /\ forall y, box B n y -> f y <= f x.
Proof.
  induction n as [|n IH]; intros B f L HB HL HF.
  { exists []. split; [split; [reflexivity|constructor]|]. intros y [Hy _]. destruct y; [lra|discriminate]. }
  (* maximum over the last coordinates *)
  assert (G : forall t, exists r, box B n r /\ forall y, box B n y -> f (clamp B t :: y) <= f (clamp B t :: r)).
  { intros t. apply (IH B (fun r => f (clamp B t :: r)) L HB HL). intros x y Hx Hy.
    pose proof (HF (clamp B t :: x) (clamp B t :: y)) as H. cbn [dist1] in H. rewrite (Rminus_diag_eq (clamp B t) (clamp B t)), Rabs_R0, Rplus_0_l in H by reflexivity.
    apply H; apply box_cons; auto using clamp_in. }
  set (E := fun t v => exists r, box B n r /\ v = f (clamp B t :: r)).
  assert (Bd : forall t, bound (E t)).
  { intros t. destruct (G t) as (r & Hr & M). exists (f (clamp B t :: r)). intros v (r' & Hr' & ->). now apply M. }
  assert (Ne : forall t, exists v, E t v).
  { intros t. destruct (G t) as (r & Hr & _). exists (f (clamp B t :: r)), r. auto. }
  set (F := fun t => proj1_sig (completeness (E t) (Bd t) (Ne t))).
  assert (FM : forall t, exists r, box B n r /\ F t = f (clamp B t :: r) /\ forall y, box B n y -> f (clamp B t :: y) <= F t).
  { intros t. unfold F. destruct (completeness (E t) (Bd t) (Ne t)) as [v [U1 U2]]. cbn [proj1_sig]. destruct (G t) as (r & Hr & M).
    exists r. split; [exact Hr|]. assert (v = f (clamp B t :: r)).
    { apply Rle_antisym.
      - apply U2. intros w (r' & Hr' & ->). now apply M.
      - apply U1. exists r. auto. }
    split; [exact H|]. intros y Hy. rewrite H. now apply M. }
  assert (FL1 : forall s t, F s <= F t + L * Rabs (s - t)).
  { intros s t. destruct (FM s) as (r & Hr & -> & _). destruct (FM t) as (r' & Hr' & _ & M'). specialize (M' r Hr).
    pose proof (HF (clamp B s :: r) (clamp B t :: r) ltac:(apply box_cons; auto using clamp_in) ltac:(apply box_cons; auto using clamp_in)) as H.
    cbn [dist1] in H. rewrite dist1_refl, Rplus_0_r in H. pose proof (clamp_lip B s t) as C.
    assert (L * Rabs (clamp B s - clamp B t) <= L * Rabs (s - t)) by (apply Rmult_le_compat_l; auto).
    pose proof (Rle_abs (f (clamp B s :: r) - f (clamp B t :: r))). lra. }
  assert (FC : forall c, continuity_pt F c).
  { intros c eps He. exists (eps / (L + 1)). split; [apply Rdiv_lt_0_compat; lra|]. intros x [_ Hx]. unfold dist in *. cbn in *. unfold R_dist in *.
    assert (L * Rabs (x - c) <= L * (eps / (L + 1))) by (apply Rmult_le_compat_l; lra).
    assert (L * (eps / (L + 1)) < eps).
    { replace (L * (eps / (L + 1))) with (eps - eps / (L + 1)) by (field; lra). assert (0 < eps / (L + 1)) by (apply Rdiv_lt_0_compat; lra). lra. }
    pose proof (FL1 x c). pose proof (FL1 c x) as H4. rewrite (Rabs_minus_sym c x) in H4. unfold Rabs at 1. destruct Rcase_abs; lra. }
  destruct (continuity_ab_maj F (- B) B) as (Mx & HM & HMi); [lra|intros; apply FC|].
  destruct (FM Mx) as (r & Hr & E1 & _). rewrite (clamp_id B Mx HMi) in E1.
  exists (Mx :: r). split; [now apply box_cons|]. intros y [Ly Fy]. destruct y as [|t y]; [discriminate|]. inversion Fy as [|? ? Ht Fy']; subst.
  rewrite <- E1. eapply Rle_trans; [|apply (HM t); lra]. destruct (FM t) as (_ & _ & _ & M). rewrite (clamp_id B t Ht) in M. apply M.
  split; [now injection Ly|exact Fy'].
Qed.

(** ** polynomials in the coordinates *)
Definition nice (B : R) (n : nat) (f : list R -> R) : Prop :=
  exists L M, 0 <= L /\ 0 <= M /\ (forall x, box B n x -> Rabs (f x) <= M) /\
    forall x y, box B n x -> box B n y -> Rabs (f x - f y) <= L * dist1 x y.

Lemma nice_const : forall B n c, nice B n (fun _ => c).
Proof.
  intros B n c. exists 0, (Rabs c). split; [lra|]. split; [apply Rabs_pos|]. split; [intros; lra|].
  intros. rewrite Rminus_diag_eq, Rabs_R0 by reflexivity. lra.
Qed.
Lemma nice_add : forall B n f g, nice B n f -> nice B n g -> nice B n (fun x => f x + g x).
Proof.
  intros B n f g (L & M & HL & HM & H1 & H2) (L' & M' & HL' & HM' & H1' & H2').
  exists (L + L'), (M + M'). repeat split; try lra.
  - intros x Hx. pose proof (Rabs_triang (f x) (g x)). specialize (H1 x Hx). specialize (H1' x Hx). lra.
  - intros x y Hx Hy. specialize (H2 x y Hx Hy). specialize (H2' x y Hx Hy).
    replace (f x + g x - (f y + g y)) with ((f x - f y) + (g x - g y)) by ring.
    pose proof (Rabs_triang (f x - f y) (g x - g y)). lra.
Qed.
Lemma nice_mul : forall B n f g, nice B n f -> nice B n g -> nice B n (fun x => f x * g x).
Proof.
  intros B n f g (L & M & HL & HM & H1 & H2) (L' & M' & HL' & HM' & H1' & H2').
  exists (M * L' + M' * L), (M * M').
  split; [apply Rplus_le_le_0_compat; now apply Rmult_le_pos|]. split; [now apply Rmult_le_pos|]. split.
  - intros x Hx. rewrite Rabs_mult. apply Rmult_le_compat; auto using Rabs_pos.
  - intros x y Hx Hy. replace (f x * g x - f y * g y) with (f x * (g x - g y) + g y * (f x - f y)) by ring.
    eapply Rle_trans; [apply Rabs_triang|]. rewrite !Rabs_mult, Rmult_plus_distr_r. apply Rplus_le_compat.
    + rewrite Rmult_assoc. apply Rmult_le_compat; auto using Rabs_pos.
    + rewrite Rmult_assoc. apply Rmult_le_compat; auto using Rabs_pos.
Qed.
Lemma nice_ext : forall B n f g, (forall x, f x = g x) -> nice B n f -> nice B n g.
Proof.
  intros B n f g E (L & M & HL & HM & H1 & H2). exists L, M. repeat split; auto; intros; rewrite <- !E; auto.
Qed.
Lemma nice_opp : forall B n f, nice B n f -> nice B n (fun x => - f x).
Proof. intros B n f H. apply (nice_ext B n (fun x => -1 * f x)); [intros; ring|]. apply nice_mul; auto using nice_const. Qed.
Lemma nice_sub : forall B n f g, nice B n f -> nice B n g -> nice B n (fun x => f x - g x).
Proof. intros B n f g Hf Hg. apply nice_add; auto using nice_opp. Qed.
Lemma nice_rsum : forall B n A (l : list A) (f : A -> list R -> R), (forall a, In a l -> nice B n (f a)) -> nice B n (fun x => rsum l (fun a => f a x)).
Proof.
  intros B n A l f H. induction l as [|a l IH]; cbn [rsum]; [apply nice_const|]. apply nice_add; [apply H; now left|].
  apply IH. intros; apply H. now right.
Qed.
Lemma nth_dist : forall x y i, length x = length y -> Rabs (nth i x 0 - nth i y 0) <= dist1 x y.
Proof.
  induction x as [|a x IH]; intros [|b y] i H; try discriminate; cbn [dist1].
  - destruct i; cbn; rewrite Rminus_diag_eq, Rabs_R0 by reflexivity; lra.
  - destruct i as [|i]; cbn [nth]; [pose proof (dist1_nonneg x y); lra|]. specialize (IH y i ltac:(now injection H)). pose proof (Rabs_pos (a - b)). lra.
Qed.
Lemma nice_nth : forall B n i, 0 <= B -> nice B n (fun x => nth i x 0).
Proof.
  intros B n i HB. exists 1, B. repeat split; try lra.
  - intros x [Lx Fx]. destruct (Nat.lt_ge_cases i (length x)) as [H|H].
    + rewrite Forall_forall in Fx. specialize (Fx _ (nth_In x 0 H)). unfold Rabs. destruct Rcase_abs; lra.
    + rewrite nth_overflow by exact H. rewrite Rabs_R0. exact HB.
  - intros x y [Lx _] [Ly _]. rewrite Rmult_1_l. apply nth_dist. congruence.
Qed.

Lemma nice_max : forall n B f, 0 <= B -> nice B n f -> exists x, box B n x /\ forall y, box B n y -> f y <= f x.
Proof. intros n B f HB (L & M & HL & _ & _ & H). exact (evt n B f L HB HL H). Qed.

(** a polynomial that is never positive and vanishes at 0 has no linear term *)
Lemma no_linear_pos : forall a b c d, (forall t, a * t + b * (t * t) + c * (t * t * t) + d * (t * t * t * t) <= 0) -> a <= 0.
Proof.
  intros a b c d H. destruct (Rle_lt_dec a 0) as [|Ha]; [assumption|]. exfalso.
  set (K := Rabs b + Rabs c + Rabs d + 1). pose proof (Rabs_pos b). pose proof (Rabs_pos c). pose proof (Rabs_pos d).
  assert (HK : 1 <= K) by (unfold K; lra).
  set (t := Rmin 1 (a / (2 * K))). assert (T0 : 0 < t).
  { unfold t. apply Rmin_glb_lt; [lra|]. apply Rdiv_lt_0_compat; lra. }
  assert (T1 : t <= 1) by apply Rmin_l. assert (T2 : t <= a / (2 * K)) by apply Rmin_r.
  assert (TK : t * K <= a / 2).
  { replace (a / 2) with (a / (2 * K) * K) by (field; lra). apply Rmult_le_compat_r; lra. }
  specialize (H t).
  assert (B1 : - (Rabs b * t) <= b * t). { pose proof (Rle_abs (- b)) as X. rewrite Rabs_Ropp in X. nra. }
  assert (C1 : - (Rabs c * t) <= c * (t * t)). { pose proof (Rle_abs (- c)) as X. rewrite Rabs_Ropp in X. assert (0 <= t * t <= t) by nra. nra. }
  assert (D1 : - (Rabs d * t) <= d * (t * t * t)). { pose proof (Rle_abs (- d)) as X. rewrite Rabs_Ropp in X. assert (0 <= t * t <= t) by nra. assert (0 <= t * t * t <= t) by nra. nra. }
  assert (X : a * t + b * (t * t) + c * (t * t * t) + d * (t * t * t * t) = t * (a + b * t + c * (t * t) + d * (t * t * t))) by ring.
  rewrite X in H. assert (0 < a + b * t + c * (t * t) + d * (t * t * t)) by (unfold K in TK; lra). nra.
Qed.
Lemma no_linear : forall a b c d, (forall t, a * t + b * (t * t) + c * (t * t * t) + d * (t * t * t * t) <= 0) -> a = 0.
Proof.
  intros a b c d H. apply Rle_antisym; [now apply (no_linear_pos a b c d)|].
  assert (- a <= 0); [|lra]. apply (no_linear_pos (- a) b (- c) d). intros t. specialize (H (- t)).
  replace (- a * t + b * (t * t) + - c * (t * t * t) + d * (t * t * t * t)) with (a * - t + b * (- t * - t) + c * (- t * - t * - t) + d * (- t * - t * - t * - t)) by ring. exact H.
Qed.
