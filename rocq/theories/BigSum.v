(** Finite sums and products over lists. *)
From Coq Require Import List ZArith Lia Bool Arith Ring Permutation.
From Verif Require Import PyBase Scalar.
Import ListNotations.

Section BigSum.
  Context {SC : Scalar}.
  Add Ring KR : k_ring.
  Local Open Scope k_scope.

  (** sum of [f] over the list *)
  Definition bigsum {A} (l : list A) (f : A -> K) : K := fold_right (fun a s => f a + s) 0 l.
  (** product of [f] over the list *)
  Definition bigprod {A} (l : list A) (f : A -> K) : K := fold_right (fun a s => f a * s) 1 l.

  Lemma bigsum_nil : forall A (f : A -> K), bigsum [] f = 0.
  Proof. reflexivity. Qed.
  Lemma bigsum_cons : forall A (a : A) l f, bigsum (a :: l) f = f a + bigsum l f.
  Proof. reflexivity. Qed.
  Lemma bigprod_nil : forall A (f : A -> K), bigprod [] f = 1.
  Proof. reflexivity. Qed.
  Lemma bigprod_cons : forall A (a : A) l f, bigprod (a :: l) f = f a * bigprod l f.
  Proof. reflexivity. Qed.

  Lemma bigsum_app : forall A (l1 l2 : list A) f, bigsum (l1 ++ l2) f = bigsum l1 f + bigsum l2 f.
  Proof. induction l1; intros; simpl app; rewrite ?bigsum_cons, ?IHl1; [rewrite bigsum_nil|]; ring. Qed.
  Lemma bigprod_app : forall A (l1 l2 : list A) f, bigprod (l1 ++ l2) f = bigprod l1 f * bigprod l2 f.
  Proof. induction l1; intros; simpl app; rewrite ?bigprod_cons, ?IHl1; [rewrite bigprod_nil|]; ring. Qed.

  Lemma bigsum_map : forall A B (h : A -> B) l f, bigsum (map h l) f = bigsum l (fun a => f (h a)).
  Proof. induction l; intros; auto. simpl map. now rewrite !bigsum_cons, IHl. Qed.
  Lemma bigprod_map : forall A B (h : A -> B) l f, bigprod (map h l) f = bigprod l (fun a => f (h a)).
  Proof. induction l; intros; auto. simpl map. now rewrite !bigprod_cons, IHl. Qed.

  Lemma bigsum_flat_map : forall A B (h : A -> list B) l f,
    bigsum (flat_map h l) f = bigsum l (fun a => bigsum (h a) f).
  Proof. induction l; intros; auto. simpl flat_map. now rewrite bigsum_app, IHl, bigsum_cons. Qed.

  Lemma bigsum_ext : forall A (l : list A) f g, (forall a, In a l -> f a = g a) -> bigsum l f = bigsum l g.
  Proof. induction l; intros; auto. rewrite !bigsum_cons, (H a), (IHl f g); simpl; auto. intros; apply H; simpl; auto. Qed.
  Lemma bigprod_ext : forall A (l : list A) f g, (forall a, In a l -> f a = g a) -> bigprod l f = bigprod l g.
  Proof. induction l; intros; auto. rewrite !bigprod_cons, (H a), (IHl f g); simpl; auto. intros; apply H; simpl; auto. Qed.

  Lemma bigsum_0 : forall A (l : list A), bigsum l (fun _ => 0) = 0.
  Proof. induction l; auto. rewrite bigsum_cons, IHl. ring. Qed.
  Lemma bigsum_zero : forall A (l : list A) f, (forall a, In a l -> f a = 0) -> bigsum l f = 0.
  Proof. intros. rewrite (bigsum_ext _ l f (fun _ => 0)) by auto. apply bigsum_0. Qed.
  Lemma bigprod_1 : forall A (l : list A), bigprod l (fun _ => 1) = 1.
  Proof. induction l; auto. rewrite bigprod_cons, IHl. ring. Qed.

  Lemma bigsum_add : forall A (l : list A) f g, bigsum l (fun a => f a + g a) = bigsum l f + bigsum l g.
  Proof. induction l; intros; rewrite ?bigsum_cons, ?IHl; [rewrite !bigsum_nil|]; ring. Qed.
  Lemma bigsum_sub : forall A (l : list A) f g, bigsum l (fun a => f a - g a) = bigsum l f - bigsum l g.
  Proof. induction l; intros; rewrite ?bigsum_cons, ?IHl; [rewrite !bigsum_nil|]; ring. Qed.
  Lemma bigsum_opp : forall A (l : list A) f, bigsum l (fun a => - f a) = - bigsum l f.
  Proof. induction l; intros; rewrite ?bigsum_cons, ?IHl; [rewrite !bigsum_nil|]; ring. Qed.
  Lemma bigprod_mul : forall A (l : list A) f g, bigprod l (fun a => f a * g a) = bigprod l f * bigprod l g.
  Proof. induction l; intros; rewrite ?bigprod_cons, ?IHl; [rewrite !bigprod_nil|]; ring. Qed.

  Lemma bigsum_mul_l : forall A (l : list A) c f, bigsum l (fun a => c * f a) = c * bigsum l f.
  Proof. induction l; intros; rewrite ?bigsum_cons, ?IHl; [rewrite !bigsum_nil|]; ring. Qed.
  Lemma bigsum_mul_r : forall A (l : list A) c f, bigsum l (fun a => f a * c) = bigsum l f * c.
  Proof. induction l; intros; rewrite ?bigsum_cons, ?IHl; [rewrite !bigsum_nil|]; ring. Qed.

  Lemma bigsum_swap : forall A B (l1 : list A) (l2 : list B) f,
    bigsum l1 (fun a => bigsum l2 (fun b => f a b)) = bigsum l2 (fun b => bigsum l1 (fun a => f a b)).
  Proof.
    induction l1; intros. { now rewrite bigsum_nil, bigsum_zero. }
    rewrite bigsum_cons, IHl1, <- bigsum_add. reflexivity.
  Qed.

  Lemma bigsum_perm : forall A (l1 l2 : list A) f, Permutation l1 l2 -> bigsum l1 f = bigsum l2 f.
  Proof.
    intros A l1 l2 f H. induction H; auto.
    - now rewrite !bigsum_cons, IHPermutation.
    - rewrite !bigsum_cons. ring.
    - congruence.
  Qed.
  Lemma bigprod_perm : forall A (l1 l2 : list A) f, Permutation l1 l2 -> bigprod l1 f = bigprod l2 f.
  Proof.
    intros A l1 l2 f H. induction H; auto.
    - now rewrite !bigprod_cons, IHPermutation.
    - rewrite !bigprod_cons. ring.
    - congruence.
  Qed.

  Lemma bigsum_filter : forall A (l : list A) (p : A -> bool) f,
    bigsum (filter p l) f = bigsum l (fun a => if p a then f a else 0).
  Proof.
    induction l; intros; auto. simpl filter. rewrite bigsum_cons, <- IHl.
    destruct (p a); rewrite ?bigsum_cons; ring.
  Qed.

  Lemma bigsum_single : forall A (l : list A) a f, NoDup l -> In a l ->
    (forall x, In x l -> x <> a -> f x = 0) -> bigsum l f = f a.
  Proof.
    induction l; intros b f Hn Hi H. { destruct Hi. }
    rewrite bigsum_cons. inversion Hn; subst. destruct Hi as [->|Hi].
    - rewrite bigsum_zero; [ring|]. intros x Hx. apply H; simpl; auto. intros ->; auto.
    - rewrite (IHl b f); auto. { rewrite (H a); simpl; auto; [ring|]. intros ->; auto. }
      intros; apply H; simpl; auto.
  Qed.

  Lemma bigsum_delta : forall A (l : list A) a (p : A -> bool) f, NoDup l -> In a l ->
    (forall x, In x l -> (p x = true <-> x = a)) ->
    bigsum l (fun x => if p x then f x else 0) = f a.
  Proof.
    intros A l a p f Hn Hi H. rewrite (bigsum_single A l a); auto.
    - destruct (p a) eqn:E; auto. exfalso. assert (p a = true) by (apply H; auto). congruence.
    - intros x Hx Hne. destruct (p x) eqn:E; auto. exfalso. apply Hne, H; auto.
  Qed.

  Lemma bigsum_conj : forall A (l : list A) f, kconj (bigsum l f) = bigsum l (fun a => kconj (f a)).
  Proof. induction l; intros. { apply kconj_0. } now rewrite !bigsum_cons, kconj_add, IHl. Qed.
  Lemma bigprod_conj : forall A (l : list A) f, kconj (bigprod l f) = bigprod l (fun a => kconj (f a)).
  Proof. induction l; intros. { apply kconj_1. } now rewrite !bigprod_cons, kconj_mul, IHl. Qed.

  Lemma bigprod_zero : forall A (l : list A) f a, In a l -> f a = 0 -> bigprod l f = 0.
  Proof.
    induction l; intros f b Hi H. { destruct Hi. }
    rewrite bigprod_cons. destruct Hi as [->|Hi]; [rewrite H|rewrite (IHl f b) by auto]; ring.
  Qed.

  Lemma bigsum_seq_S : forall n f, bigsum (seq 0 (S n)) f = bigsum (seq 0 n) f + f n.
  Proof. intros. rewrite seq_S, bigsum_app, bigsum_cons, bigsum_nil. simpl. ring. Qed.

  Lemma bigsum_seq_shift : forall n f, bigsum (seq 0 (S n)) f = f 0%nat + bigsum (seq 0 n) (fun i => f (S i)).
  Proof. intros. simpl seq. rewrite bigsum_cons, <- seq_shift, bigsum_map. reflexivity. Qed.

  Lemma bigsum_seq_add : forall m n f,
    bigsum (seq 0 (m + n)) f = bigsum (seq 0 m) f + bigsum (seq 0 n) (fun i => f (m + i)%nat).
  Proof.
    intros. rewrite seq_app, bigsum_app. f_equal. simpl.
    rewrite <- (map_id (seq m n)). replace m with (m + 0)%nat at 1 by lia.
    clear. revert f. assert (H : forall k, seq (m + k) n = map (fun i => (m + i)%nat) (seq k n)).
    { induction n; intros; auto. simpl. f_equal. rewrite <- IHn. f_equal. lia. }
    intros. rewrite map_id, H, bigsum_map. reflexivity.
  Qed.

  Lemma bigsum_seq_mul : forall m n f,
    bigsum (seq 0 (m * n)) f = bigsum (seq 0 m) (fun i => bigsum (seq 0 n) (fun j => f (i * n + j)%nat)).
  Proof.
    induction m; intros; auto.
    replace (S m * n)%nat with (m * n + n)%nat by lia.
    rewrite bigsum_seq_add, IHm, bigsum_seq_S. reflexivity.
  Qed.

  Lemma bigsum_seq_delta : forall n i f, (i < n)%nat ->
    bigsum (seq 0 n) (fun x => if (x =? i)%nat then f x else 0) = f i.
  Proof.
    intros. apply bigsum_delta. { apply seq_NoDup. } { apply in_seq; lia. }
    intros; apply Nat.eqb_eq.
  Qed.

  Lemma bigsum_mul_bigsum : forall A B (l1 : list A) (l2 : list B) f g,
    bigsum l1 f * bigsum l2 g = bigsum l1 (fun a => bigsum l2 (fun b => f a * g b)).
  Proof.
    intros. rewrite <- bigsum_mul_r. apply bigsum_ext; intros. now rewrite bigsum_mul_l.
  Qed.
End BigSum.
