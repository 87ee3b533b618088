(** Python run-time notions used by every model file: exceptions as values,
    integer indexing of lists (negative indices count from the end), loops that may raise. *)
From Coq Require Import List ZArith Lia Bool Arith.
Import ListNotations.

(** Exception classes the modelled code can raise.  [TorchError] stands for any error raised inside a
    torch primitive (RuntimeError / IndexError chosen by torch: the class is not modelled).  [NotFinite] is not an
    exception: it stands for a result with infinite or NaN entries (a division by zero). *)
Inductive exn :=
| ValueError | IndexError | TypeError | AssertionError | AttributeError
| UnboundLocalError | KeyError | ZeroDivisionError | TorchError | NotFinite.

Inductive res (A : Type) :=
| Ok (a : A)
| Err (e : exn).
Arguments Ok {A} _.
Arguments Err {A} _.

Definition bind {A B} (m : res A) (f : A -> res B) : res B :=
  match m with Ok a => f a | Err e => Err e end.

Notation "'do' x <- e ; k" := (bind e (fun x => k))
  (at level 200, x pattern, e at level 100, k at level 200, right associativity).

(** [if c: raise e] followed by the rest *)
Definition raise_if {A} (c : bool) (e : exn) (k : res A) : res A := if c then Err e else k.

(** [assert c] followed by the rest *)
Definition assert_ {A} (c : bool) (k : res A) : res A := if c then k else Err AssertionError.

(** python index [i] on a sequence of length [n]: negative counts from the end *)
Definition py_index (n : nat) (i : Z) : res nat :=
  if (0 <=? i)%Z && (i <? Z.of_nat n)%Z then Ok (Z.to_nat i)
  else if (- Z.of_nat n <=? i)%Z && (i <? 0)%Z then Ok (Z.to_nat (i + Z.of_nat n))
  else Err IndexError.

(** [l[i]] *)
Definition py_nth {A} (l : list A) (i : Z) : res A :=
  do k <- py_index (length l) i;
  match nth_error l k with Some x => Ok x | None => Err IndexError end.

Fixpoint set_nth {A} (k : nat) (x : A) (l : list A) : list A :=
  match l, k with
  | [], _ => []
  | _ :: t, 0 => x :: t
  | y :: t, S k' => y :: set_nth k' x t
  end.

(** [l[i] = x] *)
Definition py_set {A} (l : list A) (i : Z) (x : A) : res (list A) :=
  do k <- py_index (length l) i; Ok (set_nth k x l).

(** [l.insert(i, x)]: negative [i] counts from the end, out-of-range [i] is clamped *)
Definition py_insert {A} (l : list A) (i : Z) (x : A) : list A :=
  let n := Z.of_nat (length l) in
  let j := if (i <? 0)%Z then Z.max 0 (i + n) else Z.min i n in
  firstn (Z.to_nat j) l ++ x :: skipn (Z.to_nat j) l.

(** [l.remove(x)] on integers: drops the first occurrence, ValueError if absent *)
Fixpoint py_remove (l : list Z) (x : Z) : res (list Z) :=
  match l with
  | [] => Err ValueError
  | y :: t => if (y =? x)%Z then Ok t else do t' <- py_remove t x; Ok (y :: t')
  end.

(** [l.pop(i)] discarding the result *)
Definition py_pop {A} (l : list A) (i : Z) : res (list A) :=
  do k <- py_index (length l) i; Ok (firstn k l ++ skipn (S k) l).

(** a [for] loop whose body may raise *)
Fixpoint mfold {A B} (f : A -> B -> res A) (l : list B) (a : A) : res A :=
  match l with
  | [] => Ok a
  | b :: l' => do a' <- f a b; mfold f l' a'
  end.

(** a list comprehension whose body may raise *)
Fixpoint mmap {A B} (f : A -> res B) (l : list A) : res (list B) :=
  match l with
  | [] => Ok []
  | a :: l' => do b <- f a; do bs <- mmap f l'; Ok (b :: bs)
  end.

(** [range(n)] as integers *)
Definition zrange (n : nat) : list Z := map Z.of_nat (seq 0 n).

(** [range(a,b)] *)
Definition zrange2 (a b : Z) : list Z :=
  map (fun k => (a + Z.of_nat k)%Z) (seq 0 (Z.to_nat (b - a))).

(** [range(a,b,-1)] *)
Definition zrange_down (a b : Z) : list Z :=
  map (fun k => (a - Z.of_nat k)%Z) (seq 0 (Z.to_nat (a - b))).

(** [x in l] for integers *)
Definition zmem (x : Z) (l : list Z) : bool := existsb (Z.eqb x) l.

(** [sorted(l)] for integers *)
Fixpoint zinsert (x : Z) (l : list Z) : list Z :=
  match l with
  | [] => [x]
  | y :: t => if (x <=? y)%Z then x :: y :: t else y :: zinsert x t
  end.
Definition zsort (l : list Z) : list Z := fold_right zinsert [] l.

(** [max(l)], [min(l)] of a non-empty list (ValueError on an empty one) *)
Definition py_max (l : list Z) : res Z :=
  match l with [] => Err ValueError | x :: t => Ok (fold_left Z.max t x) end.
Definition py_min (l : list Z) : res Z :=
  match l with [] => Err ValueError | x :: t => Ok (fold_left Z.min t x) end.

(** ** Facts *)

Lemma bind_Ok : forall A B (a : A) (f : A -> res B), bind (Ok a) f = f a.
Proof. reflexivity. Qed.

Lemma bind_inv : forall A B (m : res A) (f : A -> res B) b,
  bind m f = Ok b -> exists a, m = Ok a /\ f a = Ok b.
Proof. intros A B [a|e] f b H; simpl in H; [eauto|discriminate]. Qed.

Lemma py_index_nat : forall n i, i < n -> py_index n (Z.of_nat i) = Ok i.
Proof.
  intros n i H. unfold py_index.
  replace ((0 <=? Z.of_nat i)%Z) with true by (symmetry; apply Z.leb_le; lia).
  replace ((Z.of_nat i <? Z.of_nat n)%Z) with true by (symmetry; apply Z.ltb_lt; lia).
  simpl. now rewrite Nat2Z.id.
Qed.

Lemma py_index_bound : forall n i k, py_index n i = Ok k -> k < n.
Proof.
  intros n i k. unfold py_index.
  destruct ((0 <=? i)%Z && (i <? Z.of_nat n)%Z) eqn:E.
  - apply andb_true_iff in E. rewrite Z.leb_le, Z.ltb_lt in E. intros H; inversion H; lia.
  - destruct ((- Z.of_nat n <=? i)%Z && (i <? 0)%Z) eqn:E2; [|discriminate].
    apply andb_true_iff in E2. rewrite Z.leb_le, Z.ltb_lt in E2. intros H; inversion H; lia.
Qed.

Lemma py_nth_nat : forall A (l : list A) i d, i < length l ->
  py_nth l (Z.of_nat i) = Ok (nth i l d).
Proof.
  intros A l i d H. unfold py_nth. rewrite py_index_nat by exact H. simpl.
  now rewrite (nth_error_nth' l d H).
Qed.

Lemma py_set_nat : forall A (l : list A) i x, i < length l ->
  py_set l (Z.of_nat i) x = Ok (set_nth i x l).
Proof. intros A l i x H. unfold py_set. now rewrite py_index_nat by exact H. Qed.

Lemma set_nth_length : forall A k (x : A) l, length (set_nth k x l) = length l.
Proof. induction k; destruct l; simpl; auto. Qed.

Lemma nth_set_nth : forall A k (x : A) l i d, k < length l ->
  nth i (set_nth k x l) d = if i =? k then x else nth i l d.
Proof.
  induction k; destruct l; simpl; intros i d H; try lia.
  - destruct i; reflexivity.
  - destruct i; [reflexivity|]. rewrite IHk by lia. reflexivity.
Qed.

Lemma set_nth_app1 : forall A k (x : A) l1 l2, k < length l1 ->
  set_nth k x (l1 ++ l2) = set_nth k x l1 ++ l2.
Proof.
  induction k; destruct l1; simpl; intros l2 H; try lia; auto. f_equal. apply IHk; lia.
Qed.

Lemma set_nth_app2 : forall A (x : A) l1 k l2,
  set_nth (length l1 + k) x (l1 ++ l2) = l1 ++ set_nth k x l2.
Proof. induction l1; simpl; intros; auto. f_equal. apply IHl1. Qed.

Lemma set_nth_split : forall A k (x d : A) l, k < length l ->
  set_nth k x l = firstn k l ++ x :: skipn (S k) l.
Proof.
  induction k; destruct l; intros H; try (simpl in *; lia); auto.
  simpl set_nth. simpl firstn. simpl. f_equal. rewrite IHk by (auto; simpl in *; lia). reflexivity.
Qed.

Lemma set_nth_same : forall A k (d : A) l, k < length l -> set_nth k (nth k l d) l = l.
Proof. induction k; destruct l; simpl; intros; try lia; auto. f_equal. apply IHk; lia. Qed.

Lemma set_nth_set_nth : forall A k (x y : A) l, set_nth k x (set_nth k y l) = set_nth k x l.
Proof. induction k; destruct l; simpl; intros; auto. f_equal; auto. Qed.

Lemma set_nth_comm : forall A j k (x y : A) l, j <> k ->
  set_nth j x (set_nth k y l) = set_nth k y (set_nth j x l).
Proof.
  induction j; destruct k, l; simpl; intros; try congruence; auto. f_equal. apply IHj. lia.
Qed.

Lemma map_set_nth : forall A B (f : A -> B) k x l,
  map f (set_nth k x l) = set_nth k (f x) (map f l).
Proof. induction k; destruct l; simpl; intros; auto. f_equal; auto. Qed.

Lemma mfold_app : forall A B (f : A -> B -> res A) l1 l2 a,
  mfold f (l1 ++ l2) a = do a' <- mfold f l1 a; mfold f l2 a'.
Proof.
  induction l1; simpl; intros; auto. destruct (f a0 a); simpl; auto.
Qed.

Lemma mfold_ext : forall A B (f g : A -> B -> res A) l a,
  (forall a b, In b l -> f a b = g a b) -> mfold f l a = mfold g l a.
Proof.
  induction l; simpl; intros a0 H; auto.
  rewrite H by auto. destruct (g a0 a); simpl; auto.
Qed.

Lemma mfold_map : forall A B C (f : A -> C -> res A) (h : B -> C) l a,
  mfold f (map h l) a = mfold (fun a b => f a (h b)) l a.
Proof. induction l; simpl; intros; auto. destruct (f a0 (h a)); simpl; auto. Qed.

Lemma mfold_Ok : forall A B (f : A -> B -> A) l a,
  mfold (fun a b => Ok (f a b)) l a = Ok (fold_left f l a).
Proof. induction l; simpl; auto. Qed.

(** Invariant rule for loops over [seq 0 n] *)
Lemma mfold_inv : forall A B (f : A -> B -> res A) (P : nat -> A -> Prop) l a0,
  P 0 a0 ->
  (forall i a b, nth_error l i = Some b -> P i a -> exists a', f a b = Ok a' /\ P (S i) a') ->
  exists a, mfold f l a0 = Ok a /\ P (length l) a.
Proof.
  intros A B f P l. revert P.
  induction l as [|b l IH]; intros P a0 H0 Hs.
  - exists a0; auto.
  - destruct (Hs 0 a0 b eq_refl H0) as [a1 [E1 H1]].
    destruct (IH (fun i => P (S i)) a1 H1) as [a [E H]].
    + intros i a b' Hn Hp. apply (Hs (S i) a b'); auto.
    + exists a. simpl. rewrite E1. simpl. auto.
Qed.

Lemma mmap_Ok : forall A B (f : A -> B) l, mmap (fun a => Ok (f a)) l = Ok (map f l).
Proof. induction l; simpl; auto. rewrite IHl; reflexivity. Qed.

Lemma mmap_ext : forall A B (f g : A -> res B) l,
  (forall a, In a l -> f a = g a) -> mmap f l = mmap g l.
Proof.
  induction l; simpl; intros H; auto. rewrite H by auto.
  destruct (g a); simpl; auto. rewrite IHl; auto.
Qed.

Lemma mmap_Ok_ext : forall A B (f : A -> res B) (g : A -> B) l,
  (forall a, In a l -> f a = Ok (g a)) -> mmap f l = Ok (map g l).
Proof. intros. rewrite <- mmap_Ok. now apply mmap_ext. Qed.

Lemma mmap_map : forall A B C (f : B -> res C) (h : A -> B) l,
  mmap f (map h l) = mmap (fun a => f (h a)) l.
Proof. induction l; simpl; auto. destruct (f (h a)); simpl; auto. now rewrite IHl. Qed.

Lemma mmap_length : forall A B (f : A -> res B) l r, mmap f l = Ok r -> length r = length l.
Proof.
  induction l; simpl; intros r H. { inversion H; auto. }
  destruct (f a); simpl in H; [|discriminate].
  destruct (mmap f l) eqn:E; simpl in H; [|discriminate].
  inversion H; subst; simpl. now rewrite (IHl a1).
Qed.

Lemma zmem_In : forall x l, zmem x l = true <-> In x l.
Proof.
  intros x l. unfold zmem. rewrite existsb_exists. split.
  - intros [y [H1 H2]]. apply Z.eqb_eq in H2. now subst.
  - intros H. exists x. split; auto. apply Z.eqb_refl.
Qed.

Lemma zmem_false : forall x l, zmem x l = false <-> ~ In x l.
Proof.
  intros. rewrite <- zmem_In. destruct (zmem x l); split; intros; congruence.
Qed.

Lemma zrange_length : forall n, length (zrange n) = n.
Proof. intros; unfold zrange; now rewrite map_length, seq_length. Qed.

Lemma in_zrange : forall n i, In i (zrange n) <-> (0 <= i < Z.of_nat n)%Z.
Proof.
  intros n i. unfold zrange. rewrite in_map_iff. split.
  - intros [k [E H]]. apply in_seq in H. lia.
  - intros H. exists (Z.to_nat i). rewrite in_seq. lia.
Qed.

Lemma nth_map' : forall A B (f : A -> B) l k d d', k < length l ->
  nth k (map f l) d = f (nth k l d').
Proof.
  intros. rewrite (nth_indep _ d (f d')) by (now rewrite map_length). apply map_nth.
Qed.

Lemma nth_skipn' : forall A (l : list A) n k d, nth k (skipn n l) d = nth (n + k) l d.
Proof. induction l; destruct n; simpl; intros; auto. destruct k; auto. Qed.

Lemma nth_firstn' : forall A (l : list A) n k d, k < n -> nth k (firstn n l) d = nth k l d.
Proof. induction l; destruct n; simpl; intros; try lia; auto. destruct k; auto. apply IHl; lia. Qed.

Lemma NoDup_map_inj_in : forall A B (f : A -> B) l,
  (forall x y, In x l -> In y l -> f x = f y -> x = y) -> NoDup l -> NoDup (map f l).
Proof.
  induction l; simpl; intros H Hn; constructor; inversion Hn; subst.
  - intros Hi. apply in_map_iff in Hi. destruct Hi as [x [E Hx]]. apply H in E; auto. now subst.
  - apply IHl; auto.
Qed.

Lemma NoDup_app_intro : forall A (l1 l2 : list A),
  NoDup l1 -> NoDup l2 -> (forall x, In x l1 -> ~ In x l2) -> NoDup (l1 ++ l2).
Proof.
  induction l1; simpl; intros l2 H1 H2 H; auto. inversion H1; subst. constructor.
  - rewrite in_app_iff. intros [?|?]; auto. apply (H a); auto.
  - apply IHl1; auto.
Qed.

Lemma NoDup_app_l : forall A (l1 l2 : list A), NoDup (l1 ++ l2) -> NoDup l1.
Proof.
  induction l1; simpl; intros l2 H; constructor; inversion H; subst; eauto.
  intros Hi. apply H2, in_or_app; auto.
Qed.

Lemma NoDup_app_r : forall A (l1 l2 : list A), NoDup (l1 ++ l2) -> NoDup l2.
Proof. induction l1; simpl; intros l2 H; auto. inversion H; auto. Qed.
