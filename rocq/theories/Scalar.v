(** Numbers the tensors hold.  The structural code only adds, multiplies, conjugates and compares a
    modulus with a threshold, so it is modelled over any such structure.  Exact arithmetic. *)
From Coq Require Import List ZArith QArith Bool Ring.
From Verif Require Import PyBase.
Import ListNotations.

Class Scalar := {
  K : Type;
  k0 : K;
  k1 : K;
  kadd : K -> K -> K;
  kmul : K -> K -> K;
  ksub : K -> K -> K;
  kopp : K -> K;
  kconj : K -> K;
  (** [kabsgt z q]: the test [torch.abs(z) > q] *)
  kabsgt : K -> Q -> bool;
  k_ring : ring_theory k0 k1 kadd kmul ksub kopp eq;
  kconj_add : forall x y, kconj (kadd x y) = kadd (kconj x) (kconj y);
  kconj_mul : forall x y, kconj (kmul x y) = kmul (kconj x) (kconj y);
  kconj_invol : forall x, kconj (kconj x) = x;
  kabsgt_0 : forall q, (0 <= q)%Q -> kabsgt k0 q = false
}.

Declare Scope k_scope.
Delimit Scope k_scope with k.
Notation "0" := k0 : k_scope.
Notation "1" := k1 : k_scope.
Infix "+" := kadd : k_scope.
Infix "*" := kmul : k_scope.
Infix "-" := ksub : k_scope.
Notation "- x" := (kopp x) : k_scope.
Bind Scope k_scope with K.

Section ConjFacts.
  Context {SC : Scalar}.
  Add Ring KR : k_ring.
  Local Open Scope k_scope.

  Lemma kconj_0 : kconj 0 = 0.
  Proof.
    assert (H : kconj 0 + kconj 0 = kconj 0) by (rewrite <- kconj_add; f_equal; ring).
    transitivity (kconj 0 + kconj 0 - kconj 0); [ring|]. rewrite H. ring.
  Qed.

  Lemma kconj_1 : kconj 1 = 1.
  Proof.
    transitivity (kconj 1 * kconj (kconj 1)).
    - rewrite kconj_invol. ring.
    - rewrite <- kconj_mul.
      transitivity (kconj (kconj 1)); [f_equal; ring|apply kconj_invol].
  Qed.

  Lemma kconj_opp : forall x, kconj (- x) = - kconj x.
  Proof.
    intros x. assert (H : kconj (- x) + kconj x = 0).
    { rewrite <- kconj_add. transitivity (kconj 0); [f_equal; ring|apply kconj_0]. }
    transitivity (kconj (- x) + kconj x - kconj x); [ring|]. rewrite H. ring.
  Qed.

  Lemma kconj_sub : forall x y, kconj (x - y) = kconj x - kconj y.
  Proof.
    intros. transitivity (kconj (x + - y)); [f_equal; ring|].
    rewrite kconj_add, kconj_opp. ring.
  Qed.
End ConjFacts.

(** Gaussian integers: an executable instance *)
Definition GZ : Type := (Z * Z)%type.
Definition gz_absgt (z : GZ) (q : Q) : bool :=
  (* |z| > q  iff  |z|^2 > q^2, for q >= 0 *)
  let '(a, b) := z in
  negb (Qle_bool (inject_Z (a * a + b * b)%Z) (q * q)%Q).

Lemma gz_ring : ring_theory (0, 0)%Z (1, 0)%Z
  (fun x y : GZ => (fst x + fst y, snd x + snd y)%Z)
  (fun x y : GZ => (fst x * fst y - snd x * snd y, fst x * snd y + snd x * fst y)%Z)
  (fun x y : GZ => (fst x - fst y, snd x - snd y)%Z)
  (fun x : GZ => (- fst x, - snd x)%Z) eq.
Proof.
  constructor; intros; unfold GZ in *; repeat match goal with x : (Z * Z)%type |- _ => destruct x end; cbn [fst snd];
    apply f_equal2; ring.
Qed.

Lemma gz_abs0 : forall q : Q, (0 <= q)%Q -> gz_absgt (0, 0)%Z q = false.
Proof.
  intros q Hq. unfold gz_absgt. apply negb_false_iff, Qle_bool_iff. simpl.
  change (inject_Z 0) with 0%Q. apply Qmult_le_0_compat; auto.
Qed.

Definition GZ_scalar : Scalar.
Proof.
  refine {| K := GZ; k0 := (0, 0)%Z; k1 := (1, 0)%Z;
    kadd := fun x y => (fst x + fst y, snd x + snd y)%Z;
    kmul := fun x y => (fst x * fst y - snd x * snd y, fst x * snd y + snd x * fst y)%Z;
    ksub := fun x y => (fst x - fst y, snd x - snd y)%Z;
    kopp := fun x => (- fst x, - snd x)%Z;
    kconj := fun x => (fst x, - snd x)%Z;
    kabsgt := gz_absgt;
    k_ring := gz_ring;
    kabsgt_0 := gz_abs0 |};
  intros; unfold GZ in *; repeat match goal with x : (Z * Z)%type |- _ => destruct x end; cbn [fst snd]; apply f_equal2; ring.
Defined.
