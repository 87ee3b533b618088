(** The complex numbers over Coq's real numbers, as an instance of [Scalar].  This is the exact counterpart of
    torch's complex dtype (rounding is not modelled). *)
From Coq Require Import List ZArith QArith Qreals Reals Lra Lia Bool Ring.
From Verif Require Import PyBase Scalar.
Import ListNotations.
Local Close Scope Q_scope.
Local Open Scope R_scope.

Definition C : Type := (R * R)%type.
Definition Re (z : C) : R := fst z.
Definition Im (z : C) : R := snd z.
Definition RtoC (x : R) : C := (x, 0).
Definition Ci : C := (0, 1).
Definition Cadd (x y : C) : C := (fst x + fst y, snd x + snd y).
Definition Copp (x : C) : C := (- fst x, - snd x).
Definition Csub (x y : C) : C := (fst x - fst y, snd x - snd y).
Definition Cmul (x y : C) : C := (fst x * fst y - snd x * snd y, fst x * snd y + snd x * fst y).
Definition Cconj (x : C) : C := (fst x, - snd x).
(** squared modulus, modulus *)
Definition Cnorm2 (x : C) : R := fst x * fst x + snd x * snd x.
Definition Cabs (x : C) : R := sqrt (Cnorm2 x).
(** e^{i t} *)
Definition Cexpi (t : R) : C := (cos t, sin t).
(** [torch.abs(z) > q] *)
Definition Cabsgt (z : C) (q : Q) : bool := if Rlt_dec (Q2R q) (Cabs z) then true else false.

Lemma C_eq : forall x y : C, fst x = fst y -> snd x = snd y -> x = y.
Proof. intros [a b] [c d]; simpl; intros -> ->; reflexivity. Qed.

Lemma C_ring : ring_theory (RtoC 0) (RtoC 1) Cadd Cmul Csub Copp eq.
Proof.
  split; intros; apply C_eq; unfold RtoC, Cadd, Cmul, Csub, Copp; simpl; ring.
Qed.

Lemma Cabsgt_0 : forall q, (0 <= q)%Q -> Cabsgt (RtoC 0) q = false.
Proof.
  intros q H. unfold Cabsgt, Cabs, Cnorm2, RtoC; simpl.
  destruct Rlt_dec as [L|]; [|reflexivity].
  replace (0 * 0 + 0 * 0) with 0 in L by ring. rewrite sqrt_0 in L.
  apply Qle_Rle in H. unfold Q2R in H at 1; simpl in H. exfalso. lra.
Qed.

#[global] Instance C_scalar : Scalar.
Proof.
  refine {| K := C; k0 := RtoC 0; k1 := RtoC 1; kadd := Cadd; kmul := Cmul; ksub := Csub; kopp := Copp;
            kconj := Cconj; kabsgt := Cabsgt; k_ring := C_ring |}.
  - intros; apply C_eq; simpl; ring.
  - intros; apply C_eq; simpl; ring.
  - intros; apply C_eq; simpl; ring.
  - exact Cabsgt_0.
Defined.

(** equality of complex numbers, part by part *)
Ltac ceq := apply C_eq; cbn [K k0 k1 kadd kmul ksub kopp kconj C_scalar Cadd Cmul Csub Copp Cconj RtoC Ci Cexpi Re Im fst snd].

Lemma Cexpi_add : forall a b, Cexpi (a + b) = Cmul (Cexpi a) (Cexpi b).
Proof. intros; ceq; rewrite ?cos_plus, ?sin_plus; ring. Qed.

Lemma Cexpi_0 : Cexpi 0 = RtoC 1.
Proof. ceq; [apply cos_0|apply sin_0]. Qed.

Lemma Cexpi_conj : forall a, Cconj (Cexpi a) = Cexpi (- a).
Proof. intros; ceq; [symmetry; apply cos_neg|symmetry; apply sin_neg]. Qed.

Lemma sc1 : forall x, cos x * cos x + sin x * sin x = 1.
Proof. intros x. generalize (sin2_cos2 x); unfold Rsqr; lra. Qed.

Lemma Cnorm2_mul : forall x y, Cnorm2 (Cmul x y) = Cnorm2 x * Cnorm2 y.
Proof. intros; unfold Cnorm2, Cmul; simpl; ring. Qed.

Lemma Cnorm2_nonneg : forall x, 0 <= Cnorm2 x.
Proof. intros; unfold Cnorm2. nra. Qed.

Lemma Cnorm2_0 : forall x, Cnorm2 x = 0 <-> x = RtoC 0.
Proof.
  intros [a b]; unfold Cnorm2; simpl; split; intros H.
  - assert (a = 0) by nra. assert (b = 0) by nra. subst; reflexivity.
  - inversion H. ring.
Qed.

Lemma Cmul_conj : forall x, Cmul (Cconj x) x = RtoC (Cnorm2 x).
Proof. intros; apply C_eq; unfold Cnorm2; simpl; ring. Qed.
