(** Positivity over the complex numbers; a concrete matrix for the examples. *)
From Coq Require Import List ZArith QArith Reals Lra Lia Bool Arith Permutation Sorted.
From Verif Require Import PyBase Scalar CInst BigSum Index Tensor TensorFacts Spec SpecFacts QMath PTSpec PTFacts1 PTProofs.
Import ListNotations.
Local Close Scope Q_scope.
Local Close Scope R_scope.
Local Open Scope nat_scope.

Lemma Re_bigsum : forall A (l : list A) (f : A -> C), (forall a, In a l -> (0 <= Re (f a))%R /\ Im (f a) = 0%R) -> (0 <= Re (bigsum (SC := C_scalar) l f))%R /\ Im (bigsum (SC := C_scalar) l f) = 0%R.
Proof.
  induction l as [|a l IH]; intros f H.
  - rewrite bigsum_nil. cbn. lra.
  - rewrite bigsum_cons. destruct (H a (or_introl eq_refl)). destruct (IH f) as [I1 I2]; [intros; apply H; now right|].
    unfold Re, Im in *. cbn [kadd C_scalar Cadd fst snd]. lra.
Qed.
Lemma pt_positive : forall n t (A : @qop C_scalar) l r, is_op n t A -> partial_trace t n l = Ok r ->
  (forall v, (0 <= Re (qform n A v))%R /\ Im (qform n A v) = 0%R) ->
  exists B : @qop C_scalar, is_op (n - length l) r B /\ forall v, (0 <= Re (qform (n - length l) B v))%R /\ Im (qform (n - length l) B v) = 0%R.
Proof.
  intros n t A l r Ht E P. destruct (pt_returns n t A l r Ht E) as (ts & G & L & H). exists (ptr n ts A). rewrite <- L in *. split; auto. intros v. rewrite ptr_qform by auto.
  apply Re_bigsum. intros a _. apply P.
Qed.
(** projectors are positive *)
Lemma outer_positive : forall n (psi v : @qstate C_scalar), (0 <= Re (qform n (fun r c => Cmul (psi r) (Cconj (psi c))) v))%R /\ Im (qform n (fun r c => Cmul (psi r) (Cconj (psi c))) v) = 0%R.
Proof.
  intros n psi v. set (z := bigsum (SC := C_scalar) (bits n) (fun c => Cmul (Cconj (psi c)) (v c))).
  assert (E : qform n (fun r c => Cmul (psi r) (Cconj (psi c))) v = Cmul (Cconj z) z).
  { unfold qform. transitivity (bigsum (SC := C_scalar) (bits n) (fun r => Cmul (Cmul (Cconj (v r)) (psi r)) z)).
    - apply bigsum_ext. intros r _. unfold z. rewrite <- (bigsum_mul_l (SC := C_scalar)). apply bigsum_ext. intros c _. ceq; ring.
    - rewrite (bigsum_mul_r (SC := C_scalar)). apply (f_equal (fun w => @kmul C_scalar w z)). change (Cconj z) with (@kconj C_scalar z). unfold z. rewrite bigsum_conj. apply bigsum_ext. intros c _. ceq; ring. }
  rewrite E. unfold Cmul, Cconj, Re, Im. cbn [fst snd]. split; nra.
Qed.

Section Demo.
  Context {SC : Scalar}.
  Add Ring KR : k_ring.
  Local Open Scope k_scope.
  (** trace 1, not symmetric *)
  Definition demo_rho : qop := fun r c => if list_eq_dec Nat.eq_dec r c then (if (bval r =? 5)%nat then 1 else 0) else if (bval r <? bval c)%nat then 1 else 0.
  Lemma demo_rho_trace : kabsgt (trace_op 3 demo_rho - 1) (1 # 10000) = false.
  Proof.
    replace (trace_op 3 demo_rho - 1) with 0; [apply kabsgt_0; discriminate|]. unfold trace_op. cbn [bits map app]. rewrite !bigsum_cons, bigsum_nil. cbn. ring.
  Qed.
End Demo.
