(** Lemmas: families of operators in which an angle enters through a rotation. *)
From Coq Require Import List ZArith QArith Reals Lra Lia Bool Arith Ring Setoid Morphisms FunctionalExtensionality.
From Verif Require Import PyBase Scalar CInst BigSum Index Tensor Spec SpecFacts ExpandFacts2 GateSpec GateFacts RunSpec LayerSpec LayerFacts1 CircuitSpec.
Import ListNotations.
Local Close Scope Q_scope.
Local Close Scope R_scope.
Local Open Scope nat_scope.

Section Lin.
  Context {SC : Scalar}.
  Add Ring KR : k_ring.
  Local Open Scope k_scope.
  (** p (x A + y B) *)
  Definition comb (p x y : K) (A B : qop) : qop := scale_op p (add_op (scale_op x A) (scale_op y B)).
  Lemma mul_comb_l : forall n X p x y A B, op_eq n (mul_op n X (comb p x y A B)) (comb p x y (mul_op n X A) (mul_op n X B)).
  Proof.
    intros n X p x y A B r c _ _. unfold mul_op, comb, scale_op, add_op. rewrite <- !bigsum_mul_l, <- bigsum_add, <- bigsum_mul_l.
    apply bigsum_ext. intros. ring.
  Qed.
  Lemma mul_comb_r : forall n X p x y A B, op_eq n (mul_op n (comb p x y A B) X) (comb p x y (mul_op n A X) (mul_op n B X)).
  Proof.
    intros n X p x y A B r c _ _. unfold mul_op, comb, scale_op, add_op. rewrite <- !bigsum_mul_l, <- bigsum_add, <- bigsum_mul_l.
    apply bigsum_ext. intros. ring.
  Qed.
  Definition scomb (p x y : K) (f g : qstate) : qstate := fun b => p * (x * f b + y * g b).
  Lemma act_comb : forall n p x y A B f, st_eq n (act n (comb p x y A B) f) (scomb p x y (act n A f) (act n B f)).
  Proof.
    intros n p x y A B f b _. unfold act, comb, scomb, scale_op, add_op. rewrite <- !bigsum_mul_l, <- bigsum_add, <- bigsum_mul_l.
    apply bigsum_ext. intros. ring.
  Qed.
  Lemma act_scomb : forall n M p x y f g, st_eq n (act n M (scomb p x y f g)) (scomb p x y (act n M f) (act n M g)).
  Proof.
    intros n M p x y f g b _. unfold act, scomb. rewrite <- !bigsum_mul_l, <- bigsum_add, <- bigsum_mul_l.
    apply bigsum_ext. intros. ring.
  Qed.
  Lemma inner_scomb_r : forall n h p x y f g, inner n h (scomb p x y f g) = p * (x * inner n h f + y * inner n h g).
  Proof.
    intros. unfold inner, scomb. rewrite <- !bigsum_mul_l, <- bigsum_add, <- bigsum_mul_l. apply bigsum_ext. intros. ring.
  Qed.
  Lemma inner_scomb_l : forall n h p x y f g, inner n (scomb p x y f g) h = kconj p * (kconj x * inner n f h + kconj y * inner n g h).
  Proof.
    intros. unfold inner, scomb. rewrite <- !bigsum_mul_l, <- bigsum_add, <- bigsum_mul_l. apply bigsum_ext. intros.
    rewrite kconj_mul, kconj_add, !kconj_mul. ring.
  Qed.
  Lemma comb_proper : forall n p x y A A' B B', op_eq n A A' -> op_eq n B B' -> op_eq n (comb p x y A B) (comb p x y A' B').
  Proof. intros n p x y A A' B B' H1 H2 r c Hr Hc. unfold comb, scale_op, add_op. now rewrite H1, H2. Qed.
End Lin.


(** F(t) = ph(t) (cos(t/2) A + sin(t/2) B) *)
Definition rot_by (n : nat) (ph : R -> C) (F : R -> @qop C_scalar) : Prop :=
  exists A B, forall t, op_eq n (F t) (comb (ph t) (RtoC (cos (t / 2))) (RtoC (sin (t / 2))) A B).
Definition unit_ph (ph : R -> C) : Prop := forall t, Cmul (Cconj (ph t)) (ph t) = RtoC 1.
Definition rotary (n : nat) (F : R -> @qop C_scalar) : Prop := exists ph, unit_ph ph /\ rot_by n ph F.
Definition no_ph : R -> C := fun _ => RtoC 1.
Lemma no_ph_unit : unit_ph no_ph.
Proof. intros t. unfold no_ph. ceq; ring. Qed.

Lemma rot_ext : forall n ph F G, (forall t, op_eq n (F t) (G t)) -> rot_by n ph F -> rot_by n ph G.
Proof. intros n ph F G H (A & B & E). exists A, B. intros t. rewrite <- (H t). apply E. Qed.
Lemma rot_mul_l : forall n ph F X, rot_by n ph F -> rot_by n ph (fun t => mul_op n X (F t)).
Proof. intros n ph F X (A & B & E). exists (mul_op n X A), (mul_op n X B). intros t. rewrite (E t). apply mul_comb_l. Qed.
Lemma rot_mul_r : forall n ph F X, rot_by n ph F -> rot_by n ph (fun t => mul_op n (F t) X).
Proof. intros n ph F X (A & B & E). exists (mul_op n A X), (mul_op n B X). intros t. rewrite (E t). apply mul_comb_r. Qed.
Lemma rot_lift : forall n ph F ws, (forall w, In w ws -> w < n) -> rot_by (length ws) ph F -> rot_by n ph (fun t => lift (F t) ws).
Proof.
  intros n ph F ws H (A & B & E). exists (lift A ws), (lift B ws). intros t. rewrite (lift_ext n ws _ _ H (E t)). intros r c _ _.
  unfold comb, scale_op, add_op, lift. destruct same_off; [reflexivity|]. cbn [kadd kmul C_scalar k0]. ceq; ring.
Qed.

(** one matrix, entry by entry *)
Lemma op2_eq : forall (A B : qop), (forall i j, i < 2 -> j < 2 -> A [i] [j] = B [i] [j]) -> op_eq 1 A B.
Proof. intros A B H r c Hr Hc. cbn in Hr, Hc. destruct Hr as [<-|[<-|[]]], Hc as [<-|[<-|[]]]; apply H; lia. Qed.
Ltac op2t := apply op2_eq; intros [|[|i]] [|[|j]] Hi Hj; try lia; unfold comb, scale_op, add_op; cbn [op2]; ceq; try ring.

Definition I2 : @qop C_scalar := op2 (RtoC 1) (RtoC 0) (RtoC 0) (RtoC 1).
Lemma I2_id : op_eq 1 I2 id_op.
Proof. apply op2_eq. intros [|[|i]] [|[|j]] Hi Hj; try lia; reflexivity. Qed.
Lemma rot_rx : rot_by 1 no_ph rx_op.
Proof.
  exists I2, (scale_op (SC:=C_scalar) (Copp Ci) X_op). intros t. unfold rx_op, no_ph, X_op, I2. op2t.
Qed.
Lemma rot_ry : rot_by 1 no_ph ry_op.
Proof. exists I2, (scale_op (SC:=C_scalar) (Copp Ci) Y_op). intros t. unfold ry_op, no_ph, Y_op, I2. op2t. Qed.
Lemma rot_rz : rot_by 1 no_ph rz_op.
Proof. exists I2, (scale_op (SC:=C_scalar) (Copp Ci) Z_op). intros t. unfold rz_op, no_ph, Z_op, I2. op2t; rewrite ?cos_neg, ?sin_neg; ring. Qed.
Definition half_ph : R -> C := fun t => Cexpi (t / 2).
Lemma half_ph_unit : unit_ph half_ph.
Proof. intros t. unfold half_ph. ceq; [|ring]. pose proof (sin2_cos2 (t / 2)) as H. unfold Rsqr in H. lra. Qed.
Lemma half_double : forall t, Cexpi t = Cmul (Cexpi (t / 2)) (Cexpi (t / 2)).
Proof. intros. rewrite <- Cexpi_add. f_equal. lra. Qed.
Lemma u1_comb : forall t, op_eq 1 (u1_op t) (comb (half_ph t) (RtoC (cos (t / 2))) (RtoC (sin (t / 2))) id_op (scale_op (SC:=C_scalar) (Copp Ci) Z_op)).
Proof.
  intros t. rewrite <- (comb_proper 1 _ _ _ _ _ _ _ I2_id (reflexivity _)). unfold u1_op, half_ph, Z_op, I2. rewrite half_double.
  pose proof (sin2_cos2 (t / 2)) as H. unfold Rsqr in H. op2t; lra.
Qed.
Lemma rot_u1 : rot_by 1 half_ph u1_op.
Proof. exists id_op, (scale_op (SC:=C_scalar) (Copp Ci) Z_op). exact u1_comb. Qed.
Lemma rot_u3_0 : forall p l, rot_by 1 no_ph (fun t => u3_op t p l).
Proof.
  intros p l. exists (op2 (SC:=C_scalar) (Cexpi (- ((p + l) / 2))) (RtoC 0) (RtoC 0) (Cexpi ((p + l) / 2))),
    (op2 (SC:=C_scalar) (RtoC 0) (Copp (Cexpi (- ((p - l) / 2)))) (Cexpi ((p - l) / 2)) (RtoC 0)).
  intros t. unfold u3_op, no_ph. op2t.
Qed.
Lemma expi_sum : forall a b c, a = (b + c)%R -> Cexpi a = Cmul (Cexpi b) (Cexpi c).
Proof. intros a b c ->. apply Cexpi_add. Qed.
Lemma rot_u3_1 : forall t l, rot_by 1 no_ph (fun p => u3_op t p l).
Proof.
  intros t l.
  exists (op2 (SC:=C_scalar) (Cmul (Cexpi (- (l / 2))) (RtoC (cos (t / 2)))) (Copp (Cmul (Cexpi (l / 2)) (RtoC (sin (t / 2)))))
              (Cmul (Cexpi (- (l / 2))) (RtoC (sin (t / 2)))) (Cmul (Cexpi (l / 2)) (RtoC (cos (t / 2))))),
    (op2 (SC:=C_scalar) (Cmul (Copp Ci) (Cmul (Cexpi (- (l / 2))) (RtoC (cos (t / 2))))) (Cmul Ci (Cmul (Cexpi (l / 2)) (RtoC (sin (t / 2)))))
         (Cmul Ci (Cmul (Cexpi (- (l / 2))) (RtoC (sin (t / 2))))) (Cmul Ci (Cmul (Cexpi (l / 2)) (RtoC (cos (t / 2)))))).
  intros p. unfold u3_op, no_ph.
  rewrite (expi_sum (- ((p + l) / 2)) (- (p / 2)) (- (l / 2))) by lra. rewrite (expi_sum (- ((p - l) / 2)) (- (p / 2)) (l / 2)) by lra.
  rewrite (expi_sum ((p - l) / 2) (p / 2) (- (l / 2))) by lra. rewrite (expi_sum ((p + l) / 2) (p / 2) (l / 2)) by lra.
  op2t; rewrite ?cos_neg, ?sin_neg; ring.
Qed.
Lemma rot_u3_2 : forall t p, rot_by 1 no_ph (fun l => u3_op t p l).
Proof.
  intros t p.
  exists (op2 (SC:=C_scalar) (Cmul (Cexpi (- (p / 2))) (RtoC (cos (t / 2)))) (Copp (Cmul (Cexpi (- (p / 2))) (RtoC (sin (t / 2)))))
              (Cmul (Cexpi (p / 2)) (RtoC (sin (t / 2)))) (Cmul (Cexpi (p / 2)) (RtoC (cos (t / 2))))),
    (op2 (SC:=C_scalar) (Cmul (Copp Ci) (Cmul (Cexpi (- (p / 2))) (RtoC (cos (t / 2))))) (Cmul (Copp Ci) (Cmul (Cexpi (- (p / 2))) (RtoC (sin (t / 2)))))
         (Cmul (Copp Ci) (Cmul (Cexpi (p / 2)) (RtoC (sin (t / 2))))) (Cmul Ci (Cmul (Cexpi (p / 2)) (RtoC (cos (t / 2)))))).
  intros l. unfold u3_op, no_ph.
  rewrite (expi_sum (- ((p + l) / 2)) (- (p / 2)) (- (l / 2))) by lra. rewrite (expi_sum (- ((p - l) / 2)) (- (p / 2)) (l / 2)) by lra.
  rewrite (expi_sum ((p - l) / 2) (p / 2) (- (l / 2))) by lra. rewrite (expi_sum ((p + l) / 2) (p / 2) (l / 2)) by lra.
  op2t; rewrite ?cos_neg, ?sin_neg; ring.
Qed.
Lemma rot_rpp : forall P n a b, rot_by n no_ph (fun t => rpp_op P n t a b).
Proof.
  intros P n a b. exists id_op, (scale_op (SC:=C_scalar) (Copp Ci) (mul_op n (lift P [a]) (lift P [b]))). intros t r c _ _.
  unfold rpp_op, comb, add_op, scale_op, no_ph. ceq; ring.
Qed.
Lemma rot_cphase : forall n c w, w < n -> rot_by n half_ph (fun t => ctrl [c] (lift (u1_op t) [w])).
Proof.
  intros n c w Hw. exists id_op, (fun r s => if all_one [c] s then lift (scale_op (SC:=C_scalar) (Copp Ci) Z_op) [w] r s else Cmul (Copp Ci) (id_op (SC:=C_scalar) r s)). intros t r s Hr Hs.
  unfold ctrl. assert (G : good_wires n [w]) by (split; [repeat constructor; auto|intros v [<-|[]]; exact Hw]).
  pose proof (lift_id n [w] G r s Hr Hs) as L. pose proof (lift_ext n [w] _ _ (proj2 G) (u1_comb t) r s Hr Hs) as E.
  unfold comb, add_op, scale_op. destruct (all_one [c] s).
  - rewrite E, <- L. unfold lift, comb, add_op, scale_op. destruct same_off; [reflexivity|]. ceq; ring.
  - unfold half_ph. pose proof (sin2_cos2 (t / 2)) as H. unfold Rsqr in H.
    generalize (id_op (SC:=C_scalar) r s). intros z. ceq.
    + transitivity ((sin (t / 2) * sin (t / 2) + cos (t / 2) * cos (t / 2)) * fst z)%R; [rewrite H|]; ring.
    + transitivity ((sin (t / 2) * sin (t / 2) + cos (t / 2) * cos (t / 2)) * snd z)%R; [rewrite H|]; ring.
Qed.

(** * the expectation along such a family *)
Lemma trig_expect : forall n F psi M, rotary n F -> exists al be ga, forall t,
  Re (inner n (act n (F t) psi) (act n M (act n (F t) psi))) = (al + be * cos t + ga * sin t)%R.
Proof.
  intros n F psi M (ph & Hp & A & B & E). set (a := act n A psi). set (b := act n B psi).
  set (aa := Re (inner n a (act n M a))). set (bb := Re (inner n b (act n M b))). set (ab := (Re (inner n a (act n M b)) + Re (inner n b (act n M a)))%R).
  exists ((aa + bb) / 2)%R, ((aa - bb) / 2)%R, (ab / 2)%R. intros t.
  assert (S : st_eq n (act n (F t) psi) (scomb (ph t) (RtoC (cos (t / 2))) (RtoC (sin (t / 2))) a b)).
  { rewrite (E t). apply act_comb. }
  rewrite S, act_scomb, inner_scomb_l, !inner_scomb_r.
  assert (C : cos t = (cos (t / 2) * cos (t / 2) - sin (t / 2) * sin (t / 2))%R) by (replace t with (2 * (t / 2))%R at 1 by lra; apply cos_2a).
  assert (D : sin t = (2 * sin (t / 2) * cos (t / 2))%R) by (replace t with (2 * (t / 2))%R at 1 by lra; apply sin_2a).
  pose proof (sin2_cos2 (t / 2)) as H. unfold Rsqr in H. rewrite C, D. subst aa bb ab. specialize (Hp t). cbn [C_scalar kconj kmul kadd] in *.
  generalize dependent (ph t). intros p Hp.
  generalize (inner n a (act n M a)) (inner n b (act n M b)) (inner n a (act n M b)) (inner n b (act n M a)). intros u v w z.
  set (c := cos (t / 2)) in *. set (s := sin (t / 2)) in *.
  transitivity (Re (Cmul (Cmul (Cconj p) p) (Cadd (Cadd (Cmul (RtoC (c * c)) u) (Cmul (RtoC (s * s)) v)) (Cmul (RtoC (c * s)) (Cadd w z))))).
  - f_equal. ceq; ring.
  - rewrite Hp. cbn [Cmul Cadd RtoC Re fst snd]. assert (K : (s * s = 1 - c * c)%R) by lra. rewrite K. unfold Re. field.
Qed.
Lemma shift_rule : forall (E : R -> R) al be ga x, (forall t, E t = al + be * cos t + ga * sin t)%R ->
  derivable_pt_lim E x (/ 2 * (E (x + / 2 * PI) - E (x - / 2 * PI)))%R.
Proof.
  intros E al be ga x H. assert (X : E = fun t => (al + be * cos t + ga * sin t)%R) by (extensionality t; apply H). rewrite X. clear.
  replace (/ 2 * PI)%R with (PI / 2)%R by lra. rewrite !cos_plus, !sin_plus, !cos_minus, !sin_minus, cos_PI2, sin_PI2.
  replace (/ 2 * _)%R with ((0 + be * - sin x) + ga * cos x)%R by lra.
  apply (derivable_pt_lim_plus (fun t => al + be * cos t)%R (fun t => ga * sin t)%R).
  - apply (derivable_pt_lim_plus (fun _ => al) (fun t => be * cos t)%R); [apply derivable_pt_lim_const|].
    apply (derivable_pt_lim_scal cos be), derivable_pt_lim_cos.
  - apply (derivable_pt_lim_scal sin ga), derivable_pt_lim_sin.
Qed.
