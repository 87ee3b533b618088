(** Lemmas: the identities of IdentSpec.v. *)
From Coq Require Import List ZArith Reals Lra Lia Bool Arith.
From Verif Require Import PyBase Scalar CInst BigSum Tensor Spec SpecFacts ExpandFacts2 GateSpec GateFacts RunSpec IdentSpec.
Import ListNotations.
Local Close Scope R_scope.
Local Open Scope nat_scope.
Add Ring CR : C_ring.

Definition id_true (i : ident) : Prop := op_eq (id_k i) (gs_op (id_k i) (id_l i)) (scale_op (id_z i) (gs_op (id_k i) (id_r i))).

Lemma half_add : forall s t, ((s + t) / 2 = s / 2 + t / 2)%R. Proof. intros. field. Qed.
Lemma half_turn : forall t, ((t + 2 * PI) / 2 = t / 2 + PI)%R. Proof. intros. field. Qed.
Lemma half_0 : (0 / 2 = 0)%R. Proof. field. Qed.
Lemma half_neg : forall t, (- t / 2 = - (t / 2))%R. Proof. intros. field. Qed.
Lemma rh2 : Cadd (Cmul rh rh) (Cmul rh rh) = RtoC 1.
Proof.
  assert (S : (/ sqrt 2 * / sqrt 2 = / 2)%R) by (rewrite <- Rinv_mult; f_equal; apply sqrt_sqrt; lra). unfold rh. ceq; lra.
Qed.

Ltac entries := intros r c Hr Hc; cbn in Hr, Hc; repeat (destruct Hr as [<-|Hr]; [repeat (destruct Hc as [<-|Hc]; [|]); try contradiction|]); try contradiction.
Ltac ev := cbv -[Cadd Cmul Copp Csub RtoC Cexpi Ci rh cos sin Rplus Rmult Ropp Rinv Rdiv Rminus PI IZR].
Ltac start := unfold id_true; cbn [id_k id_z id_l id_r same minus]; entries; ev; match goal with |- ?l = ?r => change (@eq C l r) end.
(** rewriting in complex numbers: cos(t/2), -i sin(t/2), sin(t/2), e^{it} *)
Lemma cos_add : forall s t, RtoC (cos ((s + t) / 2)) = Cadd (Cmul (RtoC (cos (s / 2))) (RtoC (cos (t / 2)))) (Cmul (0, - sin (s / 2))%R (0, - sin (t / 2))%R).
Proof. intros. rewrite half_add. ceq; rewrite ?cos_plus; ring. Qed.
Lemma ms_add : forall s t, (0, - sin ((s + t) / 2))%R = Cadd (Cmul (RtoC (cos (s / 2))) (0, - sin (t / 2))%R) (Cmul (0, - sin (s / 2))%R (RtoC (cos (t / 2)))).
Proof. intros. rewrite half_add. ceq; rewrite ?sin_plus; ring. Qed.
Lemma sin_add : forall s t, RtoC (sin ((s + t) / 2)) = Cadd (Cmul (RtoC (cos (s / 2))) (RtoC (sin (t / 2)))) (Cmul (RtoC (sin (s / 2))) (RtoC (cos (t / 2)))).
Proof. intros. rewrite half_add. ceq; rewrite ?sin_plus; ring. Qed.
Lemma cos_add' : forall s t, RtoC (cos ((s + t) / 2)) = Csub (Cmul (RtoC (cos (s / 2))) (RtoC (cos (t / 2)))) (Cmul (RtoC (sin (s / 2))) (RtoC (sin (t / 2)))).
Proof. intros. rewrite half_add. ceq; rewrite ?cos_plus; ring. Qed.
Lemma RtoC_neg : forall x, RtoC (- x) = Copp (RtoC x). Proof. intros. ceq; ring. Qed.
Lemma RtoC_m1 : RtoC (-1) = Copp (RtoC 1). Proof. ceq; ring. Qed.
Lemma CiCi : Cmul Ci Ci = Copp (RtoC 1). Proof. ceq; ring. Qed.
Lemma exp_add : forall s t, Cexpi ((s + t) / 2) = Cmul (Cexpi (s / 2)) (Cexpi (t / 2)). Proof. intros. rewrite half_add. apply Cexpi_add. Qed.
Lemma exp_nadd : forall s t, Cexpi (- ((s + t) / 2)) = Cmul (Cexpi (- (s / 2))) (Cexpi (- (t / 2))).
Proof. intros. rewrite half_add, Ropp_plus_distr. apply Cexpi_add. Qed.
Lemma cos_turn : forall t, RtoC (cos ((t + 2 * PI) / 2)) = Copp (RtoC (cos (t / 2))). Proof. intros. rewrite half_turn, neg_cos. apply RtoC_neg. Qed.
Lemma sin_turn : forall t, RtoC (sin ((t + 2 * PI) / 2)) = Copp (RtoC (sin (t / 2))). Proof. intros. rewrite half_turn, neg_sin. apply RtoC_neg. Qed.
Lemma ms_turn : forall t, (0, - sin ((t + 2 * PI) / 2))%R = Copp (0, - sin (t / 2))%R. Proof. intros. rewrite half_turn, neg_sin. ceq; ring. Qed.
Lemma exp_turn : forall t, Cexpi (t + 2 * PI) = Cexpi t.
Proof. intros. rewrite Cexpi_add. replace (Cexpi (2 * PI)) with (RtoC 1); [ring|]. ceq; symmetry; [apply cos_2PI|apply sin_2PI]. Qed.
Lemma exp_hturn : forall t, Cexpi ((t + 2 * PI) / 2) = Copp (Cexpi (t / 2)).
Proof. intros. rewrite half_turn. ceq; [apply neg_cos|apply neg_sin]. Qed.
Lemma exp_nhturn : forall t, Cexpi (- ((t + 2 * PI) / 2)) = Copp (Cexpi (- (t / 2))).
Proof. intros. rewrite half_turn. ceq; rewrite ?cos_neg, ?sin_neg, ?neg_cos, ?neg_sin; ring. Qed.

Ltac turn := rewrite ?cos_turn, ?RtoC_neg, ?sin_turn, ?ms_turn, ?exp_hturn, ?exp_nhturn, ?exp_turn, ?RtoC_m1.
Ltac add := rewrite ?RtoC_neg, ?cos_add, ?ms_add, ?exp_add, ?exp_nadd, ?Cexpi_add.
Ltac add' := rewrite ?RtoC_neg, ?cos_add', ?sin_add.
Ltac trig := rewrite ?half_0, ?half_neg, ?Ropp_0, ?cos_neg, ?sin_neg, ?cos_0, ?sin_0, ?cos_PI2, ?sin_PI2, ?cos_PI, ?sin_PI.
Ltac real := ceq; trig; ring.
Ltac each tac := repeat (apply Forall_cons; [tac|]); apply Forall_nil.
Ltac hsolve := match goal with |- ?l = ?r => transitivity (Cmul (Cadd (Cmul rh rh) (Cmul rh rh)) r); [ring|rewrite rh2; ring] end.

Lemma sums_true : forall s t, Forall id_true (sums s t).
Proof. intros. unfold sums. each ltac:(start; first [add; ring [CiCi]|add'; ring]). Qed.
Lemma turns_true : forall t p l, Forall id_true (turns t p l).
Proof. intros. unfold turns. each ltac:(start; turn; ring). Qed.
Lemma zcos : RtoC (cos (0 / 2)) = RtoC 1. Proof. now rewrite half_0, cos_0. Qed.
Lemma zsin : RtoC (sin (0 / 2)) = RtoC 0. Proof. now rewrite half_0, sin_0. Qed.
Lemma zms : (0, - sin (0 / 2))%R = RtoC 0. Proof. rewrite half_0, sin_0. ceq; ring. Qed.
Lemma zexp : Cexpi (0 / 2) = RtoC 1. Proof. rewrite half_0. apply Cexpi_0. Qed.
Lemma znexp : Cexpi (- (0 / 2)) = RtoC 1. Proof. rewrite half_0, Ropp_0. apply Cexpi_0. Qed.
Lemma z0 : (0 + 0 = 0)%R. Proof. ring. Qed.
Lemma z1 : (0 - 0 = 0)%R. Proof. ring. Qed.
Lemma zeros_true : Forall id_true zeros.
Proof. unfold zeros. each ltac:(start; rewrite ?z0, ?z1, ?RtoC_neg, ?zcos, ?zsin, ?zms, ?zexp, ?znexp, ?Cexpi_0; ring). Qed.

Lemma hcos : RtoC (cos (PI / 2)) = RtoC 0. Proof. now rewrite cos_PI2. Qed.
Lemma hsin : RtoC (sin (PI / 2)) = RtoC 1. Proof. now rewrite sin_PI2. Qed.
Lemma hms : (0, - sin (PI / 2))%R = Copp Ci. Proof. rewrite sin_PI2. ceq; ring. Qed.
Lemma hexp : Cexpi (PI / 2) = Ci. Proof. unfold Cexpi. now rewrite cos_PI2, sin_PI2. Qed.
Lemma hnexp : Cexpi (- (PI / 2)) = Copp Ci. Proof. ceq; rewrite ?cos_neg, ?sin_neg, ?cos_PI2, ?sin_PI2; ring. Qed.
Lemma pexp : Cexpi PI = Copp (RtoC 1). Proof. ceq; rewrite ?cos_PI, ?sin_PI; ring. Qed.
Lemma halves_true : Forall id_true halves.
Proof. unfold halves. each ltac:(start; rewrite ?RtoC_neg, ?hcos, ?hsin, ?hms, ?hexp, ?hnexp, ?pexp; ring [CiCi]). Qed.
Lemma involutions_true : Forall id_true involutions.
Proof. unfold involutions. each ltac:(start; first [ring [CiCi]|hsolve]). Qed.

Lemma exp_cs : forall t, Cexpi (t / 2) = Csub (RtoC (cos (t / 2))) (0, - sin (t / 2))%R. Proof. intros. ceq; ring. Qed.
Lemma exp_ncs : forall t, Cexpi (- (t / 2)) = Cadd (RtoC (cos (t / 2))) (0, - sin (t / 2))%R.
Proof. intros. ceq; rewrite ?cos_neg, ?sin_neg; ring. Qed.
Lemma ncos : forall t, RtoC (cos (- t / 2)) = RtoC (cos (t / 2)). Proof. intros. now rewrite half_neg, cos_neg. Qed.
Lemma nsin : forall t, RtoC (sin (- t / 2)) = Copp (RtoC (sin (t / 2))). Proof. intros. rewrite half_neg, sin_neg. apply RtoC_neg. Qed.
Lemma nms : forall t, (0, - sin (- t / 2))%R = Copp (0, - sin (t / 2))%R. Proof. intros. rewrite half_neg, sin_neg. ceq; ring. Qed.
Lemma nexp : forall t, Cexpi (- t / 2) = Cexpi (- (t / 2)). Proof. intros. now rewrite half_neg. Qed.
Lemma nnexp : forall t, Cexpi (- (- t / 2)) = Cexpi (t / 2). Proof. intros. now rewrite half_neg, Ropp_involutive. Qed.
Lemma conjugations_true : forall t, Forall id_true (conjugations t).
Proof.
  intros. unfold conjugations.
  each ltac:(start; rewrite ?RtoC_neg, ?RtoC_m1, ?ncos, ?nsin, ?nms, ?nexp, ?nnexp, ?exp_cs, ?exp_ncs; first [ring [CiCi]|hsolve]).
Qed.

Lemma exp_sub : forall p l, Cexpi ((p - l) / 2) = Cmul (Cexpi (p / 2)) (Cexpi (- (l / 2))).
Proof. intros. rewrite <- Cexpi_add. f_equal. field. Qed.
Lemma exp_nsub : forall p l, Cexpi (- ((p - l) / 2)) = Cmul (Cexpi (- (p / 2))) (Cexpi (l / 2)).
Proof. intros. rewrite <- Cexpi_add. f_equal. field. Qed.
Lemma exp_half : forall t, Cexpi t = Cmul (Cexpi (t / 2)) (Cexpi (t / 2)).
Proof. intros. rewrite <- Cexpi_add. f_equal. field. Qed.
Lemma exp_inv : forall t, Cmul (Cexpi t) (Cexpi (- t)) = RtoC 1.
Proof. intros. rewrite <- Cexpi_add, Rplus_opp_r. apply Cexpi_0. Qed.
Lemma e1 : (- (PI / 2) + PI / 2 = 0)%R. Proof. ring. Qed.
Lemma e2 : ((- (PI / 2) - PI / 2) / 2 = - (PI / 2))%R. Proof. field. Qed.
Lemma e3 : forall t, ((0 + t) / 2 = t / 2)%R. Proof. intros. field. Qed.
Lemma e4 : forall t, ((0 - t) / 2 = - (t / 2))%R. Proof. intros. field. Qed.
Lemma e5 : RtoC (cos (PI / 2 / 2)) = rh. Proof. unfold rh. f_equal. replace (PI / 2 / 2)%R with (PI / 4)%R by field. rewrite cos_PI4. field. apply sqrt2_neq_0. Qed.
Lemma e6 : RtoC (sin (PI / 2 / 2)) = rh. Proof. unfold rh. f_equal. replace (PI / 2 / 2)%R with (PI / 4)%R by field. rewrite sin_PI4. field. apply sqrt2_neq_0. Qed.
Lemma ims : forall t, (0, - sin (t / 2))%R = Copp (Cmul Ci (RtoC (sin (t / 2)))). Proof. intros. ceq; ring. Qed.
Lemma euler_true : forall t p l, Forall id_true (euler t p l).
Proof.
  intros. unfold euler. each ltac:(idtac; start;
    first [rewrite ?exp_add, ?exp_nadd, ?exp_sub, ?exp_nsub, ?RtoC_neg; ring
          |rewrite ?z0, ?z1, ?e1, ?e2, ?e3, ?e4, ?RtoC_neg, ?ims, ?zcos, ?zsin, ?zexp, ?znexp, ?e5, ?e6, ?Ropp_involutive, ?hexp, ?hnexp; ring [CiCi]
          |rewrite ?z0, ?z1, ?e3, ?e4, ?zcos, ?zsin; rewrite ?(exp_half t), ?zcos, ?zsin; ring [(exp_inv (t / 2))]]).
Qed.
Lemma symmetries_true : forall t, Forall id_true (symmetries t).
Proof. intros. unfold symmetries. each ltac:(start; rewrite ?RtoC_neg; ring). Qed.
Ltac hsolve2 := match goal with |- ?l = ?r =>
  transitivity (Cmul (Cadd (Cmul rh rh) (Cmul rh rh)) (Cmul (Cadd (Cmul rh rh) (Cmul rh rh)) r)); [ring|rewrite rh2; ring] end.
Lemma decompositions_true : forall t, Forall id_true (decompositions t).
Proof. intros. unfold decompositions. each ltac:(start; rewrite ?exp_cs, ?exp_ncs; first [ring|hsolve|hsolve2]). Qed.
Lemma identities_true : forall s t p l, Forall id_true (identities s t p l).
Proof.
  intros. unfold identities. repeat (apply Forall_app; split);
    [apply sums_true|apply zeros_true|apply turns_true|apply halves_true|apply involutions_true|apply conjugations_true|apply euler_true|apply symmetries_true|apply decompositions_true].
Qed.
