(** Lemmas: sinusoids, and families of operators in which an angle enters through a controlled rotation. *)
From Coq Require Import List ZArith QArith Reals Lra Lia Bool Arith Ring Setoid Morphisms FunctionalExtensionality.
From Verif Require Import PyBase Scalar CInst BigSum Index Tensor Spec SpecFacts ExpandFacts2 GateSpec GateFacts RunSpec LayerSpec LayerFacts1 CircuitSpec CircuitProofs GradSpec GradFacts1 GradFacts2 OneAngleSpec.
Import ListNotations.
Local Close Scope Q_scope.
Local Open Scope R_scope.

(** * sinusoids *)
Lemma trig_sinusoid : forall E a b c, (forall x, E x = a + b * cos x + c * sin x) -> sinusoid E.
Proof. intros E a b c H x. unfold middle. rewrite !H, cos_0, sin_0, cos_PI, sin_PI, cos_PI2, sin_PI2. field. Qed.
Lemma polar : forall b c, exists th, b = sqrt (Rsqr b + Rsqr c) * cos th /\ c = sqrt (Rsqr b + Rsqr c) * sin th.
Proof.
  intros b c. set (r := sqrt (Rsqr b + Rsqr c)). pose proof (Rle_0_sqr b). pose proof (Rle_0_sqr c).
  assert (R2 : r * r = b * b + c * c) by (unfold r; rewrite sqrt_sqrt by lra; reflexivity). assert (P : 0 <= r) by apply sqrt_pos.
  destruct (Req_dec r 0) as [Z|Z]; [exists 0; rewrite Z in *; nra|]. assert (Q : 0 < r) by lra.
  assert (X : -1 <= b / r <= 1) by (split; [apply Rmult_le_reg_r with r; auto; field_simplify; nra|apply Rmult_le_reg_r with r; auto; field_simplify; nra]).
  assert (C : b = r * cos (acos (b / r))) by (rewrite cos_acos by exact X; field; lra).
  assert (D : Rabs c = r * sin (acos (b / r))).
  { rewrite sin_acos by exact X. rewrite <- (sqrt_Rsqr r P) at 1. rewrite <- sqrt_mult_alt by apply Rle_0_sqr. rewrite <- sqrt_Rsqr_abs. f_equal. unfold Rsqr. field_simplify; [nra|lra]. }
  unfold Rabs in D. destruct (Rcase_abs c).
  - exists (- acos (b / r)). rewrite cos_neg, sin_neg. split; [exact C|lra].
  - exists (acos (b / r)). split; [exact C|lra].
Qed.
Lemma sinusoid_polar : forall E, sinusoid E -> exists th, forall x, E x = middle E + amplitude E * cos (x - th).
Proof.
  intros E H. destruct (polar ((E 0 - E PI) / 2) (E (PI / 2) - middle E)) as (th & A & B). fold (amplitude E) in A, B. exists th. intros x.
  rewrite (H x), cos_minus, A, B. ring.
Qed.
Lemma sinusoid_least : forall E, sinusoid E -> exists x0, E x0 = middle E - amplitude E /\ forall x, E x0 <= E x.
Proof.
  intros E H. destruct (sinusoid_polar E H) as (th & P). exists (th + PI). assert (A : 0 <= amplitude E) by apply sqrt_pos.
  assert (X : E (th + PI) = middle E - amplitude E) by (rewrite P; replace (th + PI - th) with PI by ring; rewrite cos_PI; ring). split; [exact X|].
  intros x. rewrite X, P. pose proof (COS_bound (x - th)). nra.
Qed.
Lemma sinusoid_greatest : forall E, sinusoid E -> exists x0, E x0 = middle E + amplitude E /\ forall x, E x <= E x0.
Proof.
  intros E H. destruct (sinusoid_polar E H) as (th & P). exists th. assert (A : 0 <= amplitude E) by apply sqrt_pos.
  assert (X : E th = middle E + amplitude E) by (rewrite P; replace (th - th) with 0 by ring; rewrite cos_0; ring). split; [exact X|].
  intros x. rewrite X, P. pose proof (COS_bound (x - th)). nra.
Qed.
Lemma sinusoid_period : forall E x, sinusoid E -> E (x + 2 * PI) = E x.
Proof. intros E x H. rewrite (H x), (H (x + 2 * PI)). rewrite cos_plus, sin_plus, cos_2PI, sin_2PI. ring. Qed.
(** the slope: half the difference at the two shifted angles *)
Definition slope (E : R -> R) (x : R) : R := / 2 * (E (x + / 2 * PI) - E (x - / 2 * PI)).
Lemma slope_value : forall E x, sinusoid E -> slope E x = - ((E 0 - E PI) / 2) * sin x + (E (PI / 2) - middle E) * cos x.
Proof.
  intros E x H. unfold slope. rewrite (H (x + _)), (H (x - _)). replace (/ 2 * PI) with (PI / 2) by lra. rewrite !cos_plus, !sin_plus, !cos_minus, !sin_minus, cos_PI2, sin_PI2. field.
Qed.
Lemma slope_polar : forall E, sinusoid E -> exists th, forall x, slope E x = - amplitude E * sin (x - th).
Proof.
  intros E H. destruct (polar ((E 0 - E PI) / 2) (E (PI / 2) - middle E)) as (th & A & B). fold (amplitude E) in A, B. exists th. intros x.
  rewrite (slope_value E x H), sin_minus, A, B. ring.
Qed.
Lemma slope_bound : forall E x, sinusoid E -> Rabs (slope E x) <= amplitude E.
Proof.
  intros E x H. destruct (slope_polar E H) as (th & P). rewrite P. assert (A : 0 <= amplitude E) by apply sqrt_pos. pose proof (SIN_bound (x - th)). apply Rabs_le. nra.
Qed.
Lemma slope_slope : forall E x, sinusoid E -> derivable_pt_lim (slope E) x ((E (x + PI) - E x) / 2).
Proof.
  intros E x H. assert (X : slope E = fun t => 0 + (E (PI / 2) - middle E) * cos t + (- ((E 0 - E PI) / 2)) * sin t) by (extensionality t; rewrite (slope_value E t H); ring).
  pose proof (shift_rule (slope E) _ _ _ x (fun t => f_equal (fun f => f t) X)) as Y. cbv beta in Y.
  replace ((E (x + PI) - E x) / 2) with (/ 2 * (slope E (x + / 2 * PI) - slope E (x - / 2 * PI))); [exact Y|].
  rewrite !(slope_value E _ H), (H x), (H (x + PI)). replace (/ 2 * PI) with (PI / 2) by lra. rewrite !cos_plus, !sin_plus, !cos_minus, !sin_minus, cos_PI2, sin_PI2, cos_PI, sin_PI. field.
Qed.
(** equal extreme values: the slope vanishes exactly where the value does not change to first order; in particular at a least value *)
Lemma slope_at_least : forall E x0, sinusoid E -> (forall x, E x0 <= E x) -> slope E x0 = 0.
Proof.
  intros E x0 H L. destruct (sinusoid_polar E H) as (th & P). destruct (polar ((E 0 - E PI) / 2) (E (PI / 2) - middle E)) as (t2 & A & B). fold (amplitude E) in A, B.
  assert (Q : forall x, E x = middle E + amplitude E * cos (x - t2)) by (intros x; rewrite (H x), cos_minus, A, B; ring).
  assert (SL : slope E x0 = - amplitude E * sin (x0 - t2)) by (rewrite (slope_value E x0 H), sin_minus, A, B; ring).
  pose proof (L (t2 + PI)) as X. rewrite (Q x0), (Q (t2 + PI)) in X. replace (t2 + PI - t2) with PI in X by ring. rewrite cos_PI in X.
  assert (N : 0 <= amplitude E) by apply sqrt_pos. rewrite SL. pose proof (COS_bound (x0 - t2)) as Bd.
  destruct (Req_dec (amplitude E) 0) as [Z|Z]; [rewrite Z; ring|]. assert (C : cos (x0 - t2) = -1) by nra.
  pose proof (sin2_cos2 (x0 - t2)) as S. unfold Rsqr in S. rewrite C in S. assert (S0 : sin (x0 - t2) = 0) by nra. rewrite S0. ring.
Qed.

(** * sums of a sinusoid of period 4 pi and one of period 2 pi *)
Definition two_tones (E : R -> R) : Prop := exists a b c d e, forall x, E x = a + b * cos (x / 2) + c * sin (x / 2) + d * cos x + e * sin x.
Lemma sinusoid_tones : forall E, sinusoid E -> two_tones E.
Proof. intros E H. exists (middle E), 0, 0, ((E 0 - E PI) / 2), (E (PI / 2) - middle E). intros x. rewrite (H x). ring. Qed.
Lemma tones_period : forall E x, two_tones E -> E (x + 4 * PI) = E x.
Proof.
  intros E x (a & b & c & d & e & H). rewrite !H. replace ((x + 4 * PI) / 2) with (x / 2 + 2 * PI) by lra. replace (x + 4 * PI) with (x + 2 * PI + 2 * PI) by ring.
  rewrite !cos_plus, !sin_plus, cos_2PI, sin_2PI. ring.
Qed.
Lemma sin_q : sin (PI / 4) = / sqrt 2 /\ cos (PI / 4) = / sqrt 2 /\ sin (3 * (PI / 4)) = / sqrt 2 /\ cos (3 * (PI / 4)) = - / sqrt 2.
Proof.
  pose proof sin_PI4 as S. pose proof cos_PI4 as C. unfold Rdiv in S, C. rewrite Rmult_1_l in S, C. split; [exact S|]. split; [exact C|].
  replace (3 * (PI / 4)) with (PI - PI / 4) by lra. rewrite sin_minus, cos_minus, sin_PI, cos_PI. unfold Rdiv. rewrite S, C. split; ring.
Qed.
Lemma half_derivative : forall (f g : R -> R), (forall y, derivable_pt_lim f y (g y)) -> forall x, derivable_pt_lim (fun y => f (y / 2)) x (/ 2 * g (x / 2)).
Proof.
  intros f g H x. rewrite Rmult_comm. apply (derivable_pt_lim_comp (fun y => y / 2) f).
  - assert (X : derivable_pt_lim (mult_real_fct (/ 2) id) x (/ 2 * 1)) by (apply derivable_pt_lim_scal, derivable_pt_lim_id). rewrite Rmult_1_r in X.
    replace (fun y : R => y / 2) with (mult_real_fct (/ 2) id); [exact X|]. extensionality y. unfold mult_real_fct, id. field.
  - apply H.
Qed.
Lemma tones_derivative : forall E x, two_tones E -> derivable_pt_lim E x (four_term E x).
Proof.
  intros E x (a & b & c & d & e & H). assert (X : E = fun t => a + b * cos (t / 2) + c * sin (t / 2) + d * cos t + e * sin t) by (extensionality t; apply H).
  assert (F : four_term E x = ((0 + b * (/ 2 * - sin (x / 2))) + c * (/ 2 * cos (x / 2))) + d * - sin x + e * cos x).
  { unfold four_term. rewrite !H. destruct sin_q as (Q1 & Q2 & Q3 & Q4).
    replace ((x + PI / 2) / 2) with (x / 2 + PI / 4) by lra. replace ((x - PI / 2) / 2) with (x / 2 - PI / 4) by lra.
    replace ((x + 3 * (PI / 2)) / 2) with (x / 2 + 3 * (PI / 4)) by lra. replace ((x - 3 * (PI / 2)) / 2) with (x / 2 - 3 * (PI / 4)) by lra.
    rewrite !cos_plus, !sin_plus, !cos_minus, !sin_minus, cos_PI2, sin_PI2, cos_3PI2, sin_3PI2, Q1, Q2, Q3, Q4.
    assert (S : sqrt 2 * sqrt 2 = 2) by (apply sqrt_sqrt; lra). assert (N : sqrt 2 <> 0) by (intros Z; rewrite Z in S; lra).
    generalize (sin (x / 2)) (cos (x / 2)) (sin x) (cos x). intros u v w z. set (q := sqrt 2) in *. clearbody q.
    transitivity ((2 * (q + 1) - 2 * (q - 1)) / (4 * (q * q)) * (- b * u + c * v) + (2 * (q + 1) + 2 * (q - 1)) / (4 * q) * (- d * w + e * z)); [field; exact N|].
    rewrite S. field. exact N. }
  rewrite F, X. clear.
  apply (derivable_pt_lim_plus (fun t => a + b * cos (t / 2) + c * sin (t / 2) + d * cos t) (fun t => e * sin t)); [|apply (derivable_pt_lim_scal sin e), derivable_pt_lim_sin].
  apply (derivable_pt_lim_plus (fun t => a + b * cos (t / 2) + c * sin (t / 2)) (fun t => d * cos t)); [|apply (derivable_pt_lim_scal cos d), derivable_pt_lim_cos].
  apply (derivable_pt_lim_plus (fun t => a + b * cos (t / 2)) (fun t => c * sin (t / 2))).
  - apply (derivable_pt_lim_plus (fun _ => a) (fun t => b * cos (t / 2))); [apply derivable_pt_lim_const|].
    apply (derivable_pt_lim_scal (fun t => cos (t / 2)) b). apply (half_derivative cos (fun y => - sin y)). exact derivable_pt_lim_cos.
  - apply (derivable_pt_lim_scal (fun t => sin (t / 2)) c). apply (half_derivative sin cos). exact derivable_pt_lim_sin.
Qed.

(** * controlled rotations *)
Local Close Scope R_scope.
Local Open Scope nat_scope.
Section Tri.
  Context {SC : Scalar}.
  Add Ring KR : k_ring.
  Local Open Scope k_scope.
  (** A + x B + y D *)
  Definition tri (x y : K) (A B D : qop) : qop := add_op A (add_op (scale_op x B) (scale_op y D)).
  Lemma mul_tri_l : forall n X x y A B D, op_eq n (mul_op n X (tri x y A B D)) (tri x y (mul_op n X A) (mul_op n X B) (mul_op n X D)).
  Proof.
    intros n X x y A B D r c _ _. unfold mul_op, tri, scale_op, add_op. rewrite <- !bigsum_mul_l, <- !bigsum_add. apply bigsum_ext. intros. ring.
  Qed.
  Lemma mul_tri_r : forall n X x y A B D, op_eq n (mul_op n (tri x y A B D) X) (tri x y (mul_op n A X) (mul_op n B X) (mul_op n D X)).
  Proof.
    intros n X x y A B D r c _ _. unfold mul_op, tri, scale_op, add_op. rewrite <- !bigsum_mul_l, <- !bigsum_add. apply bigsum_ext. intros. ring.
  Qed.
  Definition stri (x y : K) (f g h : qstate) : qstate := fun b => f b + (x * g b + y * h b).
  Lemma act_tri : forall n x y A B D f, st_eq n (act n (tri x y A B D) f) (stri x y (act n A f) (act n B f) (act n D f)).
  Proof. intros n x y A B D f b _. unfold act, tri, stri, scale_op, add_op. rewrite <- !bigsum_mul_l, <- !bigsum_add. apply bigsum_ext. intros. ring. Qed.
  Lemma act_stri : forall n M x y f g h, st_eq n (act n M (stri x y f g h)) (stri x y (act n M f) (act n M g) (act n M h)).
  Proof. intros n M x y f g h b _. unfold act, stri. rewrite <- !bigsum_mul_l, <- !bigsum_add. apply bigsum_ext. intros. ring. Qed.
  Lemma inner_stri_r : forall n u x y f g h, inner n u (stri x y f g h) = inner n u f + (x * inner n u g + y * inner n u h).
  Proof. intros. unfold inner, stri. rewrite <- !bigsum_mul_l, <- !bigsum_add. apply bigsum_ext. intros. ring. Qed.
  Lemma inner_stri_l : forall n u x y f g h, inner n (stri x y f g h) u = inner n f u + (kconj x * inner n g u + kconj y * inner n h u).
  Proof. intros. unfold inner, stri. rewrite <- !bigsum_mul_l, <- !bigsum_add. apply bigsum_ext. intros. rewrite !kconj_add, !kconj_mul. ring. Qed.
End Tri.
Definition tri_by (n : nat) (F : R -> @qop C_scalar) : Prop := exists A B D, forall t, op_eq n (F t) (tri (RtoC (cos (t / 2))) (RtoC (sin (t / 2))) A B D).
Lemma tri_ext : forall n F G, (forall t, op_eq n (F t) (G t)) -> tri_by n F -> tri_by n G.
Proof. intros n F G H (A & B & D & E). exists A, B, D. intros t. rewrite <- (H t). apply E. Qed.
Lemma tri_mul_l : forall n F X, tri_by n F -> tri_by n (fun t => mul_op n X (F t)).
Proof. intros n F X (A & B & D & E). exists (mul_op n X A), (mul_op n X B), (mul_op n X D). intros t. rewrite (E t). apply mul_tri_l. Qed.
Lemma tri_mul_r : forall n F X, tri_by n F -> tri_by n (fun t => mul_op n (F t) X).
Proof. intros n F X (A & B & D & E). exists (mul_op n A X), (mul_op n B X), (mul_op n D X). intros t. rewrite (E t). apply mul_tri_r. Qed.
Lemma tri_ctrl : forall n F cw, rot_by n no_ph F -> tri_by n (fun t => ctrl [cw] (F t)).
Proof.
  intros n F cw (A & B & E).
  exists (fun r s => if all_one [cw] s then RtoC 0 else id_op (SC := C_scalar) r s), (fun r s => if all_one [cw] s then A r s else RtoC 0), (fun r s => if all_one [cw] s then B r s else RtoC 0).
  intros t r s Hr Hs. unfold ctrl, tri, add_op, scale_op. pose proof (E t r s Hr Hs) as X. unfold comb, add_op, scale_op, no_ph in X. destruct (all_one [cw] s).
  - rewrite X. ceq; ring.
  - generalize (id_op (SC := C_scalar) r s). intros z. ceq; ring.
Qed.
Lemma tri_expect : forall n F psi M, tri_by n F -> two_tones (fun t => Re (inner n (act n (F t) psi) (act n M (act n (F t) psi)))).
Proof.
  intros n F psi M (A & B & D & E). set (a := act n A psi). set (b := act n B psi). set (d := act n D psi).
  set (q := fun u v => Re (inner n u (act n M v))).
  exists (q a a + (q b b + q d d) / 2)%R, (q a b + q b a)%R, (q a d + q d a)%R, ((q b b - q d d) / 2)%R, ((q b d + q d b) / 2)%R. intros t.
  assert (S : st_eq n (act n (F t) psi) (stri (RtoC (cos (t / 2))) (RtoC (sin (t / 2))) a b d)) by (rewrite (E t); apply act_tri).
  rewrite S, act_stri, inner_stri_l, !inner_stri_r.
  assert (C : cos t = (cos (t / 2) * cos (t / 2) - sin (t / 2) * sin (t / 2))%R) by (replace t with (2 * (t / 2))%R at 1 by lra; apply cos_2a).
  assert (Z : sin t = (2 * sin (t / 2) * cos (t / 2))%R) by (replace t with (2 * (t / 2))%R at 1 by lra; apply sin_2a).
  pose proof (sin2_cos2 (t / 2)) as H. unfold Rsqr in H. rewrite C, Z. subst q. cbn [C_scalar kconj kmul kadd] in *. cbv beta.
  generalize (inner n a (act n M a)) (inner n a (act n M b)) (inner n a (act n M d)) (inner n b (act n M a)) (inner n b (act n M b)) (inner n b (act n M d))
    (inner n d (act n M a)) (inner n d (act n M b)) (inner n d (act n M d)). intros x1 x2 x3 x4 x5 x6 x7 x8 x9.
  set (c := cos (t / 2)) in *. set (s := sin (t / 2)) in *. clearbody c s. unfold Re. cbn [Cmul Cadd Cconj RtoC fst snd]. assert (K : (s * s = 1 - c * c)%R) by lra.
  transitivity (fst x1 + c * (fst x2 + fst x4) + s * (fst x3 + fst x7) + c * c * fst x5 + s * s * fst x9 + c * s * (fst x6 + fst x8))%R; [ring|]. rewrite K. field.
Qed.

Lemma gi_tri : forall n g k, gi_ok n g -> is_cu3 g = true -> k < length (gi_angles g) -> tri_by n (fun t => gi_op n (gi_with g (set_at k t (gi_angles g)))).
Proof.
  intros n g k [[_ G] _] HC Hk. destruct g; try discriminate. cbn [gi_angles length gi_wires] in *.
  destruct k as [|[|[|k]]]; try lia; unfold set_at; cbn [firstn skipn app gi_with gi_op]; apply tri_ctrl; apply (rot_lift n _ _ [_]); try (intros v [<-|[]]; apply G; right; now left).
  - apply rot_u3_0.
  - apply rot_u3_1.
  - apply rot_u3_2.
Qed.
Lemma cs_tri : forall n cs1 cs2 g k, gi_ok n g -> is_cu3 g = true -> k < length (gi_angles g) ->
  tri_by n (fun t => cs_op n (one_angle cs1 (CG g) cs2 k t)).
Proof.
  intros n cs1 cs2 g k H HC Hk. unfold one_angle.
  apply (tri_ext n (fun t => mul_op n (mul_op n (cs_op n cs2) (ci_op n (ci_with (CG g) (set_at k t (ci_angles (CG g)))))) (cs_op n cs1))).
  - intros t. rewrite cs_op_app. apply mul_op_proper; [|reflexivity]. set (x := ci_with _ _). change (x :: cs2) with ([x] ++ cs2). rewrite cs_op_app. apply mul_op_proper; [reflexivity|].
    unfold cs_op. cbn [fold_left]. symmetry. apply mul_op_id_r.
  - apply tri_mul_r, tri_mul_l. now apply gi_tri.
Qed.

(** * the expectation as a function of one angle *)
Lemma two_term_ci : forall c, two_term c = true -> ci_cu3 c = false.
Proof. intros [[]|l]; cbn; congruence. Qed.
Lemma angle_sinusoid : forall n cs1 c cs2 i psi M, ci_ok n c -> two_term c = true -> i < length (ci_angles c) -> sinusoid (fun x => expect n (one_angle cs1 c cs2 i x) psi M).
Proof.
  intros n cs1 c cs2 i psi M H T Hi. destruct (trig_expect n (fun t => cs_op n (one_angle cs1 c cs2 i t)) psi M) as (a & b & d & X).
  - exists (ci_ph c). split; [apply ci_ph_unit|]. apply cs_rot; auto using two_term_ci.
  - exact (trig_sinusoid _ a b d X).
Qed.
Lemma angle_tones : forall n cs1 c cs2 i psi M, ci_ok n c -> i < length (ci_angles c) -> two_tones (fun x => expect n (one_angle cs1 c cs2 i x) psi M).
Proof.
  intros n cs1 c cs2 i psi M H Hi. destruct (two_term c) eqn:T; [apply sinusoid_tones, angle_sinusoid; auto|].
  destruct c as [g|l]; [|discriminate T]. apply (tri_expect n (fun t => cs_op n (one_angle cs1 (CG g) cs2 i t)) psi M). apply cs_tri; auto. destruct g; try discriminate T. reflexivity.
Qed.
