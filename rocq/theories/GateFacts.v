(** The gate classes build the textbook matrices. *)
From Coq Require Import List ZArith Reals Lra Lia Bool Arith Ring.
From Verif Require Import PyBase Scalar CInst BigSum Index Tensor TensorFacts Spec SpecFacts QMath QTN QOperator
  ExpandFacts ExpandFacts2 GateSpec QGates.
Import ListNotations.

(** ** literals, over any scalars *)
Section Gen.
  Context {SC : Scalar}.
  Add Ring KR : k_ring.
  Local Open Scope k_scope.

  Lemma bits1 : bits 1 = [[0%nat]; [1%nat]].
  Proof. reflexivity. Qed.

  Lemma mul_op2 : forall a b c d e f g h,
    op_eq 1 (mul_op 1 (op2 a b c d) (op2 e f g h))
            (op2 (a * e + b * g) (a * f + b * h) (c * e + d * g) (c * f + d * h)).
  Proof.
    intros. apply op_eq_1; unfold mul_op; rewrite bits1; cbn [bigsum fold_right map op2]; unfold bigsum; simpl; ring.
  Qed.

  Lemma adj_op2 : forall a b c d, op_eq 1 (adj_op (op2 a b c d)) (op2 (kconj a) (kconj c) (kconj b) (kconj d)).
  Proof. intros. apply op_eq_1; reflexivity. Qed.

  Lemma id_op2 : op_eq 1 id_op (op2 1 0 0 1).
  Proof. apply op_eq_1; reflexivity. Qed.

  Lemma op2_ext : forall a b c d a' b' c' d', a = a' -> b = b' -> c = c' -> d = d' ->
    op2 a b c d = op2 a' b' c' d'.
  Proof. intros; subst; reflexivity. Qed.

  Lemma op2_op_eq : forall a b c d a' b' c' d', a = a' -> b = b' -> c = c' -> d = d' ->
    op_eq 1 (op2 a b c d) (op2 a' b' c' d').
  Proof. intros; subst; reflexivity. Qed.

  Lemma unitary_op2 : forall a b c d,
    kconj a * a + kconj c * c = 1 -> kconj a * b + kconj c * d = 0 ->
    kconj b * a + kconj d * c = 0 -> kconj b * b + kconj d * d = 1 ->
    a * kconj a + b * kconj b = 1 -> a * kconj c + b * kconj d = 0 ->
    c * kconj a + d * kconj b = 0 -> c * kconj c + d * kconj d = 1 ->
    unitary 1 (op2 a b c d).
  Proof.
    intros. split; rewrite adj_op2, mul_op2, id_op2; now apply op2_op_eq.
  Qed.

  Lemma mat4_ctrl : forall a b c d,
    mat_of [[1; 0; 0; 0]; [0; 1; 0; 0]; [0; 0; a; b]; [0; 0; c; d]]
    = op_tensor 2 (ctrl [0%nat] (lift (op2 a b c d) [1%nat])).
  Proof. intros. reflexivity. Qed.

  Lemma mat4_swap : swap_matrix = op_tensor 2 (swap_op 0 1).
  Proof. reflexivity. Qed.

  Lemma mat8_toffoli : mat_of [[1; 0; 0; 0; 0; 0; 0; 0];
          [0; 1; 0; 0; 0; 0; 0; 0];
          [0; 0; 1; 0; 0; 0; 0; 0];
          [0; 0; 0; 1; 0; 0; 0; 0];
          [0; 0; 0; 0; 1; 0; 0; 0];
          [0; 0; 0; 0; 0; 1; 0; 0];
          [0; 0; 0; 0; 0; 0; 0; 1];
          [0; 0; 0; 0; 0; 0; 1; 0]] = op_tensor 3 (ctrl [0%nat; 1%nat] (lift (op2 0 1 1 0) [2%nat])).
  Proof. reflexivity. Qed.

  Lemma lift_scale : forall z ws A, lift (scale_op z A) ws = fun r c => if same_off ws r c then z * A (rd r ws) (rd c ws) else 0.
  Proof. reflexivity. Qed.

  Lemma lift_comb : forall n ws y z A B, good_wires n ws ->
    op_eq n (lift (add_op (scale_op y A) (scale_op z B)) ws)
            (add_op (scale_op y (lift A ws)) (scale_op z (lift B ws))).
  Proof. intros n ws y z A B _ r c _ _. unfold lift, add_op, scale_op. destruct same_off; ring. Qed.

  Lemma lift_mul_sub : forall n ws a b A B, good_wires n ws -> a < length ws -> b < length ws ->
    op_eq n (lift (mul_op (length ws) (lift A [a]) (lift B [b])) ws)
            (mul_op n (lift A [nth a ws 0%nat]) (lift B [nth b ws 0%nat])).
  Proof.
    intros n ws a b A B W Ha Hb. rewrite <- lift_mul by exact W.
    rewrite (lift_lift n ws [a] A W) by (intros v [<-|[]]; exact Ha).
    rewrite (lift_lift n ws [b] B W) by (intros v [<-|[]]; exact Hb).
    reflexivity.
  Qed.
End Gen.

(** ** one-qubit matrices *)

Lemma kron4 : forall A B : qop,
  kron (op_tensor 1 A) (op_tensor 1 B) = op_tensor 2 (mul_op 2 (lift A [0]) (lift B [1])).
Proof.
  intros A B. rewrite kron_op. apply op_tensor_ext.
  etransitivity; [|symmetry; apply lift2_mul; lia].
  apply op_eq_2. intros x y z w Hx Hy Hz Hw. reflexivity.
Qed.

Lemma sigma_x_op : sigma_x = op_tensor 1 X_op.
Proof. apply mat_of_op2. Qed.
Lemma sigma_z_op : sigma_z = op_tensor 1 Z_op.
Proof. apply mat_of_op2. Qed.
Lemma PauliX_op : PauliX_m = op_tensor 1 X_op.
Proof. exact sigma_x_op. Qed.
Lemma PauliZ_op : PauliZ_m = op_tensor 1 Z_op.
Proof. exact sigma_z_op. Qed.
Lemma PauliY_op : PauliY_m = op_tensor 1 Y_op.
Proof.
  unfold PauliY_m. rewrite mat_of_op2. apply op_tensor_ext, op_eq_1; cbn [op2 Y_op]; try reflexivity.
  unfold cI, cR; ceq; ring.
Qed.

Lemma eye2_op : eye 2 = op_tensor 1 id_op.
Proof. exact (eye_op 1). Qed.
Lemma eye4_op : eye 4 = op_tensor 2 id_op.
Proof. exact (eye_op 2). Qed.

Lemma rot_m_ok : forall n P t,
  rot_m (op_tensor n P) (2 ^ n) t
  = Ok (op_tensor n (add_op (scale_op (RtoC (cos (t / 2))) id_op) (scale_op (0, - sin (t / 2))%R P))).
Proof.
  intros n P t. unfold rot_m. rewrite eye_op, !tscale_op, tsub_op. f_equal. apply op_tensor_ext.
  intros r c _ _. unfold add_op, scale_op. unfold cR, cI. ceq; ring.
Qed.

Lemma rx_m_ok : forall t, rot_m PauliX_m 2 t = Ok (op_tensor 1 (rx_op t)).
Proof.
  intros t. rewrite PauliX_op. change 2 with (2 ^ 1). rewrite rot_m_ok. f_equal. apply op_tensor_ext, op_eq_1;
    unfold add_op, scale_op, id_op; simpl; ceq; ring.
Qed.
Lemma ry_m_ok : forall t, rot_m PauliY_m 2 t = Ok (op_tensor 1 (ry_op t)).
Proof.
  intros t. rewrite PauliY_op. change 2 with (2 ^ 1). rewrite rot_m_ok. f_equal. apply op_tensor_ext, op_eq_1;
    unfold add_op, scale_op, id_op; simpl; ceq; ring.
Qed.
Lemma rz_m_ok : forall t, rot_m PauliZ_m 2 t = Ok (op_tensor 1 (rz_op t)).
Proof.
  intros t. rewrite PauliZ_op. change 2 with (2 ^ 1). rewrite rot_m_ok. f_equal. apply op_tensor_ext, op_eq_1;
    unfold add_op, scale_op, id_op; simpl; ceq; rewrite ?cos_neg, ?sin_neg; ring.
Qed.

Lemma H_m_ok : tscale (cR (sqrt (1 / 2))) (mat_of [[cR 1; cR 1]; [cR 1; cR (-1)]]) = op_tensor 1 H_op.
Proof.
  rewrite mat_of_op2, tscale_op. apply op_tensor_ext.
  assert (E : sqrt (1 / 2) = (/ sqrt 2)%R) by (unfold Rdiv; rewrite Rmult_1_l; apply sqrt_inv).
  apply op_eq_1; simpl; unfold rh, cR; rewrite E; ceq; ring.
Qed.

Lemma half_l : forall t : R, (1 / 2 * t)%R = (t / 2)%R.
Proof. intros; field. Qed.

Lemma u1_m_ok : forall t, u1_m t = Ok (op_tensor 1 (u1_op t)).
Proof.
  intros t. unfold u1_m. rewrite half_l.
  rewrite eye2_op, sigma_z_op, !tscale_op, tsub_op. cbn [bind]. rewrite tscale_op. f_equal.
  assert (E : t = (t / 2 + t / 2)%R) by field.
  assert (Hc : cos t = (cos (t / 2) * cos (t / 2) - sin (t / 2) * sin (t / 2))%R) by (rewrite E at 1; apply cos_plus).
  assert (Hs : sin t = (sin (t / 2) * cos (t / 2) + cos (t / 2) * sin (t / 2))%R) by (rewrite E at 1; apply sin_plus).
  pose proof (sc1 (t / 2)) as H1.
  apply op_tensor_ext, op_eq_1; unfold u1_op, cR, cI, id_op; simpl; ceq; rewrite ?Hc, ?Hs; try ring; (etransitivity; [|exact H1]; ring).
Qed.

Lemma phase_m_ok : forall t, phase_m t = op_tensor 1 (u1_op t).
Proof. intros t. apply mat_of_op2. Qed.

Lemma ry_conj : forall t,
  op_eq 1 (mul_op 1 (mul_op 1 (rx_op (- (1 / 2) * PI)) (rz_op t)) (rx_op (1 / 2 * PI))) (ry_op t).
Proof.
  intros t. unfold rx_op, rz_op, ry_op. rewrite mul_op2, mul_op2.
  replace (- (1 / 2) * PI / 2)%R with (- (PI / 4))%R by field.
  replace (1 / 2 * PI / 2)%R with (PI / 4)%R by field.
  rewrite !cos_neg, !sin_neg.
  assert (Ha : (cos (PI / 4) * cos (PI / 4) = 1 / 2)%R).
  { rewrite cos_PI4. assert (sqrt 2 * sqrt 2 = 2)%R by (apply sqrt_sqrt; lra).
    assert (sqrt 2 <> 0)%R by (intros E; rewrite E in H; lra).
    unfold Rdiv. rewrite !Rmult_1_l. rewrite <- Rinv_mult. rewrite H. reflexivity. }
  assert (Hs : sin (PI / 4) = cos (PI / 4)) by (rewrite sin_PI4, cos_PI4; reflexivity).
  rewrite Hs. unfold Cexpi. rewrite !cos_neg, !sin_neg.
  set (a := cos (PI / 4)) in *. set (c := cos (t / 2)). set (s := sin (t / 2)).
  apply op2_op_eq; ceq.
  - transitivity ((a * a) * (2 * c))%R; [ring|rewrite Ha; field].
  - ring.
  - transitivity ((a * a) * (- 2 * s))%R; [ring|rewrite Ha; field].
  - ring.
  - transitivity ((a * a) * (2 * s))%R; [ring|rewrite Ha; field].
  - ring.
  - transitivity ((a * a) * (2 * c))%R; [ring|rewrite Ha; field].
  - ring.
Qed.

Lemma rz_ry_rz : forall t p l, op_eq 1 (mul_op 1 (mul_op 1 (rz_op p) (ry_op t)) (rz_op l)) (u3_op t p l).
Proof.
  intros t p l. unfold rz_op, ry_op, u3_op. rewrite mul_op2, mul_op2.
  assert (E1 : Cexpi (- ((p + l) / 2)) = Cmul (Cexpi (- (p / 2))) (Cexpi (- (l / 2))))
    by (rewrite <- Cexpi_add; f_equal; field).
  assert (E2 : Cexpi (- ((p - l) / 2)) = Cmul (Cexpi (- (p / 2))) (Cexpi (l / 2)))
    by (rewrite <- Cexpi_add; f_equal; field).
  assert (E3 : Cexpi ((p - l) / 2) = Cmul (Cexpi (p / 2)) (Cexpi (- (l / 2))))
    by (rewrite <- Cexpi_add; f_equal; field).
  assert (E4 : Cexpi ((p + l) / 2) = Cmul (Cexpi (p / 2)) (Cexpi (l / 2)))
    by (rewrite <- Cexpi_add; f_equal; field).
  rewrite E1, E2, E3, E4.
  generalize (Cexpi (- (p / 2))) (Cexpi (p / 2)) (Cexpi (- (l / 2))) (Cexpi (l / 2)). intros A B D E.
  apply op2_op_eq; ceq; ring.
Qed.

Lemma u3_m_ok : forall t p l, u3_m [t; p; l] = Ok (op_tensor 1 (u3_op t p l)).
Proof.
  intros t p l. unfold u3_m. cbn [bind].
  change (py_nth [t; p; l] 0) with (Ok t). change (py_nth [t; p; l] 1) with (Ok p).
  change (py_nth [t; p; l] 2) with (Ok l). cbn [bind].
  rewrite !rz_m_ok, !rx_m_ok. cbn [bind]. rewrite !matmul_op. cbn [bind]. rewrite !matmul_op. cbn [bind].
  rewrite !matmul_op. cbn [bind]. rewrite !matmul_op. f_equal. apply op_tensor_ext.
  rewrite <- rz_ry_rz, <- (ry_conj t). rewrite !mul_op_assoc. reflexivity.
Qed.

(** ** the rpp, controlled and other matrices *)
Lemma rpp_m_ok : forall P t, rot_m (kron (op_tensor 1 P) (op_tensor 1 P)) 4 t = Ok (op_tensor 2 (rpp_op P 2 t 0 1)).
Proof. intros P t. rewrite kron4. change 4 with (2 ^ 2). rewrite rot_m_ok. reflexivity. Qed.

Lemma cnot_m_ok : cnot_m = op_tensor 2 (ctrl [0] (lift X_op [1])).
Proof. unfold cnot_m. rewrite (mat4_ctrl k0 k1 k1 k0). reflexivity. Qed.
Lemma cz_m_ok : cz_m = op_tensor 2 (ctrl [0] (lift Z_op [1])).
Proof. unfold cz_m. rewrite (mat4_ctrl k1 k0 k0 (kopp k1)). reflexivity. Qed.
Lemma toffoli_m_ok : toffoli_m = op_tensor 3 (ctrl [0; 1] (lift X_op [2])).
Proof. unfold toffoli_m. rewrite mat8_toffoli. reflexivity. Qed.

Lemma cphase_upd_ok : forall t,
  mat_of [[k1; k0; k0; k0]; [k0; k1; k0; k0]; [k0; k0; k1; k0]; [k0; k0; k0; (cos t, sin t) : K]]
  = op_tensor 2 (ctrl [0] (lift (u1_op t) [1])).
Proof. intros t. rewrite (mat4_ctrl (SC := C_scalar) k1 k0 k0 (cos t, sin t)). reflexivity. Qed.

Lemma mt_op : mt = op_tensor 2 (fun r c => if all_one [0; 1] r && all_one [0; 1] c then k1 else k0).
Proof. unfold mt. reflexivity. Qed.

Lemma cphase_m_ok : forall t,
  tadd (eye 4) (tscale (ksub ((cos t, sin t) : K) k1) mt) = Ok (op_tensor 2 (ctrl [0] (lift (u1_op t) [1]))).
Proof.
  intros t. rewrite eye4_op, mt_op, tscale_op, tadd_op. f_equal. apply op_tensor_ext, op_eq_2.
  intros x y z w Hx Hy Hz Hw.
  destruct x as [|[|x]]; [| |lia]; (destruct y as [|[|y]]; [| |lia]); (destruct z as [|[|z]]; [| |lia]);
    (destruct w as [|[|w]]; [| |lia]); cbn; ceq; ring.
Qed.

Lemma cu3_m_ok : forall U, two_qubit_control_gate (op_tensor 1 U) 2 0 1 = Ok (op_tensor 2 (ctrl [0] (lift U [1]))).
Proof. intros U. apply (two_qubit_control_ok 2 0 1 U); lia. Qed.
