(** Gate objects: unitarity, inverse, parameter update. *)
From Coq Require Import List ZArith Reals Lra Lia Bool Arith Ring Morphisms.
From Verif Require Import PyBase Scalar CInst BigSum Index Tensor TensorFacts Spec SpecFacts QMath QTN QOperator
  ExpandFacts ExpandFacts2 ContractFacts ContractFacts2 GateSpec QGates GateCalls GateFacts GateFacts2 GateFacts3.
Import ListNotations.

(** ** unitarity *)
Lemma rh2 : (/ sqrt 2 * / sqrt 2 = 1 / 2)%R.
Proof.
  assert (sqrt 2 * sqrt 2 = 2)%R by (apply sqrt_sqrt; lra).
  rewrite <- Rinv_mult, H. field.
Qed.

Ltac usc t := try ring; (etransitivity; [|exact (sc1 t)]; ring).

Lemma H_unitary : unitary 1 H_op.
Proof.
  unfold H_op, rh. pose proof rh2 as E.
  apply unitary_op2; ceq; try ring; (transitivity ((/ sqrt 2 * / sqrt 2) * 2)%R; [ring|rewrite E; field]).
Qed.
Lemma X_unitary : unitary 1 X_op.
Proof. apply unitary_op2; ceq; ring. Qed.
Lemma Y_unitary : unitary 1 Y_op.
Proof. apply unitary_op2; ceq; ring. Qed.
Lemma Z_unitary : unitary 1 Z_op.
Proof. apply unitary_op2; ceq; ring. Qed.
Lemma rx_unitary : forall t, unitary 1 (rx_op t).
Proof. intros t. apply unitary_op2; ceq; usc (t / 2)%R. Qed.
Lemma ry_unitary : forall t, unitary 1 (ry_op t).
Proof. intros t. apply unitary_op2; ceq; usc (t / 2)%R. Qed.
Lemma rz_unitary : forall t, unitary 1 (rz_op t).
Proof. intros t. apply unitary_op2; ceq; rewrite ?cos_neg, ?sin_neg; usc (t / 2)%R. Qed.
Lemma u1_unitary : forall t, unitary 1 (u1_op t).
Proof. intros t. apply unitary_op2; ceq; usc t. Qed.
Lemma u3_unitary : forall t p l, unitary 1 (u3_op t p l).
Proof.
  intros t p l. rewrite <- rz_ry_rz. repeat apply unitary_mul; auto using rz_unitary, ry_unitary.
Qed.

Lemma rx_adj : forall t, op_eq 1 (adj_op (rx_op t)) (rx_op (- t)).
Proof. intros t. unfold rx_op. rewrite adj_op2. replace (- t / 2)%R with (- (t / 2))%R by field. apply op2_op_eq; ceq; rewrite ?cos_neg, ?sin_neg; ring. Qed.
Lemma ry_adj : forall t, op_eq 1 (adj_op (ry_op t)) (ry_op (- t)).
Proof. intros t. unfold ry_op. rewrite adj_op2. replace (- t / 2)%R with (- (t / 2))%R by field. apply op2_op_eq; ceq; rewrite ?cos_neg, ?sin_neg; ring. Qed.
Lemma rz_adj : forall t, op_eq 1 (adj_op (rz_op t)) (rz_op (- t)).
Proof. intros t. unfold rz_op. rewrite adj_op2. replace (- t / 2)%R with (- (t / 2))%R by field. apply op2_op_eq; ceq; rewrite ?Ropp_involutive, ?cos_neg, ?sin_neg; ring. Qed.
Lemma u1_adj : forall t, op_eq 1 (adj_op (u1_op t)) (u1_op (- t)).
Proof. intros t. unfold u1_op. rewrite adj_op2. apply op2_op_eq; ceq; rewrite ?cos_neg, ?sin_neg; ring. Qed.
Lemma u3_adj : forall t p l, op_eq 1 (adj_op (u3_op t p l)) (u3_op (- t) (- l) (- p)).
Proof.
  intros t p l. rewrite <- !rz_ry_rz. rewrite !adj_mul, !rz_adj, ry_adj, mul_op_assoc. reflexivity.
Qed.
Lemma H_adj : op_eq 1 (adj_op H_op) H_op.
Proof. unfold H_op, rh. rewrite adj_op2. apply op2_op_eq; ceq; ring. Qed.
Lemma X_adj : op_eq 1 (adj_op X_op) X_op.
Proof. unfold X_op. rewrite adj_op2. apply op2_op_eq; ceq; ring. Qed.
Lemma Y_adj : op_eq 1 (adj_op Y_op) Y_op.
Proof. unfold Y_op. rewrite adj_op2. apply op2_op_eq; ceq; ring. Qed.
Lemma Z_adj : op_eq 1 (adj_op Z_op) Z_op.
Proof. unfold Z_op. rewrite adj_op2. apply op2_op_eq; ceq; ring. Qed.

Lemma self_adj_invol : forall n A, op_eq n (adj_op A) A -> unitary n A -> op_eq n (mul_op n A A) id_op.
Proof. intros n A E [U _]. rewrite E in U. exact U. Qed.

(** rotation generated by a self-adjoint involution *)
Definition rot_op (B : qop) (t : R) : qop :=
  add_op (scale_op (RtoC (cos (t / 2))) id_op) (scale_op (0, - sin (t / 2))%R B).

Lemma id_real : forall r c : list nat, snd (id_op r c) = 0%R.
Proof. intros r c. unfold id_op. destruct list_eq_dec; reflexivity. Qed.

Lemma rot_adj : forall n B t, op_eq n (adj_op B) B -> op_eq n (adj_op (rot_op B t)) (rot_op B (- t)).
Proof.
  intros n B t E r c Hr Hc. unfold rot_op, adj_op, add_op, scale_op.
  rewrite (id_op_sym r c). specialize (E r c Hr Hc). unfold adj_op in E. rewrite <- E.
  replace (- t / 2)%R with (- (t / 2))%R by field. rewrite cos_neg, sin_neg.
  generalize (B c r). generalize (id_real c r). generalize (id_op c r). intros z Hz b.
  ceq; rewrite ?Hz; ring.
Qed.

Lemma mul_comb : forall n y z A B (C D : qop) y' z',
  op_eq n (mul_op n (add_op (scale_op y A) (scale_op z B)) (add_op (scale_op y' C) (scale_op z' D)))
   (add_op (add_op (scale_op (kmul y y') (mul_op n A C)) (scale_op (kmul y z') (mul_op n A D)))
           (add_op (scale_op (kmul z y') (mul_op n B C)) (scale_op (kmul z z') (mul_op n B D)))).
Proof.
  intros n y z A B C' D y' z' r c Hr Hc. unfold mul_op, add_op, scale_op.
  rewrite <- !bigsum_mul_l, <- !bigsum_add. apply bigsum_ext. intros m _.
  generalize (A r m) (B r m) (C' m c) (D m c). intros p q s t. ceq; ring.
Qed.

Lemma rot_mul_inv : forall n B t, op_eq n (mul_op n B B) id_op -> op_eq n (mul_op n (rot_op B t) (rot_op B (- t))) id_op.
Proof.
  intros n B t E. unfold rot_op. rewrite mul_comb. rewrite E, !mul_op_id_l, mul_op_id_r.
  intros r c _ _. unfold add_op, scale_op.
  replace (- t / 2)%R with (- (t / 2))%R by field. rewrite cos_neg, sin_neg.
  generalize (B r c) (id_op r c). intros b i. pose proof (sc1 (t / 2)) as S.
  apply C_eq.
  - cbn. transitivity ((cos (t / 2) * cos (t / 2) + sin (t / 2) * sin (t / 2)) * fst i)%R; [ring|rewrite S; ring].
  - cbn. transitivity ((cos (t / 2) * cos (t / 2) + sin (t / 2) * sin (t / 2)) * snd i)%R; [ring|rewrite S; ring].
Qed.

Lemma rot_unitary : forall n B t, op_eq n (adj_op B) B -> op_eq n (mul_op n B B) id_op -> unitary n (rot_op B t).
Proof.
  intros n B t E I. split; rewrite (rot_adj n B t E).
  - rewrite <- (Ropp_involutive t) at 2. now apply rot_mul_inv.
  - now apply rot_mul_inv.
Qed.

Lemma pp_props : forall n P a b, a < n -> b < n -> a <> b -> op_eq 1 (adj_op P) P -> unitary 1 P ->
  op_eq n (adj_op (mul_op n (lift P [a]) (lift P [b]))) (mul_op n (lift P [a]) (lift P [b])) /\
  op_eq n (mul_op n (mul_op n (lift P [a]) (lift P [b])) (mul_op n (lift P [a]) (lift P [b]))) id_op.
Proof.
  intros n P a b Ha Hb N A U.
  pose proof (good_wires_1 n a Ha) as Wa. pose proof (good_wires_1 n b Hb) as Wb.
  assert (C' : op_eq n (mul_op n (lift P [a]) (lift P [b])) (mul_op n (lift P [b]) (lift P [a]))).
  { apply lift_comm; auto. intros w [<-|[]] [E|[]]. now apply N. }
  assert (LA : op_eq n (adj_op (lift P [a])) (lift P [a])).
  { rewrite lift_adj. apply lift_ext; [apply Wa|exact A]. }
  assert (LB : op_eq n (adj_op (lift P [b])) (lift P [b])).
  { rewrite lift_adj. apply lift_ext; [apply Wb|exact A]. }
  assert (SA : op_eq n (mul_op n (lift P [a]) (lift P [a])) id_op).
  { apply self_adj_invol; auto. now apply lift_unitary. }
  assert (SB : op_eq n (mul_op n (lift P [b]) (lift P [b])) id_op).
  { apply self_adj_invol; auto. now apply lift_unitary. }
  split.
  - rewrite adj_mul, LA, LB. now symmetry.
  - rewrite C' at 2. rewrite mul_op_assoc, <- (mul_op_assoc n (lift P [b])), SB, mul_op_id_l. exact SA.
Qed.

Lemma mcx_wires : forall n cs t, good_wires n (cs ++ [t]) ->
  good_wires n [t] /\ (forall w, In w cs -> w < n) /\ (forall w, In w cs -> ~ In w [t]).
Proof.
  intros n cs t [W1 W2]. repeat split.
  - constructor; [intros []|constructor].
  - intros w [<-|[]]. apply W2, in_or_app. right; now left.
  - intros w Hw. apply W2, in_or_app. now left.
  - intros w Hw [<-|[]]. apply NoDup_remove_2 in W1. rewrite app_nil_r in W1. contradiction.
Qed.

Lemma gi_unitary : forall n g, gi_ok n g -> unitary n (gi_op n g).
Proof.
  assert (C1 : forall n c t A, good_wires n [c; t] -> unitary 1 A -> unitary n (ctrl [c] (lift A [t]))).
  { intros n c t A W U. destruct (mcx_wires n [c] t W) as (W1 & W2 & W3). now apply ctrl_unitary. }
  assert (L1 : forall n w A, good_wires n [w] -> unitary 1 A -> unitary n (lift A [w])).
  { intros n w A W U. now apply lift_unitary. }
  intros n g [W X].
  destruct g; cbn [gi_op gi_wires] in *;
    match goal with
    | |- unitary _ (lift _ _) => apply L1; [exact W|]
    | |- unitary _ (ctrl [_] _) => apply C1; [exact W|]
    | _ => idtac
    end;
    try match goal with
    | |- unitary 1 (H_op) => exact H_unitary
    | |- unitary 1 (X_op) => exact X_unitary
    | |- unitary 1 (Y_op) => exact Y_unitary
    | |- unitary 1 (Z_op) => exact Z_unitary
    | |- unitary 1 (rx_op _) => apply rx_unitary
    | |- unitary 1 (ry_op _) => apply ry_unitary
    | |- unitary 1 (rz_op _) => apply rz_unitary
    | |- unitary 1 (u1_op _) => apply u1_unitary
    | |- unitary 1 (u3_op _ _ _) => apply u3_unitary
    end;
    try (apply gw2 in W; destruct W as (Wa & Wb & Wn)).
  - apply rot_unitary; apply pp_props; auto using X_adj, X_unitary.
  - apply rot_unitary; apply pp_props; auto using Y_adj, Y_unitary.
  - apply rot_unitary; apply pp_props; auto using Z_adj, Z_unitary.
  - now apply swap_unitary_op.
  - destruct (mcx_wires n [c1; c2] t W) as (W1 & W2 & W3). apply ctrl_unitary; auto using X_unitary.
  - destruct (mcx_wires n cs t W) as (W1 & W2 & W3). apply ctrl_unitary; auto using X_unitary.
Qed.

(** ** the inverse gate *)
Lemma ctrl_lift_ext : forall n cs t A B, t < n -> op_eq 1 A B -> op_eq n (ctrl cs (lift A [t])) (ctrl cs (lift B [t])).
Proof.
  intros n cs t A B Ht E r c Hr Hc. unfold ctrl. destruct all_one; [|reflexivity].
  apply (lift_ext n [t] A B); auto. intros w [<-|[]]; exact Ht.
Qed.

Lemma gi_inv_ok : forall n g, gi_ok n g -> op_eq n (gi_op n (gi_inv g)) (adj_op (gi_op n g)).
Proof.
  assert (L1 : forall n w A B, good_wires n [w] -> op_eq 1 (adj_op A) B -> op_eq n (lift B [w]) (adj_op (lift A [w]))).
  { intros n w A B W E. rewrite lift_adj. apply lift_ext; [apply W|now symmetry]. }
  assert (C1 : forall n cs t A B, good_wires n (cs ++ [t]) -> op_eq 1 (adj_op A) B ->
     op_eq n (ctrl cs (lift B [t])) (adj_op (ctrl cs (lift A [t])))).
  { intros n cs t A B W E. destruct (mcx_wires n cs t W) as (W1 & W2 & W3). rewrite ctrl_adj by auto.
    apply ctrl_lift_ext; [now apply gw1|now symmetry]. }
  intros n g [W X]. destruct g; cbn [gi_op gi_inv gi_wires] in *;
    match goal with
    | |- op_eq _ (lift _ _) _ => apply L1; [exact W|]
    | |- op_eq _ (ctrl [?c] (lift _ [?t])) _ => apply (C1 n [c] t); [exact W|]
    | _ => idtac
    end;
    try match goal with
    | |- op_eq 1 (adj_op (H_op)) _ => exact H_adj
    | |- op_eq 1 (adj_op (X_op)) _ => exact X_adj
    | |- op_eq 1 (adj_op (Y_op)) _ => exact Y_adj
    | |- op_eq 1 (adj_op (Z_op)) _ => exact Z_adj
    | |- op_eq 1 (adj_op (rx_op _)) _ => apply rx_adj
    | |- op_eq 1 (adj_op (ry_op _)) _ => apply ry_adj
    | |- op_eq 1 (adj_op (rz_op _)) _ => apply rz_adj
    | |- op_eq 1 (adj_op (u1_op _)) _ => apply u1_adj
    | |- op_eq 1 (adj_op (u3_op _ _ _)) _ => apply u3_adj
    end;
    try (apply gw2 in W; destruct W as (Wa & Wb & Wn)).
  - symmetry. apply rot_adj; apply pp_props; auto using X_adj, X_unitary.
  - symmetry. apply rot_adj; apply pp_props; auto using Y_adj, Y_unitary.
  - symmetry. apply rot_adj; apply pp_props; auto using Z_adj, Z_unitary.
  - intros r c Hr Hc. unfold adj_op, swap_op. rewrite id_op_conj, id_op_sym.
    unfold id_op. destruct (list_eq_dec Nat.eq_dec (swapped a b c) r) as [E|E], (list_eq_dec Nat.eq_dec c (swapped a b r)) as [E'|E']; try reflexivity;
      exfalso; [apply E'; rewrite <- E|apply E; rewrite E']; (rewrite swapped_invol; [reflexivity|..]); apply bits_length in Hr; apply bits_length in Hc; lia.
  - apply (C1 n [c1; c2] t); auto using X_adj.
  - apply (C1 n cs t); auto using X_adj.
Qed.

Lemma gi_inv_ok_ok : forall n g, gi_ok n g -> gi_ok n (gi_inv g).
Proof. intros n g. destruct g; exact (fun H => H). Qed.

Lemma gi_inv_invol : forall g, gi_inv (gi_inv g) = g.
Proof. intros g. destruct g; cbn; rewrite ?Ropp_involutive; reflexivity. Qed.

Lemma neg1 : forall t : R, (-1 * t = - t)%R.
Proof. intros; ring. Qed.

Lemma operation_dagger_obj : forall n g, operation_dagger (obj n g) = Ok (obj n (gi_inv g)).
Proof.
  intros n g. destruct g; try reflexivity;
    unfold operation_dagger, obj; cbn [gi_cls gi_pywires gi_wires gi_params length gi_loc gi_inv g_cls g_N g_wires g_params];
    unfold p_scalar; cbn [g_params bind p_vec]; rewrite ?neg1.
  - exact (build_ok n (gi_rx (- t) w)).
  - exact (build_ok n (gi_ry (- t) w)).
  - exact (build_ok n (gi_rz (- t) w)).
  - exact (build_ok n (gi_u1 (- t) w)).
  - exact (build_ok n (gi_u3 (- t) (- l) (- p) w)).
  - exact (build_ok n (gi_rxx (- t) a b)).
  - exact (build_ok n (gi_ryy (- t) a b)).
  - exact (build_ok n (gi_rzz (- t) a b)).
  - exact (build_ok n (gi_cphase (- th) c t)).
  - exact (build_ok n (gi_cu3 (- th) (- l) (- p) c t)).
Qed.

(** ** params_update *)
Lemma params_update_obj : forall n g p g', gi_set g p = Some g' -> params_update (obj n g) p = Ok (obj n g').
Proof.
  intros n g p g' H. destruct g; cbn [gi_set] in H; try (injection H as <-; reflexivity);
    destruct p as [x|v]; try discriminate H;
    try (destruct v as [|x1 [|x2 [|x3 [|]]]]; try discriminate H);
    injection H as <-; unfold params_update, obj;
    cbn [gi_cls gi_pywires gi_wires gi_params length gi_loc g_cls g_umatrix arg_scalar bind p_vec];
    rewrite ?rx_m_ok, ?ry_m_ok, ?rz_m_ok, ?phase_m_ok, ?u3_m_ok, ?cphase_upd_ok; cbn [bind]; try reflexivity.
  - now rewrite PauliX_op, rpp_m_ok.
  - now rewrite PauliY_op, rpp_m_ok.
  - now rewrite PauliZ_op, rpp_m_ok.
  - now rewrite cu3_m_ok.
Qed.
