(** Lemmas: the error of an expectation value computed from a truncated matrix product state. *)
From Coq Require Import List ZArith QArith Reals Lra Lia ZifyBool Bool Arith Qreals.
From Verif Require Import PyBase Scalar CInst BigSum Index Tensor TensorFacts Spec SpecFacts QMath QTN QOperator GateSpec QGates GateCalls GateFacts GateFacts2 RunSpec TruncRunSpec LayerFacts1 CircuitSpec QCircuit CircuitFacts1 CircuitCases
  StateFacts MPSSpec MPSFacts6 MPSFacts9 MeasSpec MeasFacts QuanvFacts TruncSpec TruncFacts1 TruncFacts2 SVDExist2 SVDExist3 TruncRun1 TruncRun7 TruncRun9 GateFacts4 QMathC MeasCases.
Import ListNotations.
Local Close Scope Q_scope.
Local Open Scope R_scope.

(** ** Cauchy and Schwarz *)
Definition rdot (z w : C) : R := Re z * Re w + Im z * Im w.
Lemma rdot_le : forall c z w, 0 < c -> 2 * rdot z w <= c * Cnorm2 z + / c * Cnorm2 w.
Proof.
  intros c z w Hc. pose proof (Cnorm2_add_le c z w Hc) as X. destruct z as [a b], w as [d e].
  unfold Cnorm2, Cadd, rdot, Re, Im in *. cbn [fst snd] in *. nra.
Qed.
Lemma cauchy : forall A (l : list A) (f g : A -> C), rsum l (fun a => rdot (f a) (g a)) <= len l f * len l g.
Proof.
  intros A l f g. pose proof (len_pos _ l f) as Pf. pose proof (len_pos _ l g) as Pg.
  destruct (Rle_lt_or_eq_dec 0 (len l f) Pf) as [Qf|Zf].
  2:{ assert (S0 : sqn l f = 0) by (rewrite <- len_sq, <- Zf; ring). rewrite <- Zf, Rmult_0_l. rewrite (rsum_ext _ l _ (fun _ => 0)); [rewrite rsum_0; lra|].
      intros a Ha. rewrite (sqn_0 _ l f S0 a Ha). unfold rdot. cbn. ring. }
  destruct (Rle_lt_or_eq_dec 0 (len l g) Pg) as [Qg|Zg].
  2:{ assert (S0 : sqn l g = 0) by (rewrite <- len_sq, <- Zg; ring). rewrite <- Zg, Rmult_0_r. rewrite (rsum_ext _ l _ (fun _ => 0)); [rewrite rsum_0; lra|].
      intros a Ha. rewrite (sqn_0 _ l g S0 a Ha). unfold rdot. cbn. ring. }
  set (c := len l g / len l f). assert (Hc : 0 < c) by (apply Rdiv_lt_0_compat; auto).
  assert (X : 2 * rsum l (fun a => rdot (f a) (g a)) <= c * sqn l f + / c * sqn l g).
  { unfold sqn. rewrite <- !rsum_mul, <- rsum_add. apply rsum_le. intros a _. now apply rdot_le. }
  rewrite <- !len_sq in X. set (a := len l f) in *. set (b := len l g) in *.
  replace (c * (a * a) + / c * (b * b)) with (2 * (a * b)) in X by (unfold c; field; lra). lra.
Qed.
Lemma cauchy_abs : forall A (l : list A) (f g : A -> C), Rabs (rsum l (fun a => rdot (f a) (g a))) <= len l f * len l g.
Proof.
  intros A l f g. apply Rabs_le. split; [|apply cauchy].
  pose proof (cauchy A l (fun a => Copp (f a)) g) as X. rewrite len_opp in X.
  rewrite (rsum_ext _ l _ (fun a => -1 * rdot (f a) (g a))) in X; [rewrite rsum_mul in X; lra|].
  intros a _. unfold rdot, Copp. destruct (f a). cbn. ring.
Qed.
Lemma Re_inner : forall n f g, Re (inner (SC := C_scalar) n f g) = rsum (bits n) (fun b => rdot (f b) (g b)).
Proof.
  intros n f g. unfold inner. etransitivity; [apply (Re_bigsum_rsum _ (bits n))|]. apply rsum_ext. intros b _. unfold rdot.
  destruct (f b), (g b). cbn. ring.
Qed.

Section Lin.
  Context {SC : Scalar}.
  Add Ring KR : k_ring.
  Local Open Scope k_scope.
  Lemma act_diff : forall n A f g b, act n A (diff f g) b = act n A f b - act n A g b.
  Proof.
    intros n A f g b. unfold act, diff.
    replace (bigsum (bits n) (fun c => A b c * (f c - g c))) with (bigsum (bits n) (fun c => A b c * f c + (- (1)) * (A b c * g c))) by (apply bigsum_ext; intros; ring).
    rewrite bigsum_add, bigsum_mul_l. ring.
  Qed.
End Lin.

(** the quadratic form of two nearby states *)
Lemma quad_near : forall n (M : @qop C_scalar) B (f g : @qstate C_scalar) e, 0 <= B -> (forall h, norm2 n (act (SC := C_scalar) n M h) <= B * B * norm2 n h) ->
  norm2 n f = 1 -> len (bits n) (fun b => Csub (f b) (g b)) <= e ->
  Rabs (Re (inner (SC := C_scalar) n g (act n M g)) - Re (inner (SC := C_scalar) n f (act n M f))) <= B * (e * (2 + e)).
Proof.
  intros n M B f g e HB HM HN He.
  assert (L1 : len (bits n) f = 1) by (unfold len, sqn; fold (norm2 n f); rewrite HN; apply sqrt_1).
  set (d := diff (SC := C_scalar) g f).
  assert (Ld : len (bits n) d <= e) by (rewrite (len_sub_sym _ (bits n) f g) in He; exact He).
  assert (Lg : len (bits n) g <= 1 + e) by (pose proof (len_le_sub _ (bits n) g f) as X; rewrite L1 in X; change (fun a => Csub (g a) (f a)) with d in X; lra).
  assert (P : 0 <= e) by (pose proof (len_pos _ (bits n) d); lra).
  assert (LM : forall h, len (bits n) (act (SC := C_scalar) n M h) <= B * len (bits n) h) by (intros h; apply sqn_le_len; [exact HB|apply HM]).
  assert (E : Re (inner (SC := C_scalar) n g (act n M g)) - Re (inner (SC := C_scalar) n f (act n M f)) =
    rsum (bits n) (fun b => rdot (d b) (act (SC := C_scalar) n M g b)) + rsum (bits n) (fun b => rdot (f b) (act (SC := C_scalar) n M d b))).
  { rewrite !Re_inner. rewrite <- rsum_add.
    assert (Y : rsum (bits n) (fun b => rdot (g b) (act (SC := C_scalar) n M g b)) =
      rsum (bits n) (fun b => rdot (f b) (act (SC := C_scalar) n M f b)) +
      rsum (bits n) (fun a => rdot (d a) (act (SC := C_scalar) n M g a) + rdot (f a) (act (SC := C_scalar) n M d a))); [|lra].
    rewrite <- rsum_add. apply rsum_ext. intros b _. unfold d. rewrite (act_diff (SC := C_scalar) n M g f b). unfold diff, rdot.
    destruct (g b), (f b), (act (SC := C_scalar) n M g b), (act (SC := C_scalar) n M f b). cbn. ring. }
  rewrite E. eapply Rle_trans; [apply Rabs_triang|].
  pose proof (cauchy_abs _ (bits n) d (act (SC := C_scalar) n M g)) as X1. pose proof (cauchy_abs _ (bits n) f (act (SC := C_scalar) n M d)) as X2.
  pose proof (LM g) as Y1. pose proof (LM d) as Y2. rewrite L1 in X2.
  pose proof (len_pos _ (bits n) d). pose proof (len_pos _ (bits n) g). pose proof (len_pos _ (bits n) (act (SC := C_scalar) n M g)).
  assert (Z1 : len (bits n) d * len (bits n) (act (SC := C_scalar) n M g) <= e * (B * (1 + e))).
  { apply Rmult_le_compat; auto. eapply Rle_trans; [exact Y1|]. now apply Rmult_le_compat_l. }
  assert (Z2 : B * len (bits n) d <= B * e) by now apply Rmult_le_compat_l.
  nra.
Qed.

Lemma expectation_true : forall svd n cs t (psi : @qstate C_scalar) m M B, true_svd (SC := C_scalar) svd -> (0 < n)%nat -> Forall (ci_ok n) cs -> forallb (ci_TN n) cs = true ->
  is_state (SC := C_scalar) n [1; 2 ^ n]%nat t psi -> norm2 n psi = 1 -> INR (cut_count n (n - 1)) <= 10 ^ 14 -> INR (ci_moves cs) <= 2 * 10 ^ 6 ->
  is_op (SC := C_scalar) n m M -> 0 <= B -> (forall h, norm2 n (act (SC := C_scalar) n M h) <= B * B * norm2 n h) ->
  exists c v, circuit_of n cs = Ok c /\ cir_expectation svd c t m true = Ok v /\
    (let e := (sqrt (INR (cut_count n (n - 1))) + 8 * INR (ci_moves cs)) * / 10 ^ 8 in Rabs (v - expect n cs psi M) <= B * (e * (2 + e))).
Proof.
  intros svd n cs t psi m M B HT Hn HF HG Ht HN HC HW Hm HB HM. apply is_op_eq in Hm. subst m. cbv zeta.
  set (e := (sqrt (INR (cut_count n (n - 1))) + 8 * INR (ci_moves cs)) * / 10 ^ 8).
  assert (He : 0 <= e). { unfold e. pose proof (sqrt_pos (INR (cut_count n (n - 1)))). pose proof (pos_INR (ci_moves cs)). apply Rmult_le_pos; [lra|]. left. apply Rinv_0_lt_compat. lra. }
  exists (circ n cs).
  assert (W : wf t) by (unfold wf; destruct Ht as (S & L & _); rewrite S; cbn [prodn]; lia).
  unfold cir_expectation. destruct (Ht) as (S & _ & _). unfold shape_at. rewrite S, circ_N. cbn [nth_error bind].
  change (1 =? 1)%nat with true. rewrite Nat.eqb_refl. cbn [negb raise_if op_tensor tbuild shape nth_error bind]. rewrite Nat.eqb_refl. cbn [negb raise_if].
  fold (op_tensor n M). rewrite (view_row n _ t psi Ht W), (view_col n _ t psi Ht W). cbn [bind].
  destruct (circuit_true svd n cs (row n psi) psi HT Hn HF HG (row_state n psi) HN HC HW) as (c & l & l' & t' & phi & E0 & E1 & E2 & M2 & E3 & S3 & D).
  rewrite circuit_of_ok in E0 by auto. injection E0 as <-.
  rewrite E1. cbn [bind]. rewrite E2. cbn [bind]. rewrite E3. cbn [bind].
  assert (W' : wf t') by (apply state_row in S3; subst t'; apply tbuild_wf).
  rewrite (quad_form_ok n _ t' phi M S3 W').
  assert (N1 : norm2 n (act (SC := C_scalar) n (cs_op n cs) psi) = 1) by (rewrite norm2_unitary by (now apply cs_unitary); exact HN).
  assert (Q : Rabs (Re (inner (SC := C_scalar) n phi (act n M phi)) - expect n cs psi M) <= B * (e * (2 + e))) by (unfold expect; now apply quad_near).
  destruct (TN_check (circ n cs)); cbn [andb].
  - eexists. split; [now apply circuit_of_ok|]. split; [reflexivity|exact Q].
  - exists (expect n cs psi M). split; [now apply circuit_of_ok|]. rewrite cU_ok by auto. cbn [bind]. rewrite op_col. cbn [bind]. split.
    + apply (quad_form_ok n [2 ^ n; 1]%nat); [apply col_state|apply col_wf].
    + unfold Rminus. rewrite Rplus_opp_r, Rabs_R0. apply Rmult_le_pos; [exact HB|]. apply Rmult_le_pos; lra.
Qed.

Lemma measure_true : forall svd n cs t (psi : @qstate C_scalar), true_svd (SC := C_scalar) svd -> (0 < n)%nat -> Forall (ci_ok n) cs -> forallb (ci_TN n) cs = true ->
  is_state (SC := C_scalar) n [1; 2 ^ n]%nat t psi -> norm2 n psi = 1 -> INR (cut_count n (n - 1)) <= 10 ^ 14 -> INR (ci_moves cs) <= 2 * 10 ^ 6 ->
  exists c l l' t' vs, circuit_of n cs = Ok c /\ StateVec2MPS (SC := C_scalar) svd t n = Ok l /\ TN_evolution svd c l = Ok l' /\ MPS2StateVec (SC := C_scalar) l' = Ok t' /\
    measure (Z.of_nat n) t' INone = Ok vs /\ length vs = n /\
    forall i, (i < n)%nat -> (let e := (sqrt (INR (cut_count n (n - 1))) + 8 * INR (ci_moves cs)) * / 10 ^ 8 in
      Rabs (nth i vs 0 - zmean n (act (SC := C_scalar) n (cs_op n cs) psi) i) <= e * (2 + e)).
Proof.
  intros svd n cs t psi HT Hn HF HG Ht HN HC HW.
  destruct (circuit_true svd n cs t psi HT Hn HF HG Ht HN HC HW) as (c & l & l' & t' & phi & E0 & E1 & E2 & M2 & E3 & S3 & D).
  exists c, l, l', t', (map (zmean n phi) (seq 0 n)). do 4 (split; [assumption|]).
  assert (W' : wf t') by (apply state_row in S3; subst t'; apply tbuild_wf).
  assert (V : vector_shape n [1; 2 ^ n]%nat).
  { unfold vector_shape. cbn [filter Nat.eqb negb]. replace (2 ^ n =? 1)%nat with false; [reflexivity|]. symmetry. apply Nat.eqb_neq.
    pose proof (Nat.pow_gt_lin_r 2 n ltac:(lia)). lia. }
  split; [exact (measure_all_vec n _ t' phi S3 W' V)|]. split; [now rewrite map_length, seq_length|].
  intros i Hi. cbv zeta. rewrite (nth_indep _ 0 (zmean n phi 0)) by (now rewrite map_length, seq_length).
  rewrite map_nth, seq_nth by exact Hi. cbn [Nat.add]. rewrite <- !Z_inner by exact Hi. rewrite <- (Rmult_1_l (_ * (2 + _))).
  assert (U : unitary (SC := C_scalar) n (lift Z_op [i])).
  { apply lift_unitary; [|exact Z_unitary]. split; [repeat constructor; intros []|]. intros w [<-|[]]. exact Hi. }
  apply quad_near; [lra| |rewrite norm2_unitary by (now apply cs_unitary); exact HN|exact D].
  intros h. rewrite norm2_unitary by exact U. lra.
Qed.

Lemma Z3_bound : (is_op (SC := C_scalar) 3 (op_tensor 3 (lift Z_op [1%nat])) (lift Z_op [1%nat])) /\
  forall h, norm2 3 (act (SC := C_scalar) 3 (lift Z_op [1%nat]) h) <= 1 * 1 * norm2 3 h.
Proof.
  split; [apply is_op_tensor|]. intros h. rewrite norm2_unitary; [lra|].
  apply lift_unitary; [|exact Z_unitary]. split; [repeat constructor; intros []|]. intros w [<-|[]]. lia.
Qed.
