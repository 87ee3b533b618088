(** Lemmas: the identities inside circuits. *)
From Coq Require Import List ZArith Reals Lra Lia Bool Arith Permutation Setoid Morphisms.
From Verif Require Import PyBase Scalar CInst BigSum Index Tensor TensorFacts Spec SpecFacts QMath QTN QOperator ExpandFacts ExpandFacts2 GateSpec QGates GateCalls RunSpec MPSSpec
  MPSFacts1 MPSFacts6 LayerSpec QLayers LayerCalls LayerFacts1 CircuitSpec QCircuit CircuitFacts1 CircuitProofs PlaceSpec PlaceFacts IdentSpec IdentFacts StateFacts MPSFacts5 GateFacts2.
Import ListNotations.
Local Close Scope R_scope.
Local Open Scope nat_scope.

Definition id_wf (i : ident) : Prop := 0 < id_k i /\ Forall (gi_ok (id_k i)) (id_l i) /\ Forall (gi_ok (id_k i)) (id_r i).
Ltac wires := split; [repeat constructor; cbn; lia|cbn; intros w Hw; lia].
Ltac gok := split; [cbn [gi_wires app]; wires|first [exact I|discriminate]].
Ltac gsok := repeat (apply Forall_cons; [gok|]); apply Forall_nil.
Lemma identities_wf : forall s t p l, Forall id_wf (identities s t p l).
Proof.
  intros. unfold identities. repeat (apply Forall_app; split);
  unfold sums, zeros, turns, halves, involutions, conjugations, euler, symmetries, decompositions;
  repeat (apply Forall_cons; [split; [cbn; lia|]; cbn [id_k id_l id_r same minus]; split; gsok|]); apply Forall_nil.
Qed.
Lemma cs_op_CG : forall n gs, cs_op n (map CG gs) = gs_op n gs.
Proof. intros n gs. unfold cs_op, gs_op. generalize (@id_op C_scalar). induction gs as [|g gs IH]; intros A; [reflexivity|]. cbn [map fold_left]. apply IH. Qed.

Section Use.
  Variables (n : nat) (ws : list nat) (s t p l : R) (i : ident) (pre post : list ci).
  Hypotheses (I : In i (identities s t p l)) (W : good_wires n ws) (L : length ws = id_k i) (P1 : Forall (ci_ok n) pre) (P2 : Forall (ci_ok n) post).
  Let one := pre ++ map (move ws) (map CG (id_l i)) ++ post.
  Let two := pre ++ map (move ws) (map CG (id_r i)) ++ post.
  Lemma id_sides : 0 < n /\ Forall (ci_ok (length ws)) (map CG (id_l i)) /\ Forall (ci_ok (length ws)) (map CG (id_r i)).
  Proof.
    pose proof (identities_wf s t p l) as H. rewrite Forall_forall in H. destruct (H i I) as (Hk & A & B). rewrite L. split; [|split; now rewrite Forall_map].
    destruct ws as [|w v]; [cbn in L; lia|]. pose proof (proj2 W w (or_introl eq_refl)). lia.
  Qed.
  Lemma id_op_eq : op_eq n (cs_op n one) (scale_op (id_z i) (cs_op n two)).
  Proof.
    destruct id_sides as (_ & A & B). apply moved_part; auto. pose proof (identities_true s t p l) as H. rewrite Forall_forall in H. rewrite L, !cs_op_CG. now apply H.
  Qed.
  Lemma one_ok : Forall (ci_ok n) one. Proof. destruct id_sides as (_ & A & B). now apply parts_ok. Qed.
  Lemma two_ok : Forall (ci_ok n) two. Proof. destruct id_sides as (_ & A & B). now apply parts_ok. Qed.
  Lemma ident_matrix : exists c c' u u', circuit_of n one = Ok c /\ circuit_of n two = Ok c' /\ cU c true = Ok u /\ cU c' true = Ok u' /\
    is_op n u (scale_op (id_z i) (op_of u')).
  Proof.
    destruct id_sides as (Hn & _). do 4 eexists. split; [apply circuit_of_ok, one_ok|]. split; [apply circuit_of_ok, two_ok|].
    split; [apply cU_ok; auto using one_ok|]. split; [apply cU_ok; auto using two_ok|]. eapply is_op_ext; [apply is_op_tensor|]. rewrite id_op_eq.
    apply scale_ext. intros r c Hr Hc. symmetry. now apply (is_op_tensor n (cs_op n two)).
  Qed.
  Lemma ident_contract : forall x, forallb (ci_con n) one = true -> forallb (ci_con n) two = true -> shape x = repeat 2 n -> wf x ->
    exists c c' y z, circuit_of n one = Ok c /\ circuit_of n two = Ok c' /\ TN_contract_evolution c x false = Ok y /\ TN_contract_evolution c' x false = Ok z /\
    is_state n (repeat 2 n) y (fun b => Cmul (id_z i) (amp z b)).
  Proof.
    intros x C1 C2 S F. destruct (contraction_product n one x one_ok C1 S F) as (c & y & E1 & E2 & A1 & A2 & A3).
    destruct (contraction_product n two x two_ok C2 S F) as (c' & z & F1 & F2 & B1 & B2 & B3). exists c, c', y, z. repeat (split; [assumption|]). intros b Hb.
    rewrite (A3 b Hb), (B3 b Hb). assert (X : st_eq (SC := C_scalar) n (act n (cs_op n one) (amp x)) (act n (scale_op (id_z i) (cs_op n two)) (amp x))) by (now rewrite id_op_eq).
    rewrite (X b Hb). exact (act_scale n (id_z i) (cs_op n two) (amp x) b Hb).
  Qed.
  Lemma ident_mps : forall svd m psi, exact_svd svd -> forallb (ci_TN n) one = true -> forallb (ci_TN n) two = true -> is_mps n m psi -> nonzero n psi ->
    exists c c' l1 l2 phi, circuit_of n one = Ok c /\ circuit_of n two = Ok c' /\ TN_evolution svd c m = Ok l1 /\ TN_evolution svd c' m = Ok l2 /\
    is_mps n l1 (fun b => Cmul (id_z i) (phi b)) /\ is_mps n l2 phi.
  Proof.
    intros svd m psi Hs C1 C2 M Z. destruct (mps_product svd n one m psi Hs one_ok C1 M Z) as (c & y & E1 & E2 & A).
    destruct (mps_product svd n two m psi Hs two_ok C2 M Z) as (c' & z & F1 & F2 & B). exists c, c', y, z, (act n (cs_op n two) psi). repeat (split; [assumption|]). split; [|exact B].
    eapply is_mps_st; [exact A|]. rewrite id_op_eq. exact (act_scale n (id_z i) (cs_op n two) psi).
  Qed.
End Use.

Lemma all_one_perm : forall a b x, Permutation a b -> all_one a x = all_one b x.
Proof.
  intros a b x H. unfold all_one. destruct (forallb _ a) eqn:E; symmetry.
  - rewrite forallb_forall in *. intros w Hw. apply E. eapply Permutation_in; [symmetry; exact H|exact Hw].
  - apply not_true_is_false. intros F. apply not_true_iff_false in E. apply E. rewrite forallb_forall in *. intros w Hw. apply F. eapply Permutation_in; [exact H|exact Hw].
Qed.
Lemma mcx_perm : forall n a b t, Permutation a b -> gi_ok n (gi_mcx a t) -> exists g h u, build n (gi_mcx a t) = Ok g /\ build n (gi_mcx b t) = Ok h /\ U_expand g = Ok u /\ U_expand h = Ok u.
Proof.
  intros n a b t P H. assert (H' : gi_ok n (gi_mcx b t)).
  { destruct H as [[D B] N]. cbn [gi_wires] in *. assert (Q : Permutation (a ++ [t]) (b ++ [t])) by now apply Permutation_app_tail. split; [split|].
    - eapply Permutation_NoDup; eauto.
    - intros w Hw. apply B. eapply Permutation_in; [symmetry; exact Q|exact Hw].
    - intros ->. apply Permutation_sym, Permutation_nil in P. contradiction. }
  assert (Hn : 0 < n) by (destruct H as [[_ B] _]; pose proof (B t ltac:(cbn; apply in_or_app; right; now left)); lia).
  do 3 eexists. split; [now apply GateFacts2.build_ok|]. split; [now apply GateFacts2.build_ok|]. split; [now apply U_expand_obj|]. rewrite U_expand_obj by auto. f_equal. apply op_tensor_ext.
  intros r c Hr Hc. cbn [gi_op]. unfold ctrl. now rewrite (all_one_perm a b c P).
Qed.
Lemma swap_case : let a := [CG (gi_swap 0 1)] in let b := [CG (gi_cnot 0 1); CG (gi_cnot 1 0); CG (gi_cnot 0 1)] in
  Forall (ci_ok 2) a /\ Forall (ci_ok 2) b /\ exists c1 c2 u, circuit_of 2 a = Ok c1 /\ circuit_of 2 b = Ok c2 /\ cU c1 true = Ok u /\ cU c2 true = Ok u.
Proof.
  cbv zeta. assert (A : Forall (ci_ok 2) [CG (gi_swap 0 1)]) by (repeat (apply Forall_cons; [gok|]); apply Forall_nil).
  assert (B : Forall (ci_ok 2) [CG (gi_cnot 0 1); CG (gi_cnot 1 0); CG (gi_cnot 0 1)]) by (repeat (apply Forall_cons; [gok|]); apply Forall_nil).
  split; [exact A|]. split; [exact B|]. do 3 eexists. split; [now apply circuit_of_ok|]. split; [now apply circuit_of_ok|]. split; [apply cU_ok; auto; lia|].
  rewrite cU_ok by (auto; lia). f_equal. apply op_tensor_ext. pose proof (identities_true 0 0 0 0) as H. rewrite Forall_forall in H.
  specialize (H (same 2 [gi_swap 0 1] [gi_cnot 0 1; gi_cnot 1 0; gi_cnot 0 1])). unfold id_true in H. cbn [id_k id_z id_l id_r same] in H.
  intros r c Hr Hc. rewrite <- !(cs_op_CG 2) in H. cbn [map] in H. rewrite H; auto. 2: { unfold identities. do 8 (apply in_or_app; right). now left. }
  unfold scale_op. apply C_eq; cbn; ring.
Qed.
Lemma cu3_turn : forall t p l, exists g h u v, build 2 (gi_cu3 (t + 2 * PI) p l 0 1) = Ok g /\ build 2 (gi_cu3 t p l 0 1) = Ok h /\
  U_expand g = Ok u /\ U_expand h = Ok v /\ ~ exists z, is_op 2 u (scale_op z (op_of v)).
Proof.
  intros t p l. assert (K1 : gi_ok 2 (gi_cu3 (t + 2 * PI) p l 0 1)) by gok. assert (K2 : gi_ok 2 (gi_cu3 t p l 0 1)) by gok. do 4 eexists.
  split; [now apply build_ok|]. split; [now apply build_ok|]. split; [apply U_expand_obj; auto; lia|]. split; [apply U_expand_obj; auto; lia|].
  intros [z (_ & _ & H)]. pose proof (is_op_tensor 2 (gi_op 2 (gi_cu3 (t + 2 * PI) p l 0 1))) as (_ & _ & A). pose proof (is_op_tensor 2 (gi_op 2 (gi_cu3 t p l 0 1))) as (_ & _ & B).
  assert (E : forall r c, In r (bits 2) -> In c (bits 2) -> gi_op 2 (gi_cu3 (t + 2 * PI) p l 0 1) r c = Cmul z (gi_op 2 (gi_cu3 t p l 0 1) r c)).
  { intros r c Hr Hc. rewrite <- A, <- B by auto. rewrite H by auto. reflexivity. }
  clear H A B. assert (Z : z = RtoC 1).
  { pose proof (E [0; 0] [0; 0] ltac:(cbn; auto) ltac:(cbn; auto)) as X. cbn in X. destruct z as [zr zi]. unfold Cmul, RtoC in *. cbn in X. injection X as X1 X2. f_equal; lra. }
  subst z. pose proof (E [1; 0] [1; 0] ltac:(cbn; auto) ltac:(cbn; auto)) as X. pose proof (E [1; 1] [1; 0] ltac:(cbn; auto) ltac:(cbn; auto)) as Y. cbn in X, Y.
  unfold Cmul, Cexpi, RtoC in X, Y. cbn in X, Y. injection X as X1 X2. injection Y as Y1 Y2.
  replace ((t + 2 * PI) / 2)%R with (t / 2 + PI)%R in * by lra. rewrite ?neg_cos, ?neg_sin in *.
  pose proof (sin2_cos2 (t / 2)) as T. pose proof (sin2_cos2 ((p + l) / 2)) as T1. pose proof (sin2_cos2 ((p - l) / 2)) as T2. unfold Rsqr in *. rewrite ?cos_neg, ?sin_neg in *.
  assert (Cz : (cos (t / 2) * cos (t / 2) = 0)%R).
  { assert (V1 : (cos ((p + l) / 2) * cos (t / 2) = 0)%R) by lra. assert (V2 : (sin ((p + l) / 2) * cos (t / 2) = 0)%R) by lra.
    transitivity ((sin ((p + l) / 2) * sin ((p + l) / 2) + cos ((p + l) / 2) * cos ((p + l) / 2)) * (cos (t / 2) * cos (t / 2)))%R; [rewrite T1; ring|].
    transitivity ((sin ((p + l) / 2) * cos (t / 2)) * (sin ((p + l) / 2) * cos (t / 2)) + (cos ((p + l) / 2) * cos (t / 2)) * (cos ((p + l) / 2) * cos (t / 2)))%R; [ring|]. rewrite V1, V2. ring. }
  assert (Sz : (sin (t / 2) * sin (t / 2) = 0)%R).
  { assert (V1 : (cos ((p - l) / 2) * sin (t / 2) = 0)%R) by lra. assert (V2 : (sin ((p - l) / 2) * sin (t / 2) = 0)%R) by lra.
    transitivity ((sin ((p - l) / 2) * sin ((p - l) / 2) + cos ((p - l) / 2) * cos ((p - l) / 2)) * (sin (t / 2) * sin (t / 2)))%R; [rewrite T2; ring|].
    transitivity ((sin ((p - l) / 2) * sin (t / 2)) * (sin ((p - l) / 2) * sin (t / 2)) + (cos ((p - l) / 2) * sin (t / 2)) * (cos ((p - l) / 2) * sin (t / 2)))%R; [ring|]. rewrite V1, V2. ring. }
  lra.
Qed.
