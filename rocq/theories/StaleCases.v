(** Counterexamples for gradients of a circuit whose angles were changed after it was built. *)
From Coq Require Import List ZArith QArith Reals Lra Lia Bool Arith.
From Verif Require Import PyBase Scalar CInst BigSum Index Tensor Spec SpecFacts GateSpec RunSpec LayerSpec MPSSpec CircuitSpec GradSpec
  QMath QTN QOperator QGates GateCalls QLayers LayerCalls QCircuit QGradient CircuitFacts1 CircuitProofs GradFacts1 GradFacts2 GradFacts3 GradFacts4 GradProofs GradProofs2 GradCases SharedCases StaleProofs.
Import ListNotations.
Local Close Scope Q_scope.
Local Close Scope R_scope.
Local Open Scope nat_scope.

Lemma rx_overlap : forall a b, Re (inner 1 (act 1 (lift Z_op [0]) (act 1 (cs_op 1 [CG (gi_rx a 0)]) (zero_state 1))) (act 1 (cs_op 1 [CG (gi_rx b 0)]) (zero_state 1))) = cos (a / 2 + b / 2)%R.
Proof. intros a b. rewrite cos_plus. conc. ring. Qed.
Lemma rx_expect : forall a, expect 1 [CG (gi_rx a 0)] (zero_state 1) (lift Z_op [0]) = cos a.
Proof. intros a. rewrite expect_overlap, rx_overlap. f_equal. lra. Qed.
Lemma dcos_rx : forall a, derivable_pt_lim (fun x => expect 1 [CG (gi_rx x 0)] (zero_state 1) (lift Z_op [0])) a (- sin a)%R.
Proof. intros a. apply (ext_lim _ cos); [exact rx_expect|apply derivable_pt_lim_cos]. Qed.

Theorem adjoint_updated_wrong : forall svd a b t c d, exact_svd svd -> is_state 1 [1; 2] t (zero_state 1) -> sin ((a + b) / 2) <> sin a -> sin ((a + b) / 2) <> sin b ->
  circuit_of 1 [CG (gi_rx a 0)] = Ok c -> circuit_of 1 [CG (gi_rx b 0)] = Ok d ->
  exists o sd sv g, obuild 1 (CG (gi_Z 0)) = Ok o /\ let c1 := mkC 1 (c_gate d) (c_params c) (c_num c) in
    save_mid_MPS svd t c1 o = Ok (sd, sv) /\ cal_params_grad2 svd t c1 sd = Ok (g, c) /\ g = [- sin ((a + b) / 2)]%R /\
    ~ is_gradient 1 [CG (gi_rx a 0)] (zero_state 1) (lift Z_op [0]) g /\ ~ is_gradient 1 [CG (gi_rx b 0)] (zero_state 1) (lift Z_op [0]) g.
Proof.
  intros svd a b t c d Hs Ht Na Nb Ec Ed.
  assert (Oz : ci_ok 1 (CG (gi_Z 0))) by (split; [|exact I]; split; [repeat constructor; cbn; intuition lia|]; intros w; cbn; intuition lia).
  destruct (adjoint_stale svd 1 [CG (gi_rx a 0)] [b] [b] t (zero_state 1) (CG (gi_Z 0)) c d d Hs (le_n 1) (Forall_cons _ (rxc_ok a) (Forall_nil _)) eq_refl ltac:(discriminate) eq_refl eq_refl Oz eq_refl Ht zero1_nonzero Ec Ed Ed)
    as (o & sd & sv & g & E1 & E2 & _ & E3 & L & V).
  - exists o, sd, sv, g. split; [exact E1|]. cbv zeta. split; [exact E2|]. split; [exact E3|].
    assert (G : g = [- sin ((a + b) / 2)]%R).
    { specialize (V [] (CG (gi_rx a 0)) [] 0 eq_refl (le_n 1)). cbn [cs_angles flat_map ci_angles gi_angles length Nat.add cs_with app nth ci_with gi_with set_at firstn skipn ci_op gi_op] in V.
      unfold set_at in V. cbn [firstn skipn app gi_with] in V. rewrite rx_overlap in V.
      replace (b / 2 + (a - PI) / 2)%R with (- (PI / 2 - (a + b) / 2))%R in V by lra. rewrite cos_neg, cos_shift in V.
      cbn in L. destruct g as [|y [|]]; try discriminate. cbn [nth] in V. now rewrite V. }
    split; [exact G|]. rewrite G. split; [apply (not_gradient 1 _ _ _ _ 0 (- sin a)%R)|apply (not_gradient 1 _ _ _ _ 0 (- sin b)%R)]; try (cbn; lia); try apply dcos_rx; cbn [nth]; lra.
Qed.
Theorem shift_updated_wrong : forall svd a a' b b' t m c d, exact_svd svd -> is_state 1 [1; 2] t (zero_state 1) -> is_op 1 m (lift Z_op [0]) ->
  sin (a + b') <> sin (a + a') -> sin (a + b') <> sin (b + b') ->
  circuit_of 1 [CG (gi_rx a 0); CG (gi_rx a' 0)] = Ok c -> circuit_of 1 [CG (gi_rx b 0); CG (gi_rx b' 0)] = Ok d ->
  exists g, cal_params_grad svd t m (mkC 1 (c_gate d) (c_params c) (c_num c)) = Ok (g, c) /\ g = [- sin (a + b'); - sin (a + a')]%R /\
    ~ is_gradient 1 [CG (gi_rx a 0); CG (gi_rx a' 0)] (zero_state 1) (lift Z_op [0]) g /\ ~ is_gradient 1 [CG (gi_rx b 0); CG (gi_rx b' 0)] (zero_state 1) (lift Z_op [0]) g.
Proof.
  intros svd a a' b b' t m c d Hs Ht Hm Na Nb Ec Ed.
  assert (D0 : forall p q, derivable_pt_lim (fun x => expect 1 [CG (gi_rx x 0); CG (gi_rx q 0)] (zero_state 1) (lift Z_op [0])) p (- sin (p + q))%R).
  { intros p q. apply (ext_lim _ (fun x => cos (x + q))); [intros y; apply rx_rx|apply dcos_shift]. }
  assert (D1 : forall p q, derivable_pt_lim (fun x => expect 1 [CG (gi_rx p 0); CG (gi_rx x 0)] (zero_state 1) (lift Z_op [0])) q (- sin (p + q))%R).
  { intros p q. apply (ext_lim _ (fun x => cos (x + p))); [intros y; rewrite (rx_rx p y : expect 1 [CG (gi_rx p 0); CG (gi_rx y 0)] _ _ = _); f_equal; lra|]. rewrite (Rplus_comm p q). apply dcos_shift. }
  destruct (shift_stale svd 1 [CG (gi_rx a 0); CG (gi_rx a' 0)] [b; b'] t (zero_state 1) m (lift Z_op [0]) c d Hs (le_n 1)
    (Forall_cons _ (rxc_ok a) (Forall_cons _ (rxc_ok a') (Forall_nil _))) eq_refl (or_intror (conj eq_refl zero1_nonzero)) Ht Hm Ec Ed) as (g & E & L & V).
  - exists g. split; [exact E|].
    assert (G : g = [- sin (a + b'); - sin (a + a')]%R).
    { destruct (V [] (CG (gi_rx a 0)) [CG (gi_rx a' 0)] 0 eq_refl (le_n 1)) as [_ V0]. destruct (V [CG (gi_rx a 0)] (CG (gi_rx a' 0)) [] 0 eq_refl (le_n 1)) as [_ V1].
      specialize (V0 eq_refl). specialize (V1 eq_refl).
      pose proof (uniqueness_limite _ _ _ _ V0 (D0 a b')) as W0. pose proof (uniqueness_limite _ _ _ _ V1 (D1 a a')) as W1.
      cbn in L. destruct g as [|y [|z [|]]]; try discriminate. cbn in W0, W1. now rewrite W0, W1. }
    split; [exact G|]. rewrite G. split.
    + apply (not_gradient 1 _ _ _ _ 0 (- sin (a + a'))%R); [cbn; lia|apply D0|]. cbn [nth]. lra.
    + apply (not_gradient 1 _ _ _ _ 0 (- sin (b + b'))%R); [cbn; lia|apply D0|]. cbn [nth]. lra.
Qed.

(** ** gradient descent *)
(** a circuit in which one operation has angles: whatever they were changed to, the answer is the gradient at the recorded angles *)
Theorem one_operation : forall svd n pre x post v t psi m M c d, exact_svd svd -> 0 < n -> Forall (ci_ok n) (pre ++ x :: post) -> cs_angles pre = [] -> cs_angles post = [] -> two_term x = true ->
  length v = length (ci_angles x) -> existsb matrix_only (pre ++ x :: post) = true \/ (forallb (ci_TN n) (pre ++ x :: post) = true /\ nonzero n psi) ->
  is_state n [1; 2 ^ n] t psi -> is_op n m M ->
  circuit_of n (pre ++ x :: post) = Ok c -> circuit_of n (pre ++ ci_with x v :: post) = Ok d ->
  exists g, cal_params_grad svd t m (mkC n (c_gate d) (c_params c) (c_num c)) = Ok (g, c) /\ is_gradient n (pre ++ x :: post) psi M g.
Proof.
  intros svd n pre x post v t psi m M c d Hs Hn H A1 A2 T L HC Ht Hm Ec Ed.
  assert (NoA : forall l w, cs_angles l = [] -> cs_with l w = l).
  { induction l as [|y l IH]; intros w A; [reflexivity|]. cbn [cs_angles flat_map] in A. fold (cs_angles l) in A. apply app_eq_nil in A. destruct A as [B1 B2].
    cbn [cs_with]. cbv zeta. rewrite B1. cbn [length firstn]. rewrite IH by exact B2. f_equal. rewrite <- (ci_with_self y) at 2. now rewrite B1. }
  assert (AX : cs_angles (pre ++ x :: post) = ci_angles x) by (rewrite cs_angles_app, A1; cbn [cs_angles flat_map app]; fold (cs_angles post); now rewrite A2, app_nil_r).
  assert (W : forall u, length u = length (ci_angles x) -> cs_with (pre ++ x :: post) u = pre ++ ci_with x u :: post).
  { intros u Lu. rewrite cs_with_at', (NoA pre), (NoA post), A1 by assumption. cbn [length skipn]. rewrite <- Lu at 1. now rewrite firstn_all. }
  destruct (shift_stale svd n (pre ++ x :: post) v t psi m M c d Hs Hn H) as (g & E & LG & V); auto; [now rewrite AX|now rewrite W|].
  exists g. split; [exact E|]. split; [exact LG|]. intros k Hk. rewrite AX in *. destruct (V pre x post k eq_refl Hk) as [_ D]. specialize (D T). rewrite A1 in D. cbn [length Nat.add] in D.
  rewrite (NoA post) in D by exact A2. eapply ext_lim; [|exact D]. intros y. cbn beta. now rewrite W by (now apply set_at_length).
Qed.
(** k steps of gradient descent with step size eta as a user would write them: theta is the user's copy of the angle *)
Fixpoint descend (svd : tensor -> tensor * tensor * tensor) (t m : tensor) (eta : R) (k : nat) (c : circuit) (theta : R) : res (circuit * R) :=
  match k with
  | 0 => Ok (c, theta)
  | S k' => do g <- cal_params_grad svd t m c;
            let theta := (theta - eta * nth 0 (fst g) 0)%R in
            do c' <- update_gate (snd g) 0 (PS theta);
            descend svd t m eta k' c' theta
  end.
Theorem descent_wrong : forall svd a eta k t m c, exact_svd svd -> is_state 1 [1; 2] t (zero_state 1) -> is_op 1 m (lift Z_op [0]) -> circuit_of 1 [CG (gi_rx a 0)] = Ok c ->
  exists c', descend svd t m eta k c a = Ok (c', a + INR k * (eta * sin a))%R.
Proof.
  intros svd a eta k t m c Hs Ht Hm Ec.
  assert (F : forall y, Forall (ci_ok 1) [CG (gi_rx y 0)]) by (intros y; exact (Forall_cons _ (rxc_ok y) (Forall_nil _))).
  assert (Step : forall y, exists g, cal_params_grad svd t m (mkC 1 (c_gate (circ 1 [CG (gi_rx y 0)])) (c_params c) (c_num c)) = Ok (g, c) /\ nth 0 g 0%R = (- sin a)%R).
  { intros y. destruct (one_operation svd 1 [] (CG (gi_rx a 0)) [] [y] t (zero_state 1) m (lift Z_op [0]) c (circ 1 [CG (gi_rx y 0)]) Hs (le_n 1) (F a) eq_refl eq_refl eq_refl eq_refl
      (or_intror (conj eq_refl zero1_nonzero)) Ht Hm Ec (circuit_of_ok 1 _ (F y))) as (g & E & L & D). exists g. split; [exact E|].
    exact (uniqueness_limite _ _ _ _ (D 0 (le_n 1)) (dcos_rx a)). }
  assert (Up : forall y, update_gate c 0 (PS y) = Ok (mkC 1 (c_gate (circ 1 [CG (gi_rx y 0)])) (c_params c) (c_num c))).
  { intros y. apply (update_makes_stale 1 [] (CG (gi_rx a 0)) [] [y] (PS y) c (circ 1 [CG (gi_rx y 0)])); auto; [apply F|discriminate|apply circuit_of_ok, F]. }
  assert (G : forall k y th, exists c', descend svd t m eta k (mkC 1 (c_gate (circ 1 [CG (gi_rx y 0)])) (c_params c) (c_num c)) th = Ok (c', th + INR k * (eta * sin a))%R).
  { clear k. induction k as [|k IH]; intros y th; [eexists; cbn [descend INR]; do 2 f_equal; ring|]. destruct (Step y) as (g & E & N). cbn [descend]. rewrite E. cbn [bind fst snd]. rewrite N, Up. cbn [bind].
    destruct (IH (th - eta * - sin a)%R (th - eta * - sin a)%R) as (c' & E'). exists c'. rewrite E', S_INR. do 2 f_equal. ring. }
  destruct (G k a a) as (c' & E). exists c'. rewrite <- E. f_equal. rewrite circuit_of_ok in Ec by apply F. injection Ec as <-. reflexivity.
Qed.
