(** Lemmas: a factor of modulus one is invisible. *)
From Coq Require Import List ZArith Reals Lra Lia Bool Arith Setoid Morphisms.
From Verif Require Import PyBase Scalar CInst BigSum Index Tensor TensorFacts Spec SpecFacts QMath QTN QOperator GateSpec QGates GateCalls RunSpec MPSSpec
  LayerSpec QLayers LayerCalls CircuitSpec QCircuit CircuitFacts1 CircuitProofs PlaceSpec PlaceFacts MeasSpec QMathC MeasFacts MeasCases StateFacts MPSCases GradFacts2 GradFacts3 GradCases QGradient
  IdentSpec IdentFacts IdentProofs.
Import ListNotations.
Local Close Scope R_scope.
Local Open Scope nat_scope.
Local Notation turn z psi := (fun b => Cmul z (psi b)).

Lemma act_turn : forall n (A : @qop C_scalar) z psi, st_eq (SC := C_scalar) n (act n A (turn z psi)) (turn z (act n A psi)).
Proof.
  intros n A z psi b Hb. unfold act. transitivity (bigsum (SC := C_scalar) (bits n) (fun c => kmul (Scalar := C_scalar) z (kmul (Scalar := C_scalar) (A b c) (psi c)))).
  - apply bigsum_ext. intros c Hc. destruct z as [x y], (A b c) as [u v], (psi c) as [p q]. apply C_eq; cbn; ring.
  - exact (bigsum_mul_l (SC := C_scalar) _ _ z (fun c => kmul (Scalar := C_scalar) (A b c) (psi c))).
Qed.
Lemma inner_turn : forall n z f g, Cnorm2 z = 1%R -> inner (SC := C_scalar) n (turn z f) (turn z g) = inner n f g.
Proof.
  intros n z f g H. unfold inner. apply bigsum_ext. intros b Hb. unfold Cnorm2 in H. destruct z as [x y], (f b) as [u v], (g b) as [p q]. cbn in H. apply C_eq; cbn.
  - transitivity ((x * x + y * y) * (u * p - - v * q))%R; [ring|rewrite H; ring].
  - transitivity ((x * x + y * y) * (u * q + - v * p))%R; [ring|rewrite H; ring].
Qed.
Lemma expect_turn : forall n cs z psi M, Cnorm2 z = 1%R -> expect n cs (turn z psi) M = expect n cs psi M.
Proof.
  intros n cs z psi M H. unfold expect. f_equal. rewrite <- (inner_turn n z (act n (cs_op n cs) psi)) by auto. apply inner_proper; [apply act_turn|].
  transitivity (act (SC := C_scalar) n M (turn z (act n (cs_op n cs) psi))); [now rewrite act_turn|apply act_turn].
Qed.
Lemma nonzero_turn : forall n z psi, Cnorm2 z = 1%R -> nonzero n psi -> nonzero (SC := C_scalar) n (turn z psi).
Proof.
  intros n z psi H N E. apply N. intros b Hb. specialize (E b Hb). cbn in E. unfold Cnorm2 in H. destruct z as [x y], (psi b) as [u v]. cbn in *. unfold Cmul, RtoC in E. cbn in E. injection E as E1 E2.
  assert (u = 0)%R. { transitivity ((x * x + y * y) * u)%R; [rewrite H; ring|]. transitivity (x * (x * u - y * v) + y * (x * v + y * u))%R; [ring|]. rewrite E1, E2. ring. }
  assert (v = 0)%R. { transitivity ((x * x + y * y) * v)%R; [rewrite H; ring|]. transitivity (x * (x * v + y * u) - y * (x * u - y * v))%R; [ring|]. rewrite E1, E2. ring. }
  subst. reflexivity.
Qed.
Lemma phase_measure : forall n s t t' psi z a, is_state n s t psi -> wf t -> is_state n s t' (turn z psi) -> wf t' -> vector_shape n s -> Cnorm2 z = 1%R ->
  measure (Z.of_nat n) t' a = measure (Z.of_nat n) t a.
Proof.
  intros n s t t' psi z a H1 W1 H2 W2 V Z. destruct (ith_split n a) as [(q & A & B)|(qs & E & H)]; [rewrite !(measure_bad n _ a q); auto|].
  rewrite (measure_vec n s t psi a qs), (measure_vec n s t' _ a qs H2) by auto. f_equal. apply map_ext. intros i. unfold zmean. apply rsum_ext. intros b Hb. f_equal.
  unfold Cnorm2 in *. destruct z as [x y], (psi b) as [u v]. cbn in *. transitivity ((x * x + y * y) * (u * u + v * v))%R; [ring|rewrite Z; ring].
Qed.
Lemma phase_expectation : forall svd n cs t t' psi z m M TN, exact_svd svd -> 0 < n -> Forall (ci_ok n) cs -> is_state n [1; 2 ^ n] t psi -> is_state n [1; 2 ^ n] t' (turn z psi) -> Cnorm2 z = 1%R ->
  is_op n m M -> (TN = true -> nonzero n psi /\ forallb (ci_TN n) cs = true) ->
  exists c x, circuit_of n cs = Ok c /\ cir_expectation svd c t' m TN = Ok x /\ cir_expectation svd c t m TN = Ok x.
Proof.
  intros svd n cs t t' psi z m M TN Hs Hn H H1 H2 Z Hm HT. destruct (expectation_value svd n cs t psi m M TN Hs Hn H H1 Hm HT) as (c & E1 & E2).
  destruct (expectation_value svd n cs t' _ m M TN Hs Hn H H2 Hm) as (c' & F1 & F2). { intros T. destruct (HT T). split; auto. now apply nonzero_turn. }
  assert (c' = c) by congruence. subst c'. exists c. eexists. split; [exact E1|]. split; [|exact E2]. rewrite F2. f_equal. now apply expect_turn.
Qed.
Lemma phase_gradient : forall svd n cs t t' psi z m M, exact_svd svd -> 0 < n -> Forall (ci_ok n) cs -> is_state n [1; 2 ^ n] t psi -> is_state n [1; 2 ^ n] t' (turn z psi) -> Cnorm2 z = 1%R ->
  is_op n m M -> existsb matrix_only cs = true \/ (forallb (ci_TN n) cs = true /\ nonzero n psi) ->
  exists c g, circuit_of n cs = Ok c /\ cal_params_grad svd t m c = Ok (g, c) /\ cal_params_grad svd t' m c = Ok (g, c).
Proof.
  intros svd n cs t t' psi z m M Hs Hn H H1 H2 Z Hm HC. destruct (shift_run svd n cs t psi m M Hs Hn H HC H1 Hm) as (c & g & E1 & E2 & E3 & E4).
  destruct (shift_run svd n cs t' (turn z psi) m M Hs Hn H) as (c' & g' & F1 & F2 & F3 & F4); auto. { destruct HC as [|[]]; auto. right. split; auto. now apply nonzero_turn. }
  assert (c' = c) by congruence. subst c'. exists c, g. repeat (split; [assumption|]). rewrite F2. do 2 f_equal. apply nth_ext with (d := 0%R) (d' := 0%R); [congruence|].
  intros k Hk. pose proof (E4 k ltac:(congruence)) as X. pose proof (F4 k ltac:(congruence)) as Y. cbv zeta in X, Y. rewrite X, Y. now rewrite !expect_turn.
Qed.
Lemma phase_mps : forall n l l' psi z ws obs As, 0 < n -> is_mps n l psi -> is_mps n l' (turn z psi) -> Cnorm2 z = 1%R -> (forall w, In w ws -> w < n) -> length ws = length obs -> Forall2 (is_op 1) obs As ->
  exists x m m', MPS_expec_real l (map Z.of_nat ws) obs = Ok (x, m) /\ MPS_expec_real l' (map Z.of_nat ws) obs = Ok (x, m').
Proof.
  intros n l l' psi z ws obs As Hn H1 H2 Z B L F. destruct (expec_real_ok n l psi ws obs As Hn H1 B L F) as (m & X1 & _). destruct (expec_real_ok n l' _ ws obs As Hn H2 B L F) as (m' & X2 & _).
  eexists. exists m, m'. split; [exact X1|]. rewrite X2. do 3 f_equal. rewrite <- (inner_turn n z psi) by auto. apply inner_proper; [reflexivity|apply act_turn].
Qed.

Lemma identities_unit : forall s t p l, Forall (fun i => Cnorm2 (id_z i) = 1%R) (identities s t p l).
Proof.
  intros. assert (A : Cnorm2 (RtoC 1) = 1%R) by (unfold Cnorm2, RtoC; cbn; ring). assert (B : Cnorm2 (RtoC (-1)) = 1%R) by (unfold Cnorm2, RtoC; cbn; ring).
  assert (D : Cnorm2 (Copp Ci) = 1%R) by (unfold Cnorm2, Copp, Ci; cbn; ring).
  assert (E : forall x, Cnorm2 (Cexpi x) = 1%R) by (intros x; unfold Cnorm2, Cexpi; cbn; pose proof (sin2_cos2 x) as T; unfold Rsqr in T; lra).
  unfold identities. repeat (apply Forall_app; split); unfold sums, zeros, turns, halves, involutions, conjugations, euler, symmetries, decompositions;
  repeat (apply Forall_cons; [cbn [id_z same minus]; first [exact A|exact B|exact D|apply E]|]); apply Forall_nil.
Qed.
Lemma ident_expectation : forall svd n ws s t p l i pre post v psi m M TN, exact_svd svd -> In i (identities s t p l) -> good_wires n ws -> length ws = id_k i ->
  Forall (ci_ok n) pre -> Forall (ci_ok n) post ->
  let one := pre ++ map (move ws) (map CG (id_l i)) ++ post in let two := pre ++ map (move ws) (map CG (id_r i)) ++ post in
  is_state n [1; 2 ^ n] v psi -> is_op n m M -> (TN = true -> nonzero n psi /\ forallb (ci_TN n) one = true /\ forallb (ci_TN n) two = true) ->
  exists c c' x, circuit_of n one = Ok c /\ circuit_of n two = Ok c' /\ cir_expectation svd c v m TN = Ok x /\ cir_expectation svd c' v m TN = Ok x.
Proof.
  intros svd n ws s t p l i pre post v psi m M TN Hs I W L P1 P2 one two Hv Hm HT. assert (Hn : 0 < n) by (eapply id_sides; eauto).
  destruct (expectation_value svd n one v psi m M TN Hs Hn) as (c & E1 & E2); auto. { exact (one_ok n ws s t p l i pre post I W L P1 P2). } { intros T. destruct (HT T) as (? & ? & ?). auto. }
  destruct (expectation_value svd n two v psi m M TN Hs Hn) as (c' & F1 & F2); auto. { exact (two_ok n ws s t p l i pre post I W L P1 P2). } { intros T. destruct (HT T) as (? & ? & ?). auto. }
  exists c, c'. eexists. split; [exact E1|]. split; [exact F1|]. split; [|exact F2]. rewrite E2. f_equal. unfold expect. f_equal. pose proof (identities_unit s t p l) as U. rewrite Forall_forall in U. specialize (U i I).
  assert (X : st_eq (SC := C_scalar) n (act n (cs_op n one) psi) (turn (id_z i) (act n (cs_op n two) psi))).
  { transitivity (act (SC := C_scalar) n (scale_op (id_z i) (cs_op n two)) psi); [|exact (act_scale n (id_z i) (cs_op n two) psi)].
    pose proof (IdentProofs.id_op_eq n ws s t p l i pre post I W L) as Q. fold one two in Q. now rewrite Q. }
  rewrite <- (inner_turn n (id_z i) (act n (cs_op n two) psi)) by auto. apply inner_proper; [exact X|]. transitivity (act (SC := C_scalar) n M (turn (id_z i) (act n (cs_op n two) psi))); [now rewrite X|apply act_turn].
Qed.
