(** Lemmas: what a circuit on some of the wires cannot change. *)
From Coq Require Import List ZArith QArith Reals Lra Lia Bool Arith Setoid Morphisms.
From Verif Require Import PyBase Scalar CInst BigSum Index Tensor TensorFacts Spec SpecFacts QMath QTN QOperator ExpandFacts ExpandFacts2 GateSpec QGates GateCalls GateFacts6
  RunSpec MPSSpec MPSFacts1 MPSFacts5 MPSFacts6 LayerSpec QLayers LayerCalls LayerFacts1 CircuitSpec QCircuit CircuitFacts1 CircuitProofs PlaceSpec PlaceFacts ApartSpec
  PTSpec PTFacts1 PTFacts4 PTProofs MeasSpec QMathC MeasFacts MeasCases StateFacts MPSCases GradFacts2 GradCases QGradient QMathC RhoCalls ApartFacts.
Import ListNotations.
Local Close Scope Q_scope.
Local Close Scope R_scope.
Local Open Scope nat_scope.

Lemma evolve_ok : forall n (U A : @qop C_scalar), evolve_rho (op_tensor n U) (op_tensor n A) = Ok (op_tensor n (mul_op n (mul_op n U A) (adj_op U))).
Proof. intros n U A. unfold evolve_rho. rewrite dag_op. cbn [bind]. rewrite matmul_op. cbn [bind]. apply matmul_op. Qed.
Lemma tol_C : forall z, (Cabs (Csub z (RtoC 1)) <= 1 / 10000)%R -> kabsgt (Scalar := C_scalar) (ksub z k1) (1 # 10000)%Q = false.
Proof. intros z H. apply Cabsgt_false. now rewrite tol4. Qed.
Lemma ptr_traced : forall n ts U (A : @qop C_scalar), good_wires n ts -> unitary (length ts) U ->
  op_eq (n - length ts) (ptr n ts (mul_op n (mul_op n (lift U ts) A) (adj_op (lift U ts)))) (ptr n ts A).
Proof.
  intros n ts U A T HU. assert (HL : unitary n (lift U ts)) by now apply lift_unitary. destruct HL as [H1 _].
  transitivity (ptr n ts (mul_op n (lift U ts) (mul_op n A (lift (adj_op U) ts)))).
  { apply ptr_ext; auto. rewrite lift_adj. apply mul_op_assoc. }
  rewrite (ptr_cyclic n ts T U). apply ptr_ext; auto. rewrite mul_op_assoc. rewrite <- lift_adj. rewrite H1. apply mul_op_id_r.
Qed.
Lemma traced_out : forall n ts cs t A, 0 < n -> good_wires n ts -> Forall (ci_ok n) cs -> within ts cs -> is_op n t A -> (Cabs (Csub (trace_op n A) (RtoC 1)) <= 1 / 10000)%R ->
  exists c u t' r, circuit_of n cs = Ok c /\ cU c true = Ok u /\ evolve_rho u t = Ok t' /\ partial_trace t' n (map Z.of_nat ts) = Ok r /\ partial_trace t n (map Z.of_nat ts) = Ok r.
Proof.
  intros n ts cs t A Hn T H S Ht Tr. apply is_op_eq in Ht. subst t. destruct (within_op n ts cs T H S) as (U & HU & E).
  assert (P : op_eq (n - length ts) (ptr n ts (mul_op n (mul_op n (cs_op n cs) A) (adj_op (cs_op n cs)))) (ptr n ts A)).
  { transitivity (ptr n ts (mul_op n (mul_op n (lift U ts) A) (adj_op (lift U ts)))); [|now apply ptr_traced]. apply ptr_ext; auto. now rewrite E. }
  destruct (pt_traces n (op_tensor n A) A ts (is_op_tensor _ _) (tol_C _ Tr) T) as (r & R1 & R2).
  destruct (pt_traces n (op_tensor n (mul_op n (mul_op n (cs_op n cs) A) (adj_op (cs_op n cs)))) _ ts (is_op_tensor _ _)) as (r' & Q1 & Q2); auto.
  { apply tol_C. rewrite <- (ptr_trace n ts) by auto. rewrite <- (ptr_trace n ts A) in Tr by auto. replace (trace_op (n - length ts) (ptr n ts (mul_op n (mul_op n (cs_op n cs) A) (adj_op (cs_op n cs))))) with (trace_op (n - length ts) (ptr n ts A)); auto.
    unfold trace_op. apply bigsum_ext. intros x Hx. symmetry. now apply P. }
  exists (circ n cs), (op_tensor n (cs_op n cs)). eexists. exists r. split; [now apply circuit_of_ok|]. split; [now apply cU_ok|]. split; [apply evolve_ok|]. split; [|exact R1].
  rewrite Q1. f_equal. apply is_op_eq in R2, Q2. subst. now apply op_tensor_ext.
Qed.
Lemma kept_evolves : forall n ts cs t A, good_wires n ts -> length ts < n -> Forall (ci_ok (n - length ts)) cs -> is_op n t A -> (Cabs (Csub (trace_op n A) (RtoC 1)) <= 1 / 10000)%R ->
  exists c u c' u' t' r r', circuit_of (n - length ts) cs = Ok c /\ cU c true = Ok u /\ circuit_of n (map (move (kept n ts)) cs) = Ok c' /\ cU c' true = Ok u' /\
    evolve_rho u' t = Ok t' /\ partial_trace t n (map Z.of_nat ts) = Ok r /\ partial_trace t' n (map Z.of_nat ts) = Ok r' /\ evolve_rho u r = Ok r'.
Proof.
  intros n ts cs t A T L H Ht Tr. apply is_op_eq in Ht. subst t. pose proof (kept_good n ts) as W. pose proof (kept_length n ts T) as LK.
  assert (H' : Forall (ci_ok (length (kept n ts))) cs) by (now rewrite LK). pose proof (moves_op n (kept n ts) W cs H') as E. rewrite LK in E. pose proof (moves_ok n (kept n ts) W cs H') as OK.
  set (m := n - length ts) in *. set (V := cs_op m cs) in *. set (U := cs_op n (map (move (kept n ts)) cs)) in *.
  assert (HU : unitary n U) by now apply cs_unitary.
  destruct (pt_traces n (op_tensor n A) A ts (is_op_tensor _ _) (tol_C _ Tr) T) as (r & R1 & R2).
  assert (TT : trace_op n (mul_op n (mul_op n U A) (adj_op U)) = trace_op n A).
  { unfold trace_op. transitivity (bigsum (SC := C_scalar) (bits n) (fun x => mul_op n (adj_op U) (mul_op n U A) x x)).
    - unfold mul_op at 1 3. rewrite bigsum_swap. apply bigsum_ext. intros x Hx. apply bigsum_ext. intros y Hy. exact (Ring_theory.Rmul_comm (k_ring (Scalar := C_scalar)) _ _).
    - apply bigsum_ext. intros x Hx. rewrite <- (mul_op_assoc n (adj_op U) U A x x Hx Hx). transitivity (mul_op (SC := C_scalar) n id_op A x x); [|now apply mul_op_id_l].
      unfold mul_op at 1 3. apply bigsum_ext. intros y Hy. f_equal. now apply HU. }
  destruct (pt_traces n (op_tensor n (mul_op n (mul_op n U A) (adj_op U))) _ ts (is_op_tensor _ _)) as (r' & Q1 & Q2); auto. { apply tol_C. now rewrite TT. }
  exists (circ m cs), (op_tensor m V), (circ n (map (move (kept n ts)) cs)), (op_tensor n U). eexists. exists r, r'.
  split; [now apply circuit_of_ok|]. split; [apply cU_ok; auto; lia|]. split; [now apply circuit_of_ok|]. split; [apply cU_ok; auto; lia|]. split; [apply evolve_ok|]. split; [exact R1|]. split; [exact Q1|].
  apply is_op_eq in R2, Q2. subst r r'. rewrite evolve_ok. f_equal. apply op_tensor_ext. fold m.
  symmetry. transitivity (ptr n ts (mul_op n (mul_op n (lift V (kept n ts)) A) (lift (adj_op V) (kept n ts)))).
  { apply ptr_ext; auto. rewrite E. now rewrite lift_adj. }
  subst m. rewrite ptr_kept_r by auto. now rewrite ptr_kept_l.
Qed.

(** measured values *)
Lemma zmean_inner : forall n psi q, q < n -> zmean n psi q = Re (inner n psi (act n (lift Z_op [q]) psi)).
Proof.
  intros n psi q Hq. unfold inner. rewrite Re_bigsum_rsum. unfold zmean. apply rsum_ext. intros b Hb.
  assert (E : act n (lift Z_op [q]) psi b = Cmul (RtoC (zsign q b)) (psi b)).
  { unfold act. rewrite (bigsum_single _ _ b); auto using bits_NoDup.
    - rewrite (Z_diag n q b b) by auto. destruct (list_eq_dec _ b b); [reflexivity|contradiction].
    - intros c Hc N. rewrite (Z_diag n q b c) by auto. destruct (list_eq_dec _ b c); [congruence|]. apply C_eq; cbn; ring. }
  change (zsign q b * Cnorm2 (psi b) = Re (Cmul (Cconj (psi b)) (act n (lift Z_op [q]) psi b)))%R. rewrite E. unfold Cnorm2. destruct (psi b) as [x y]. cbn. ring.
Qed.
Lemma apart_one : forall ms (cs : list ci) q, apart ms cs -> In q ms -> apart [q] cs.
Proof. intros ms cs q S Hq c w Hc Hw [<-|[]]. exact (S c q Hc Hw Hq). Qed.
Lemma measured_elsewhere : forall n cs t psi qs, 0 < n -> Forall (ci_ok n) cs -> is_state n [2 ^ n; 1] t psi -> qs <> [] -> (forall q, In q qs -> q < n) -> apart qs cs ->
  exists c u t', circuit_of n cs = Ok c /\ cU c true = Ok u /\ matmul u t = Ok t' /\ measure (Z.of_nat n) t' (IList (map Z.of_nat qs)) = measure (Z.of_nat n) t (IList (map Z.of_nat qs)).
Proof.
  intros n cs t psi qs Hn H Ht Hq B S. apply state_col in Ht. subst t. exists (circ n cs), (op_tensor n (cs_op n cs)), (col n (act n (cs_op n cs) psi)).
  split; [now apply circuit_of_ok|]. split; [now apply cU_ok|]. split; [apply op_col|].
  assert (VS : vector_shape n [2 ^ n; 1]) by (unfold vector_shape; cbn [filter]; assert (2 <= 2 ^ n) by (destruct n; [lia|cbn; pose proof (Nat.pow_nonzero 2 n ltac:(lia)); lia]); destruct (Nat.eqb_spec (2 ^ n) 1); [lia|reflexivity]).
  rewrite !(measure_list n [2 ^ n; 1] _ _ qs (col_state n _) (col_wf n _) VS Hq B). f_equal. apply map_ext_in. intros q Hin. rewrite !zmean_inner by auto. f_equal.
  apply comm_expect; [now apply cs_unitary|]. apply apart_comm; auto; [apply good_wires_1; auto|]. eapply apart_one; eauto.
Qed.

(** expectations *)
Lemma apart_expect : forall n ms cs ds M psi, good_wires n ms -> Forall (ci_ok n) ds -> apart ms ds -> expect n (cs ++ ds) psi (lift M ms) = expect n cs psi (lift M ms).
Proof.
  intros n ms cs ds M psi W H S. unfold expect. f_equal. rewrite <- (comm_expect n (cs_op n ds) (lift M ms) (act n (cs_op n cs) psi)); [|now apply cs_unitary|now apply apart_comm].
  assert (E : st_eq (SC := C_scalar) n (act n (cs_op n (cs ++ ds)) psi) (act n (cs_op n ds) (act n (cs_op n cs) psi))).
  { intros b Hb. rewrite <- (act_mul n _ _ psi b Hb). unfold act. apply bigsum_ext. intros c Hc. f_equal. now apply cs_op_app. }
  apply inner_proper; [exact E|]. now rewrite E.
Qed.
Lemma light_cone : forall svd n cs ds t psi m M ms TN, exact_svd svd -> 0 < n -> Forall (ci_ok n) cs -> Forall (ci_ok n) ds -> good_wires n ms -> apart ms ds ->
  is_state n [1; 2 ^ n] t psi -> is_op n m (lift M ms) -> (TN = true -> nonzero n psi /\ forallb (ci_TN n) (cs ++ ds) = true) ->
  exists c d x, circuit_of n cs = Ok c /\ circuit_of n (cs ++ ds) = Ok d /\ cir_expectation svd d t m TN = Ok x /\ cir_expectation svd c t m TN = Ok x.
Proof.
  intros svd n cs ds t psi m M ms TN Hs Hn H1 H2 W S Ht Hm HT.
  destruct (expectation_value svd n cs t psi m (lift M ms) TN Hs Hn H1 Ht Hm) as (c & C1 & C2). { intros T. destruct (HT T) as [T1 T2]. rewrite forallb_app in T2. apply andb_prop in T2. tauto. }
  destruct (expectation_value svd n (cs ++ ds) t psi m (lift M ms) TN Hs Hn) as (d & D1 & D2); auto. { apply Forall_app; auto. }
  exists c, d. eexists. split; [exact C1|]. split; [exact D1|]. split; [|exact C2]. rewrite D2. f_equal. now apply apart_expect.
Qed.
Lemma obs_comm : forall n ws As (U : @qop C_scalar), (forall w A, In w ws -> op_eq n (mul_op n (lift A [w]) U) (mul_op n U (lift A [w]))) -> op_eq n (mul_op n (obs_op n ws As) U) (mul_op n U (obs_op n ws As)).
Proof.
  intros n ws As U H. unfold obs_op. assert (G : forall w A, In (w, A) (combine ws As) -> op_eq n (mul_op n (lift A [w]) U) (mul_op n U (lift A [w]))) by (intros w A Hi; apply H; now apply in_combine_l in Hi).
  revert G. generalize (combine ws As) as l. clear H. intros l G. assert (X : forall B, op_eq n (mul_op n B U) (mul_op n U B) ->
    op_eq n (mul_op n (fold_left (fun B (wa : nat * qop) => mul_op n (lift (snd wa) [fst wa]) B) l B) U) (mul_op n U (fold_left (fun B (wa : nat * qop) => mul_op n (lift (snd wa) [fst wa]) B) l B))).
  { induction l as [|[w A] l IH]; intros B HB; [exact HB|]. cbn [fold_left fst snd]. apply IH; [intros; apply G; now right|].
    rewrite mul_op_assoc, HB, <- mul_op_assoc, (G w A) by (now left). apply mul_op_assoc. }
  apply X. now rewrite mul_op_id_l, mul_op_id_r.
Qed.
Lemma mps_elsewhere : forall svd n cs l psi ws obs As, exact_svd svd -> 0 < n -> Forall (ci_ok n) cs -> forallb (ci_TN n) cs = true -> is_mps n l psi -> nonzero n psi ->
  (forall w, In w ws -> w < n) -> apart ws cs -> length ws = length obs -> Forall2 (is_op 1) obs As ->
  exists c l' x m m', circuit_of n cs = Ok c /\ TN_evolution svd c l = Ok l' /\ MPS_expec_real l' (map Z.of_nat ws) obs = Ok (x, m') /\ MPS_expec_real l (map Z.of_nat ws) obs = Ok (x, m).
Proof.
  intros svd n cs l psi ws obs As Hs Hn H HT M Z B S L F. destruct (mps_product svd n cs l psi Hs H HT M Z) as (c & l' & E1 & E2 & E3).
  destruct (expec_real_ok n l psi ws obs As Hn M B L F) as (m & X1 & _). destruct (expec_real_ok n l' _ ws obs As Hn E3 B L F) as (m' & X2 & _).
  exists c, l'. eexists. exists m, m'. split; [exact E1|]. split; [exact E2|]. split; [|exact X1]. rewrite X2. do 3 f_equal.
  apply comm_expect; [now apply cs_unitary|]. apply obs_comm. intros w A Hw. apply apart_comm; auto; [apply good_wires_1; auto|]. eapply apart_one; eauto.
Qed.

(** the gradient entries of operations outside the light cone *)
Lemma cs_with_app : forall cs ds u v, length u = length (cs_angles cs) -> cs_with (cs ++ ds) (u ++ v) = cs_with cs u ++ cs_with ds v.
Proof.
  induction cs as [|c cs IH]; intros ds u v L; [destruct u; [reflexivity|discriminate]|]. cbn [app cs_with cs_angles flat_map] in *. rewrite app_length in L.
  change (flat_map ci_angles cs) with (cs_angles cs) in L. rewrite firstn_app, skipn_app. replace (length (ci_angles c) - length u) with 0 by lia. cbn [firstn skipn]. rewrite app_nil_r. f_equal. apply IH. rewrite skipn_length. lia.
Qed.
Lemma ci_with_wires : forall c u, ci_wires (ci_with c u) = ci_wires c.
Proof. intros [g|[]] u; cbn; auto using gi_with_wires. Qed.
Lemma cs_with_apart : forall ms cs v, apart ms cs -> apart ms (cs_with cs v).
Proof.
  intros ms cs. induction cs as [|c cs IH]; intros v S d w Hd Hw; [contradiction|]. cbn [cs_with] in Hd. destruct Hd as [<-|Hd].
  - rewrite ci_with_wires in Hw. apply (S c); [now left|exact Hw].
  - refine (IH _ _ d w Hd Hw). intros e x He. apply S. now right.
Qed.
Lemma cs_with_oks : forall n cs v, Forall (ci_ok n) cs -> length v = length (cs_angles cs) -> Forall (ci_ok n) (cs_with cs v).
Proof.
  intros n cs. induction cs as [|c cs IH]; intros v H L; [constructor|]. inversion_clear H as [|? ? H1 H2]. cbn [cs_with cs_angles flat_map] in *. rewrite app_length in L.
  change (flat_map ci_angles cs) with (cs_angles cs) in L. constructor; [apply ci_with_ok; auto; rewrite firstn_length; lia|]. apply IH; auto. rewrite skipn_length. lia.
Qed.
Lemma zero_gradient : forall svd n cs ds t psi m M ms, exact_svd svd -> 0 < n -> Forall (ci_ok n) cs -> Forall (ci_ok n) ds -> good_wires n ms -> apart ms ds ->
  existsb matrix_only (cs ++ ds) = true \/ (forallb (ci_TN n) (cs ++ ds) = true /\ nonzero n psi) -> is_state n [1; 2 ^ n] t psi -> is_op n m (lift M ms) ->
  exists c g, circuit_of n (cs ++ ds) = Ok c /\ cal_params_grad svd t m c = Ok (g, c) /\ length g = length (cs_angles cs) + length (cs_angles ds) /\
    forall k, length (cs_angles cs) <= k < length g -> nth k g 0%R = 0%R.
Proof.
  intros svd n cs ds t psi m M ms Hs Hn H1 H2 W S HC Ht Hm. destruct (shift_run svd n (cs ++ ds) t psi m (lift M ms) Hs Hn) as (c & g & E1 & E2 & E3 & E4); auto. { apply Forall_app; auto. }
  rewrite cs_angles_app, app_length in E3. exists c, g. repeat (split; [assumption|]). intros k [K1 K2].
  assert (K3 : k < length (cs_angles (cs ++ ds))) by (rewrite cs_angles_app, app_length; lia). pose proof (E4 k K3) as X. cbv zeta in X. rewrite X. clear X E4.
  set (a := (nth k (cs_angles (cs ++ ds)) 0 + / 2 * PI)%R). set (b := (nth k (cs_angles (cs ++ ds)) 0 - / 2 * PI)%R). clearbody a b.
  assert (Y : forall y, expect n (cs_with (cs ++ ds) (set_at k y (cs_angles (cs ++ ds)))) psi (lift M ms) = expect n cs psi (lift M ms)).
  { intros y. assert (Ek : k = length (cs_angles cs) + (k - length (cs_angles cs))) by lia. set (j := k - length (cs_angles cs)) in *. assert (Lj : j < length (cs_angles ds)) by lia.
    rewrite cs_angles_app, Ek, set_at_app2, cs_with_app, cs_with_self by auto. apply apart_expect; auto using cs_with_apart. apply cs_with_oks; auto. now apply set_at_length. }
  rewrite !Y. lra.
Qed.
