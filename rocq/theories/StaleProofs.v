(** Theorems: gradients of a circuit whose angles were changed after it was built. *)
From Coq Require Import List ZArith QArith Reals Lra Lia Bool Arith Setoid Morphisms.
From Verif Require Import PyBase Scalar CInst BigSum Index Tensor Spec SpecFacts GateSpec RunSpec LayerSpec MPSSpec CircuitSpec GradSpec
  QMath QTN QOperator QGates GateCalls QLayers LayerCalls GateFacts2 GateFacts4 GateFacts6 LayerFacts4 QCircuit QGradient CircuitFacts1 CircuitProofs GradFacts1 GradFacts2 GradFacts3 GradFacts4 GradProofs GradProofs2 GradCases.
Import ListNotations.
Local Close Scope Q_scope.
Local Close Scope R_scope.
Local Open Scope nat_scope.

Lemma cs_with_app : forall a b v, cs_with (a ++ b) v = cs_with a v ++ cs_with b (skipn (length (cs_angles a)) v).
Proof.
  induction a as [|x a IH]; intros b v; [reflexivity|]. cbn [app cs_with cs_angles flat_map]. cbv zeta. rewrite IH, app_length. do 2 f_equal. fold (cs_angles a). f_equal.
  generalize (length (ci_angles x)) (length (cs_angles a)). clear. intros p q. revert v. induction p as [|p IHp]; intros v; [reflexivity|]. destruct v; [now rewrite !skipn_nil|]. apply IHp.
Qed.
Lemma cs_with_length : forall cs v, length (cs_with cs v) = length cs.
Proof. induction cs as [|x cs IH]; intros v; [reflexivity|]. cbn [cs_with]. cbv zeta. cbn [length]. now rewrite IH. Qed.
Lemma skipn_skipn' : forall A p q (v : list A), skipn q (skipn p v) = skipn (p + q) v.
Proof. intros A p q. induction p as [|p IHp]; intros v; [reflexivity|]. destruct v; [now rewrite !skipn_nil|]. apply IHp. Qed.
Lemma cs_with_at' : forall pre x post v, cs_with (pre ++ x :: post) v = cs_with pre v ++ ci_with x (firstn (length (ci_angles x)) (skipn (length (cs_angles pre)) v)) :: cs_with post (skipn (length (cs_angles (pre ++ [x]))) v).
Proof.
  intros pre x post v. rewrite cs_with_app. f_equal. cbn [cs_with]. cbv zeta. f_equal. f_equal. rewrite skipn_skipn', cs_angles_app, app_length. cbn [cs_angles flat_map]. now rewrite app_nil_r.
Qed.
Lemma form_TN : forall n cs v, forallb (ci_TN n) (cs_with cs v) = forallb (ci_TN n) cs.
Proof. intros n. induction cs as [|x cs IH]; intros v; [reflexivity|]. cbn [cs_with forallb]. cbv zeta. cbn [forallb]. now rewrite ci_with_TN, IH. Qed.

(** ** the two-point rule *)
Lemma all_grad_nth' : forall n psi M pre x post v done i, length v = length (cs_angles (pre ++ x :: post)) -> i < length (ci_angles x) ->
  nth (length (cs_angles pre) + i) (all_grad n psi M done (pre ++ x :: post) (cs_with (pre ++ x :: post) v)) 0%R
  = nth i (local_grad n psi M (done ++ pre) (cs_with post (skipn (length (cs_angles (pre ++ [x]))) v)) x) 0%R.
Proof.
  intros n psi M. induction pre as [|c pre IH]; intros x post v done i L Hi; cbn [app cs_with all_grad]; cbv zeta; cbn [all_grad].
  - rewrite app_nil_r. cbn [cs_angles flat_map length Nat.add app]. rewrite app_nil_r. apply app_nth1. now rewrite local_grad_length.
  - cbn [cs_angles flat_map]. fold (cs_angles pre). fold (cs_angles (pre ++ [x])). rewrite !app_length, app_nth2; rewrite local_grad_length; [|lia].
    replace (length (ci_angles c) + length (cs_angles pre) + i - length (ci_angles c)) with (length (cs_angles pre) + i) by lia.
    rewrite IH; [|cbn [app cs_angles flat_map] in L; fold (cs_angles (pre ++ x :: post)) in L; rewrite app_length in L; rewrite skipn_length; lia|exact Hi].
    rewrite <- app_assoc, skipn_skipn'. cbn [app]. reflexivity.
Qed.
Theorem shift_stale : forall svd n cs v t psi m M c d, exact_svd svd -> 0 < n -> Forall (ci_ok n) cs -> length v = length (cs_angles cs) ->
  existsb matrix_only cs = true \/ (forallb (ci_TN n) cs = true /\ nonzero n psi) -> is_state n [1; 2 ^ n] t psi -> is_op n m M ->
  circuit_of n cs = Ok c -> circuit_of n (cs_with cs v) = Ok d ->
  exists g, cal_params_grad svd t m (mkC n (c_gate d) (c_params c) (c_num c)) = Ok (g, c) /\ length g = length (cs_angles cs) /\
    forall pre x post i, cs = pre ++ x :: post -> i < length (ci_angles x) ->
      let E y := expect n (pre ++ ci_with x (set_at i y (ci_angles x)) :: cs_with post (skipn (length (cs_angles (pre ++ [x]))) v)) psi M in
      nth (length (cs_angles pre) + i) g 0%R = (/ 2 * (E (nth i (ci_angles x) 0 + / 2 * PI) - E (nth i (ci_angles x) 0 - / 2 * PI)))%R /\
      (two_term x = true -> derivable_pt_lim E (nth i (ci_angles x) 0%R) (nth (length (cs_angles pre) + i) g 0%R)).
Proof.
  intros svd n cs v t psi m M c d Hs Hn H L HC Ht Hm Ec Ed. pose proof (cs_with_form cs v L) as F. pose proof (form_ok n _ _ F H) as H'.
  rewrite circuit_of_ok in Ec, Ed by auto. injection Ec as <-. injection Ed as <-. rewrite circ_gate.
  change (mkC n (map (oobj n) (cs_with cs v)) (c_params (circ n cs)) (c_num (circ n cs))) with (cobj n (cs_with cs v) (c_params (circ n cs)) (c_num (circ n cs))).
  exists (all_grad n psi M [] cs (cs_with cs v)).
  rewrite (grad_run svd Hs n Hn t m psi M Ht Hm cs) by (auto using circ_recorded; eapply form_can; eauto).
  rewrite circ_num, Nat.eqb_refl by auto. split; [f_equal; f_equal; rewrite <- (circ_num n cs H); symmetry; apply circ_cobj|]. split; [apply all_grad_length, F|].
  intros pre x post i EC Hi E.
  assert (V : nth (length (cs_angles pre) + i) (all_grad n psi M [] cs (cs_with cs v)) 0%R = (/ 2 * (E (nth i (ci_angles x) 0 + / 2 * PI) - E (nth i (ci_angles x) 0 - / 2 * PI)))%R).
  { subst cs. rewrite all_grad_nth' by auto. cbn [app]. unfold local_grad. rewrite nth_map_seq0 by exact Hi. reflexivity. }
  split; [exact V|]. intros T. rewrite V. apply (shift_derivative n pre _ x i psi M); auto.
  - subst cs. apply Forall_app in H. destruct H as [_ H]. now inversion H.
  - destruct x as [[]|]; try reflexivity; discriminate.
Qed.

(** ** the adjoint method *)
Theorem adjoint_stale : forall svd n cs v w t psi mo c d e, exact_svd svd -> 0 < n -> Forall (ci_ok n) cs -> forallb (ci_TN n) cs = true -> cs <> [] ->
  length v = length (cs_angles cs) -> length w = length (cs_angles cs) -> ci_ok n mo -> ci_TN n mo = true -> is_state n [1; 2 ^ n] t psi -> nonzero n psi ->
  circuit_of n cs = Ok c -> circuit_of n (cs_with cs v) = Ok d -> circuit_of n (cs_with cs w) = Ok e ->
  exists o sd sv g, obuild n mo = Ok o /\ save_mid_MPS svd t (mkC n (c_gate d) (c_params c) (c_num c)) o = Ok (sd, sv) /\
    is_state n [1; 2 ^ n] sv (act n (cs_op n (cs_with cs v)) psi) /\
    cal_params_grad2 svd t (mkC n (c_gate e) (c_params c) (c_num c)) sd = Ok (g, c) /\ length g = length (cs_angles cs) /\
    forall pre x post i, cs = pre ++ x :: post -> i < length (ci_angles x) ->
      nth (length (cs_angles pre) + i) g 0%R =
      (- Re (inner n (act n (ci_op n mo) (act n (cs_op n (cs_with cs v)) psi))
                     (act n (cs_op n (cs_with pre v ++ ci_with x (set_at i (nth i (ci_angles x) 0 - PI)%R (ci_angles x)) :: cs_with post (skipn (length (cs_angles (pre ++ [x]))) v))) psi)))%R.
Proof.
  intros svd n cs v w t psi mo c d e Hs Hn H T NE Lv Lw Hm Tm Ht HZ Ec Ed Ee.
  pose proof (cs_with_form cs v Lv) as Fv. pose proof (form_ok n _ _ Fv H) as Hv. pose proof (cs_with_form cs w Lw) as Fw. pose proof (form_ok n _ _ Fw H) as Hw.
  rewrite circuit_of_ok in Ec, Ed, Ee by auto. injection Ec as <-. injection Ed as <-. injection Ee as <-. rewrite !circ_gate.
  set (ps := c_params (circ n cs)). set (kn := c_num (circ n cs)). set (cv := cs_with cs v) in *. set (cw := cs_with cs w) in *.
  change (mkC n (map (oobj n) cv) ps kn) with (cobj n cv ps kn). change (mkC n (map (oobj n) cw) ps kn) with (cobj n cw ps kn).
  assert (Tv : forallb (ci_TN n) cv = true) by (unfold cv; now rewrite form_TN). assert (Tw : forallb (ci_TN n) cw = true) by (unfold cw; now rewrite form_TN).
  assert (Kv : length cv = length cs) by apply cs_with_length. assert (Kw : length cw = length cs) by apply cs_with_length.
  assert (NEv : cv <> []) by (intros X; rewrite X in Kv; destruct cs; [congruence|discriminate]).
  destruct (save_ok svd Hs n Hn psi HZ cv Hv Tv mo Hm Tm t ps kn NEv Ht) as (sd & sv & E & V & F & B).
  assert (G : forall k x, nth_error cs k = Some x -> ci_angles x <> [] -> exists y, nth_error cv k = Some y /\ ci_angles y <> []).
  { intros k x X A. destruct (nth_error_split cs k X) as (l1 & l2 & EC & K). unfold cv. rewrite EC, cs_with_at'.
    rewrite <- K, <- (cs_with_length l1 v), nth_error_mid. eexists. split; [reflexivity|].
    rewrite ci_with_angles. 2:{ rewrite firstn_length, skipn_length, Lv, EC, cs_angles_app. cbn [cs_angles flat_map]. rewrite !app_length. lia. }
    assert (A0 : 0 < length (ci_angles x)) by (destruct (ci_angles x); [congruence|cbn; lia]).
    intros Y. apply (f_equal (@length R)) in Y. rewrite firstn_length, skipn_length, Lv, EC, cs_angles_app in Y. cbn [cs_angles flat_map] in Y. rewrite !app_length in Y. cbn [length] in Y. lia. }
  exists (oobj n mo), sd, sv, (all2 n (phi n psi cv) (fun k => chi n psi cv mo (S k)) 0 cs).
  split; [now apply obuild_ok|]. split; [exact E|]. split; [exact V|]. split; [|split].
  - rewrite (grad2_run svd Hs n Hn psi HZ t Ht (phi n psi cv) (fun k => chi n psi cv mo (S k)) (length cs) sd) with (cs0 := cs); auto.
    + unfold kn. rewrite circ_num, Nat.eqb_refl by exact H. do 2 f_equal. rewrite <- (circ_num n cs) by exact H. symmetry. apply circ_cobj.
    + intros k. now apply phi_nonzero.
    + unfold phi. cbn [firstn cs_op fold_left]. symmetry. apply act_id.
    + now apply circ_recorded.
    + intros k x X A. assert (KL : k < length cs) by (apply nth_error_Some; congruence). destruct (G k x X A) as (y & Y & YA). split.
      * intros K. destruct (F (k - 1) y) as (l & D & M); [lia|now replace (S (k - 1)) with k by lia|exact YA|].
        exists l. replace (S (k - 1)) with k in M by lia. auto.
      * rewrite <- Kv. apply (B k y); auto. lia.
  - apply all2_length.
  - intros pre x post i EC Hi. transitivity (nth (length (cs_angles pre) + i) (all2 n (phi n psi cv) (fun k => chi n psi cv mo (S k)) 0 (pre ++ x :: post)) 0%R); [now rewrite <- EC|].
    rewrite all2_nth by assumption. unfold term2. cbn [Nat.add]. f_equal. f_equal. unfold chi, phi.
    assert (EV : cv = cs_with pre v ++ ci_with x (firstn (length (ci_angles x)) (skipn (length (cs_angles pre)) v)) :: cs_with post (skipn (length (cs_angles (pre ++ [x]))) v)) by (unfold cv; rewrite EC; apply cs_with_at').
    set (xv := ci_with x (firstn (length (ci_angles x)) (skipn (length (cs_angles pre)) v))) in EV. set (pv := cs_with pre v) in *. set (qv := cs_with post (skipn (length (cs_angles (pre ++ [x]))) v)) in *.
    assert (KP : length pre = length pv) by (symmetry; apply cs_with_length).
    assert (S1 : skipn (S (length pre)) cv = qv).
    { rewrite EV, KP. change (xv :: qv) with ([xv] ++ qv). rewrite app_assoc, skipn_app, app_length. cbn [length]. rewrite skipn_all2 by (rewrite app_length; cbn; lia). replace (S (length pv) - (length pv + 1)) with 0 by lia. reflexivity. }
    assert (S2 : firstn (length pre) cv = pv) by (rewrite EV, KP, firstn_app, Nat.sub_diag, firstn_all, firstn_O, app_nil_r; reflexivity).
    rewrite S1, S2. rewrite <- inner_act. apply inner_proper; [reflexivity|]. rewrite <- !act_mul. apply act_proper; [|reflexivity].
    change (ci_with x (set_at i (nth i (ci_angles x) 0 - PI)%R (ci_angles x)) :: qv) with ([ci_with x (set_at i (nth i (ci_angles x) 0 - PI)%R (ci_angles x))] ++ qv).
    rewrite !cs_op_app.
    assert (S3 : forall y, op_eq n (cs_op n [y]) (ci_op n y)) by (intros y; unfold cs_op; cbn [fold_left]; apply mul_op_id_r).
    rewrite S3, !mul_op_assoc. reflexivity.
Qed.

(** states saved while the circuit was as built: the gradient there, whatever the angles are now *)
Theorem adjoint_saved_as_built : forall svd n cs w t psi mo c e, exact_svd svd -> 0 < n -> Forall (ci_ok n) cs -> forallb (ci_TN n) cs = true -> cs <> [] -> forallb pure_rotation cs = true ->
  length w = length (cs_angles cs) -> ci_ok n mo -> ci_TN n mo = true -> hermitian n (ci_op n mo) -> is_state n [1; 2 ^ n] t psi -> nonzero n psi ->
  circuit_of n cs = Ok c -> circuit_of n (cs_with cs w) = Ok e ->
  exists o sd sv g, obuild n mo = Ok o /\ save_mid_MPS svd t c o = Ok (sd, sv) /\ cal_params_grad2 svd t (mkC n (c_gate e) (c_params c) (c_num c)) sd = Ok (g, c) /\
    is_gradient n cs psi (ci_op n mo) g.
Proof.
  intros svd n cs w t psi mo c e Hs Hn H T NE P Lw Hm Tm HM Ht HZ Ec Ee.
  assert (Ed : circuit_of n (cs_with cs (cs_angles cs)) = Ok c) by (now rewrite cs_with_self).
  destruct (adjoint_stale svd n cs (cs_angles cs) w t psi mo c c e Hs Hn H T NE eq_refl Lw Hm Tm Ht HZ Ec Ed Ee) as (o & sd & sv & g & E1 & E2 & _ & E3 & _).
  destruct (adjoint_gradient svd n cs t psi mo Hs Hn H T NE P Hm Tm HM Ht HZ) as (c' & o' & sd' & sv' & g' & D1 & D2 & D3 & _ & D4 & D5).
  destruct (adjoint_stale svd n cs (cs_angles cs) (cs_angles cs) t psi mo c c c Hs Hn H T NE eq_refl eq_refl Hm Tm Ht HZ Ec Ed Ed) as (o2 & sd2 & sv2 & g2 & A1 & A2 & _ & A3 & A4 & A5).
  destruct (adjoint_stale svd n cs (cs_angles cs) w t psi mo c c e Hs Hn H T NE eq_refl Lw Hm Tm Ht HZ Ec Ed Ee) as (o3 & sd3 & sv3 & g3 & B1 & B2 & _ & B3 & B4 & B5).
  assert (EC : mkC n (c_gate c) (c_params c) (c_num c) = c).
  { rewrite circuit_of_ok in Ec by auto. injection Ec as <-. rewrite circ_gate. symmetry. apply circ_cobj. }
  rewrite EC in *. assert (c' = c) by congruence. subst c'. assert (o2 = o') by congruence. assert (o3 = o') by congruence. subst o2 o3.
  assert (sd2 = sd') by congruence. assert (sd3 = sd') by congruence. subst sd2 sd3. assert (g2 = g') by congruence. subst g2.
  exists o', sd', sv', g3. do 3 (split; [assumption|]). replace g3 with g'; [exact D5|].
  apply (nth_ext _ _ 0%R 0%R); [congruence|]. intros k Hk. rewrite A4 in Hk. destruct (cs_split cs k Hk) as (cs1 & x & cs2 & i & F1 & -> & F3 & _).
  rewrite (A5 cs1 x cs2 i F1 F3), (B5 cs1 x cs2 i F1 F3). reflexivity.
Qed.
(** params_update on one operation of a circuit: the circuit built with the new angles, except for the record *)
Theorem update_makes_stale : forall n pre x post u p c d, Forall (ci_ok n) (pre ++ x :: post) -> length u = length (ci_angles x) -> u <> [] ->
  circuit_of n (pre ++ x :: post) = Ok c -> circuit_of n (pre ++ ci_with x u :: post) = Ok d -> dict_get (c_params d) (length pre) = Ok (Some p) ->
  update_gate c (length pre) p = Ok (mkC n (c_gate d) (c_params c) (c_num c)).
Proof.
  intros n pre x post u p c d H L NU Ec Ed HP.
  assert (Ox : ci_ok n x) by (apply Forall_app in H; destruct H as [_ H]; now inversion H).
  assert (H' : Forall (ci_ok n) (pre ++ ci_with x u :: post)).
  { apply Forall_app in H. destruct H as [H1 H2]. apply Forall_app. split; [exact H1|]. inversion H2; subst. constructor; [now apply ci_with_ok|assumption]. }
  rewrite circuit_of_ok in Ec, Ed by auto. injection Ec as <-. injection Ed as <-.
  rewrite (circ_recorded n _ H' (length pre) (ci_with x u)) in HP; [|apply nth_error_mid|now rewrite ci_with_angles]. assert (P : p = pv_of (ci_with x u)) by congruence.
  rewrite (circ_cobj n (pre ++ x :: post)) at 1. rewrite circ_gate. apply (update_gate_ok n pre x x post u p); auto.
  exists (ci_angles x). split; [reflexivity|]. now rewrite ci_with_self.
Qed.
