(** Proofs of the gradient properties. *)
From Coq Require Import List ZArith QArith Reals Lra Lia ZifyBool Bool Arith Setoid Morphisms.
From Verif Require Import PyBase Scalar CInst BigSum Index Tensor TensorFacts Spec SpecFacts QMath QTN QOperator
  ExpandFacts ExpandFacts2 ContractFacts ContractFacts2 GateSpec QGates GateCalls GateFacts GateFacts2 GateFacts3 GateFacts4 GateFacts5 GateFacts6 GateProofs RunSpec
  MPSSpec MPSFacts1 MPSFacts2 MPSFacts4 MPSFacts5 MPSFacts6 MPSFacts8 MPSFacts9 LayerSpec QLayers LayerCalls LayerFacts1 LayerFacts2 LayerFacts3 LayerFacts4 LayerProofs
  CircuitSpec QCircuit StateFacts QGradient CircuitFacts1 CircuitProofs GradSpec GradFacts1 GradFacts2 GradFacts3 GradFacts4.
Import ListNotations.
Local Close Scope Q_scope.
Local Close Scope R_scope.
Local Open Scope nat_scope.

Lemma can_split : forall n cs psi, existsb matrix_only cs = true \/ (forallb (ci_TN n) cs = true /\ nonzero n psi) -> exp_can n psi cs.
Proof.
  intros n cs psi [H|H]; [left|right; exact H]. apply existsb_exists in H. destruct H as (x & Hx & E). exists x. split; [exact Hx|]. now rewrite support_matrix_only, E.
Qed.
Lemma two_term_cu3 : forall cs, forallb two_term cs = true -> forallb (fun c => negb (ci_cu3 c)) cs = true.
Proof. induction cs as [|c cs IH]; [auto|]. cbn. intros H. apply andb_true_iff in H. destruct H as [H1 H2]. rewrite IH by exact H2. destruct c as [[]|]; auto; discriminate. Qed.

(** C28 *)
Lemma shift_gradient : forall svd n cs t psi m M, exact_svd svd -> 0 < n -> Forall (ci_ok n) cs -> forallb two_term cs = true ->
  existsb matrix_only cs = true \/ (forallb (ci_TN n) cs = true /\ nonzero n psi) -> is_state n [1; 2 ^ n] t psi -> is_op n m M ->
  exists c g, circuit_of n cs = Ok c /\ cal_params_grad svd t m c = Ok (g, c) /\ is_gradient n cs psi M g.
Proof.
  intros svd n cs t psi m M Hs Hn H T HC Ht Hm. exists (circ n cs).
  destruct (gradient_ok svd Hs n Hn t m psi M Ht Hm cs H (can_split n cs psi HC) (two_term_cu3 cs T)) as (g & E & L & D).
  exists g. split; [now apply circuit_of_ok|]. split; [exact E|]. split; assumption.
Qed.

(** C30 *)
Lemma cs_with_form : forall cs v, length v = length (cs_angles cs) -> Forall2 (form) (cs_with cs v) cs.
Proof.
  induction cs as [|x cs IH]; intros v L; [constructor|]. cbn [cs_with]. cbv zeta. cbn [cs_angles flat_map] in L. fold (cs_angles cs) in L. rewrite app_length in L. constructor.
  - exists (firstn (length (ci_angles x)) v). split; [rewrite firstn_length; lia|reflexivity].
  - apply IH. rewrite skipn_length. lia.
Qed.
Lemma form_ok : forall n cs cs0, Forall2 form cs cs0 -> Forall (ci_ok n) cs0 -> Forall (ci_ok n) cs.
Proof.
  intros n cs cs0 F. induction F as [|x x0 cs cs0 (v & L & ->) F IH]; intros H; [constructor|]. inversion H; subst. constructor; auto. now apply ci_with_ok.
Qed.
Lemma form_can : forall n psi cs cs0, Forall2 form cs cs0 -> existsb matrix_only cs0 = true \/ (forallb (ci_TN n) cs0 = true /\ nonzero n psi) -> exp_can n psi cs.
Proof.
  intros n psi cs cs0 F H. apply can_split. destruct H as [H|[H Z]]; [left|right; split; [|exact Z]].
  - induction F as [|x x0 cs cs0 (v & L & ->) F IH]; [discriminate|]. cbn in *. apply orb_true_iff in H. apply orb_true_iff. destruct H as [H|H]; [left|right; auto].
    destruct x0 as [g|l]; cbn in *; [|now destruct l]. destruct g; try discriminate. exact H.
  - induction F as [|x x0 cs cs0 (v & L & ->) F IH]; [reflexivity|]. cbn in *. apply andb_true_iff in H. rewrite ci_with_TN. apply andb_true_iff. split; [tauto|]. apply IH. tauto.
Qed.
(** whatever the current angles are, the call puts back the recorded ones *)
Lemma shift_resets : forall svd n cs v t psi m M c d, exact_svd svd -> 0 < n -> Forall (ci_ok n) cs -> length v = length (cs_angles cs) ->
  existsb matrix_only cs = true \/ (forallb (ci_TN n) cs = true /\ nonzero n psi) -> is_state n [1; 2 ^ n] t psi -> is_op n m M ->
  circuit_of n cs = Ok c -> circuit_of n (cs_with cs v) = Ok d ->
  exists g, cal_params_grad svd t m (mkC n (c_gate d) (c_params c) (c_num c)) = Ok (g, c) /\ length g = length (cs_angles cs).
Proof.
  intros svd n cs v t psi m M c d Hs Hn H L HC Ht Hm Ec Ed. pose proof (cs_with_form cs v L) as F. pose proof (form_ok n _ _ F H) as H'.
  rewrite circuit_of_ok in Ec, Ed by auto. injection Ec as <-. injection Ed as <-. rewrite circ_gate.
  change (mkC n (map (oobj n) (cs_with cs v)) (c_params (circ n cs)) (c_num (circ n cs))) with (cobj n (cs_with cs v) (c_params (circ n cs)) (c_num (circ n cs))).
  rewrite (grad_run svd Hs n Hn t m psi M Ht Hm cs) by (auto using circ_recorded; eapply form_can; eauto).
  rewrite circ_num, Nat.eqb_refl by auto. eexists. split; [f_equal; f_equal; rewrite <- (circ_num n cs H); symmetry; apply circ_cobj|]. apply all_grad_length, F.
Qed.
Lemma shift_unchanged : forall svd n cs t psi m M, exact_svd svd -> 0 < n -> Forall (ci_ok n) cs ->
  existsb matrix_only cs = true \/ (forallb (ci_TN n) cs = true /\ nonzero n psi) -> is_state n [1; 2 ^ n] t psi -> is_op n m M ->
  exists c g, circuit_of n cs = Ok c /\ cal_params_grad svd t m c = Ok (g, c).
Proof.
  intros svd n cs t psi m M Hs Hn H HC Ht Hm. exists (circ n cs). pose proof (circuit_of_ok n cs H) as E.
  destruct (shift_resets svd n cs (cs_angles cs) t psi m M (circ n cs) (circ n cs)) as (g & G & _); auto; [now rewrite cs_with_self|].
  exists g. split; [exact E|]. rewrite circ_gate in G. fold (cobj n cs (c_params (circ n cs)) (c_num (circ n cs))) in G. now rewrite <- circ_cobj in G.
Qed.
Lemma shift_after_update : forall svd n w a b t psi m M, exact_svd svd -> 0 < n -> w < n -> nonzero n psi -> is_state n [1; 2 ^ n] t psi -> is_op n m M -> a <> b ->
  exists c c1 g, circuit_of n [CG (gi_rx a w)] = Ok c /\ update_gate c 0 (PS b) = Ok c1 /\ cal_params_grad svd t m c1 = Ok (g, c) /\
    c_gate c1 <> c_gate c /\ exists d, circuit_of n [CG (gi_rx b w)] = Ok d /\ c_gate c1 = c_gate d.
Proof.
  intros svd n w a b t psi m M Hs Hn Hw HZ Ht Hm Hab.
  assert (Ga : forall x, Forall (ci_ok n) [CG (gi_rx x w)]).
  { intros x. constructor; [|constructor]. split; [|exact I]. split; [constructor; [intros []|constructor]|]. intros v [<-|[]]. exact Hw. }
  exists (circ n [CG (gi_rx a w)]), (mkC n (map (oobj n) [CG (gi_rx b w)]) (c_params (circ n [CG (gi_rx a w)])) (c_num (circ n [CG (gi_rx a w)]))).
  destruct (shift_resets svd n [CG (gi_rx a w)] [b] t psi m M (circ n [CG (gi_rx a w)]) (circ n [CG (gi_rx b w)])) as (g & G & _); auto; try (now apply circuit_of_ok).
  exists g. split; [now apply circuit_of_ok|]. split; [|split; [|split]].
  - rewrite (circ_cobj n [CG (gi_rx a w)]) at 1. apply (update_gate_ok n [] _ (CG (gi_rx a w)) [] [b]); auto; [|apply form_refl|discriminate]. specialize (Ga a). now inversion Ga.
  - rewrite circ_gate in G. exact G.
  - rewrite circ_gate. cbn [c_gate map oobj]. intros X. assert (Y : g_params (obj n (gi_rx a w)) = g_params (obj n (gi_rx b w))) by congruence. cbn in Y. congruence.
  - exists (circ n [CG (gi_rx b w)]). split; [now apply circuit_of_ok|]. now rewrite circ_gate.
Qed.

(** C27 *)
Lemma adds_recorded : forall n cs c, Forall (ci_ok n) cs -> c_gate c = [] -> recorded (c_params (fold_left add (map (oobj n) cs) c)) cs.
Proof.
  intros n cs c H HC. induction cs as [|x cs IH] using rev_ind; intros k y Hk A; [destruct k; discriminate|]. apply Forall_app in H. destruct H as [H1 H2].
  rewrite map_app, fold_left_app. cbn [map fold_left]. rewrite add_params, adds_gate, HC. cbn [app]. rewrite map_length.
  destruct (Nat.eq_dec k (length cs)) as [->|N].
  - rewrite nth_error_mid in Hk. injection Hk as <-. rewrite dict_get_set_same. inversion H2 as [|? ? Hx _]; subst. destruct (o_angles n x Hx) as [_ O].
    destruct (o_shown (oobj n x)); [|congruence]. do 2 f_equal. apply O.
  - rewrite dict_get_set_other by congruence. apply (IH H1 k y); auto. rewrite nth_error_app1 in Hk; [exact Hk|].
    assert (k < length (cs ++ [x])) by (apply nth_error_Some; congruence). rewrite app_length in *. cbn in *. lia.
Qed.
Lemma adds_num : forall n cs c, Forall (ci_ok n) cs -> c_num (fold_left add (map (oobj n) cs) c) = c_num c + length (cs_angles cs).
Proof.
  intros n cs c H. induction cs as [|x cs IH] using rev_ind; [cbn; lia|]. apply Forall_app in H. destruct H as [H1 H2]. inversion H2 as [|? ? Hx _]; subst.
  rewrite map_app, fold_left_app. cbn [map fold_left]. rewrite add_num, IH by exact H1. rewrite (proj1 (o_angles n x Hx)), cs_angles_app, app_length. cbn [cs_angles flat_map]. rewrite app_nil_r. lia.
Qed.
Lemma clear_gradient : forall svd n cs1 cs2 t psi m M, exact_svd svd -> 0 < n -> Forall (ci_ok n) cs1 -> Forall (ci_ok n) cs2 -> cs_angles cs1 <> [] ->
  existsb matrix_only cs2 = true \/ (forallb (ci_TN n) cs2 = true /\ nonzero n psi) -> is_state n [1; 2 ^ n] t psi -> is_op n m M ->
  exists c os, circuit_of n cs1 = Ok c /\ mmap (obuild n) cs2 = Ok os /\ cal_params_grad svd t m (fold_left add os (clear c)) = Err AssertionError.
Proof.
  intros svd n cs1 cs2 t psi m M Hs Hn H1 H2 A HC Ht Hm. exists (circ n cs1), (map (oobj n) cs2). split; [now apply circuit_of_ok|]. split.
  { clear -H2. induction H2 as [|x cs Hx H IH]; [reflexivity|]. cbn [mmap map]. rewrite obuild_ok by exact Hx. cbn [bind]. rewrite IH. reflexivity. }
  set (d := fold_left add (map (oobj n) cs2) (clear (circ n cs1))).
  assert (D : d = cobj n cs2 (c_params d) (c_num d)).
  { assert (G : c_gate d = map (oobj n) cs2) by (unfold d; now rewrite adds_gate). assert (N : c_N d = n) by (unfold d; rewrite adds_N; apply circ_N).
    destruct d as [dn dg dp dk]; cbn in *. subst. reflexivity. }
  rewrite D, (grad_run svd Hs n Hn t m psi M Ht Hm cs2) by (auto using form_all, can_split; apply adds_recorded; auto).
  replace (c_num d) with (length (cs_angles cs1) + length (cs_angles cs2)).
  - rewrite (proj2 (Nat.eqb_neq _ _)); [reflexivity|]. destruct (cs_angles cs1); [congruence|cbn; lia].
  - unfold d. rewrite adds_num by exact H2. cbn [clear c_num]. now rewrite circ_num.
Qed.

(** C28: two-qubit rotations *)
Lemma evolution_missing : forall svd n pre g post l psi ps k, exact_svd svd -> Forall (ci_ok n) pre -> forallb (ci_TN n) pre = true -> two_qubit_rotation g = true -> is_mps n l psi -> nonzero n psi ->
  TN_evolution svd (cobj n (pre ++ g :: post) ps k) l = Err AttributeError.
Proof.
  intros svd n pre g post l psi ps k Hs H T G HM HZ. destruct (evolution_ok svd n pre l psi Hs H T HM HZ) as (l' & E & _). unfold TN_evolution in *. rewrite circ_gate, circ_N in E.
  cbn [c_gate c_N cobj]. destruct negb; [discriminate|]. cbn [raise_if] in *. rewrite map_app, mfold_app, E. cbn [bind map mfold].
  destruct g as [[]|]; try discriminate G; reflexivity.
Qed.
Lemma expectation_missing : forall svd n pre g post t psi m M ps k, exact_svd svd -> 0 < n -> Forall (ci_ok n) pre -> forallb (ci_TN n) pre = true -> two_qubit_rotation g = true ->
  existsb matrix_only post = false -> is_state n [1; 2 ^ n] t psi -> nonzero n psi -> is_op n m M ->
  cir_expectation svd (cobj n (pre ++ g :: post) ps k) t m true = Err AttributeError.
Proof.
  intros svd n pre g post t psi m M ps k Hs Hn H T G MO Ht HZ Hm. apply is_op_eq in Hm. subst m.
  unfold cir_expectation. destruct (Ht) as (S & _ & _). unfold shape_at. rewrite S. cbn [nth_error bind c_N cobj].
  change (1 =? 1) with true. rewrite Nat.eqb_refl. cbn [negb raise_if op_tensor tbuild shape nth_error bind]. rewrite Nat.eqb_refl. cbn [negb raise_if].
  assert (C : TN_check (cobj n (pre ++ g :: post) ps k) = true).
  { unfold TN_check. cbn [c_gate cobj]. apply forallb_forall. intros o Ho. apply in_map_iff in Ho. destruct Ho as (x & <- & Hx). rewrite support_matrix_only.
    apply in_app_or in Hx. destruct Hx as [Hx|[<-|Hx]].
    - rewrite forallb_forall in T. specialize (T x Hx). rewrite <- (support_matrix_only n). apply ci_con_support. now apply ci_TN_con.
    - destruct g as [[]|]; try discriminate G; reflexivity.
    - destruct (matrix_only x) eqn:E; [|reflexivity]. assert (existsb matrix_only post = true) by (apply existsb_exists; eauto). congruence. }
  rewrite C. cbn [andb]. assert (W : wf t) by (unfold wf; destruct Ht as (S' & L & _); rewrite S'; cbn [prodn]; lia). rewrite (view_row n _ t psi Ht W). cbn [bind].
  destruct (round_trip svd n (row n psi) psi Hs Hn (row_state n psi) HZ) as (l0 & _ & E0 & M0 & _). rewrite E0. cbn [bind].
  rewrite (evolution_missing svd n pre g post l0 psi ps k) by auto. reflexivity.
Qed.
Lemma angles_eq_dec : forall x : ci, {ci_angles x = []} + {ci_angles x <> []}.
Proof. intros x. destruct (ci_angles x); [left; reflexivity|right; discriminate]. Defined.
Lemma first_angle : forall pre g, ci_angles g <> [] -> exists a x b, pre ++ [g] = a ++ x :: b /\ (forall y, In y a -> ci_angles y = []) /\ ci_angles x <> [].
Proof.
  intros pre g G. induction pre as [|y pre IH].
  - exists [], g, []. split; [reflexivity|]. split; [intros ? []|exact G].
  - destruct (angles_eq_dec y) as [E|E].
    + destruct IH as (a & x & b & E' & H & X). exists (y :: a), x, b. split; [cbn [app]; now rewrite E'|]. split; [intros z [<-|Hz]; auto|exact X].
    + exists [], y, (pre ++ [g]). split; [reflexivity|]. split; [intros ? []|exact E].
Qed.
Lemma shift_rotations : forall svd n pre g post t psi m M, exact_svd svd -> 0 < n -> Forall (ci_ok n) (pre ++ g :: post) -> forallb (ci_TN n) pre = true ->
  two_qubit_rotation g = true -> existsb matrix_only post = false -> is_state n [1; 2 ^ n] t psi -> nonzero n psi -> is_op n m M ->
  exists c, circuit_of n (pre ++ g :: post) = Ok c /\ cal_params_grad svd t m c = Err AttributeError.
Proof.
  intros svd n pre g post t psi m M Hs Hn H T G MO Ht HZ Hm. exists (circ n (pre ++ g :: post)). split; [now apply circuit_of_ok|].
  assert (AG : ci_angles g <> []) by (destruct g as [[]|]; discriminate).
  destruct (first_angle pre g AG) as (a & x & b & E & HA & X).
  (* cs = a ++ x :: (b ++ post), and replacing the angles of x keeps the shape pre ++ g :: post *)
  assert (CS : pre ++ g :: post = a ++ x :: (b ++ post)) by (change (g :: post) with ([g] ++ post); rewrite app_assoc, E, <- app_assoc; reflexivity).
  assert (Err1 : forall u ps k, length u = length (ci_angles x) -> cir_expectation svd (cobj n (a ++ ci_with x u :: (b ++ post)) ps k) t m true = Err AttributeError).
  { intros u ps k Lu. assert (Hx : ci_ok n x) by (rewrite CS in H; apply Forall_app in H; destruct H as [_ H]; now inversion H).
    destruct (exists_last (l := x :: b)) as (b' & z & Eb); [discriminate|].
    assert (Z : pre = a ++ b' /\ g = z). { rewrite Eb, app_assoc in E. apply app_inj_tail in E. destruct E. split; congruence. }
    destruct Z as [-> ->]. destruct b' as [|y b'].
    - cbn in Eb. injection Eb as -> ->. cbn [app]. apply (expectation_missing svd n a (ci_with z u) post t psi m M); auto.
      + apply Forall_app in H. destruct H as [H _]. rewrite app_nil_r in H. exact H.
      + rewrite app_nil_r in T. exact T.
      + destruct z as [[]|]; try discriminate G; cbn in Lu; destruct u as [|u1 [|]]; try discriminate; reflexivity.
    - cbn in Eb. injection Eb as -> ->. replace (a ++ ci_with y u :: (b' ++ [z]) ++ post) with ((a ++ ci_with y u :: b') ++ z :: post) by (rewrite <- !app_assoc; reflexivity).
      apply (expectation_missing svd n _ z post t psi m M); auto.
      + apply Forall_app in H. destruct H as [H _]. apply Forall_app in H. destruct H as [H3 H4]. inversion H4; subst. apply Forall_app. split; [exact H3|]. constructor; [|assumption]. now apply ci_with_ok.
      + rewrite forallb_app in *. cbn [forallb] in *. now rewrite ci_with_TN. }
  assert (Nx : exists xs, ci_angles x = xs /\ xs <> []) by eauto.
  rewrite (circ_cobj n). pose proof (circ_recorded n _ H) as RC. rewrite CS in RC |- *.
  set (ps := c_params (circ n (a ++ x :: b ++ post))) in *. set (kn := c_num (circ n (a ++ x :: b ++ post))).
  unfold cal_params_grad. cbn [c_gate cobj]. rewrite map_length, app_length. cbn [length]. rewrite seq_app, mfold_app.
  assert (Skip : mfold (shift_gate svd t m) (seq 0 (length a)) (cobj n (a ++ x :: b ++ post) ps kn, []) = Ok (cobj n (a ++ x :: b ++ post) ps kn, [])).
  { assert (HH : Forall (ci_ok n) a) by (rewrite CS in H; now apply Forall_app in H).
    assert (GEN : forall d r, a = d ++ r -> mfold (shift_gate svd t m) (seq (length d) (length r)) (cobj n (a ++ x :: b ++ post) ps kn, []) = Ok (cobj n (a ++ x :: b ++ post) ps kn, [])).
    { intros d r. revert d. induction r as [|y r IH]; intros d Ed; [reflexivity|]. cbn [length seq mfold]. unfold shift_gate at 1. cbn [c_gate cobj].
      assert (NE : nth_error (map (oobj n) (a ++ x :: b ++ post)) (length d) = Some (oobj n y)).
      { rewrite nth_error_map, Ed, <- app_assoc. cbn [app]. rewrite nth_error_mid. reflexivity. }
      rewrite NE. rewrite num_zero by (rewrite Forall_forall in HH; apply HH; rewrite Ed; apply in_or_app; right; now left).
      rewrite (HA y) by (rewrite Ed; apply in_or_app; right; now left). cbn [bind].
      replace (S (length d)) with (length (d ++ [y])) by (rewrite app_length; cbn; lia). apply IH. now rewrite <- app_assoc. }
    exact (GEN [] a eq_refl). }
  rewrite Skip. cbn [bind Nat.add seq mfold]. unfold shift_gate at 1. cbn [c_gate cobj].
  assert (Hx : ci_ok n x) by (rewrite CS in H; apply Forall_app in H; destruct H as [_ H]; now inversion H).
  assert (NE : nth_error (map (oobj n) (a ++ x :: b ++ post)) (length a) = Some (oobj n x)) by (rewrite nth_error_map, nth_error_mid; reflexivity).
  rewrite NE, num_zero by exact Hx. destruct (ci_angles x) as [|a0 ar] eqn:AX; [congruence|]. cbn [c_params cobj].
  rewrite (RC (length a) x) by (auto using nth_error_mid; congruence). cbn [bind].
  assert (AN : ci_angles x <> []) by congruence.
  destruct (pv_cases x AN) as [V|[L1 V]]; rewrite V.
  - rewrite AX. cbn [length seq mfold]. unfold shift_entry at 1.
    rewrite (update_gate_ok n a x x (b ++ post) (padd (a0 :: ar) 0 (/ 2 * PI))); [|exact Hx|apply form_refl|unfold padd; rewrite AX, set_nth_at, set_at_length by (cbn; lia); reflexivity| |].
    + cbn [bind]. rewrite Err1 by (unfold padd; rewrite set_nth_at, set_at_length by (cbn; lia); reflexivity). reflexivity.
    + unfold padd. rewrite set_nth_at by (cbn; lia). unfold set_at. cbn. discriminate.
    + unfold padd. rewrite set_nth_at by (cbn; lia). unfold set_at. cbn [firstn skipn app nth].
      destruct x as [[]|l]; cbn in V, AX |- *; try discriminate; try (injection AX as <- <-; reflexivity).
      destruct l; cbn in *; try discriminate; reflexivity.
  - unfold shift_one. rewrite AX. cbn [nth].
    rewrite (update_gate_ok n a x x (b ++ post) [(a0 + / 2 * PI)%R]); [|exact Hx|apply form_refl|now rewrite L1|discriminate|].
    + cbn [bind]. rewrite Err1 by (rewrite AX in L1; now rewrite L1). reflexivity.
    + destruct x as [[]|l]; cbn in V, AX |- *; try discriminate; reflexivity.
Qed.
