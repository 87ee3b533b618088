(** Theorems: what calls that raise leave behind. *)
From Coq Require Import List ZArith QArith Reals Lra Lia Bool Arith.
From Verif Require Import PyBase Scalar CInst BigSum Index Tensor Spec SpecFacts GateSpec RunSpec LayerSpec MPSSpec CircuitSpec GradSpec
  QMath QTN QOperator QGates GateCalls QLayers LayerCalls GateFacts2 GateFacts4 GateFacts6 LayerFacts3 LayerFacts4 QCircuit QGradient CircuitFacts1 CircuitProofs GradFacts1 GradFacts2 GradFacts3 GradProofs QFailed FailedFacts.
Import ListNotations.
Local Close Scope Q_scope.
Local Close Scope R_scope.
Local Open Scope nat_scope.

(** ** the gradient *)
Lemma cs_with_at : forall pre x post i y, i < length (ci_angles x) ->
  cs_with (pre ++ x :: post) (set_at (length (cs_angles pre) + i) y (cs_angles (pre ++ x :: post))) = pre ++ ci_with x (set_at i y (ci_angles x)) :: post.
Proof.
  induction pre as [|c cs IH]; intros x post i y Hi.
  - cbn [app cs_angles flat_map cs_with length plus]. cbv zeta. fold (cs_angles post). rewrite set_at_app1 by auto. rewrite <- (set_at_length i y (ci_angles x)) at 1 2 by auto.
    rewrite firstn_app, skipn_app, Nat.sub_diag, firstn_all, skipn_all, firstn_O, app_nil_r. cbn [app skipn]. now rewrite cs_with_self.
  - cbn [app cs_with cs_angles flat_map]. cbv zeta. fold (cs_angles cs). fold (cs_angles (cs ++ x :: post)). rewrite app_length, <- Nat.add_assoc, set_at_app2.
    rewrite firstn_app, skipn_app, Nat.sub_diag, firstn_all, skipn_all, firstn_O, app_nil_r. cbn [app skipn]. rewrite ci_with_self. f_equal. now apply IH.
Qed.
Section Fold.
  Variable svd : tensor -> tensor * tensor * tensor.
  Variables t m : tensor.
  Variable n : nat.
  Lemma gates_left : forall ps kn post pre g, Forall (ci_ok n) (pre ++ post) -> recorded ps (pre ++ post) ->
    match sfold (f_shift_gate svd t m) (seq (length pre) (length post)) g (cobj n (pre ++ post) ps kn) with
    | (c', Ok g') => c' = cobj n (pre ++ post) ps kn /\ length g' = length g + length (cs_angles post)
    | (c', Err e) => exists k d, k < length (cs_angles (pre ++ post)) /\ (d = / 2 * PI \/ d = - (/ 2 * PI))%R /\
        c' = cobj n (cs_with (pre ++ post) (set_at k (nth k (cs_angles (pre ++ post)) 0 + d)%R (cs_angles (pre ++ post)))) ps kn
    end.
  Proof.
    intros ps kn post. induction post as [|x post IH]; intros pre g HO HR; [cbn; split; [reflexivity|lia]|].
    cbn [length seq sfold]. unfold sbind at 1.
    assert (Ok0 : ci_ok n x) by (apply Forall_app in HO; destruct HO as [_ HO]; now inversion HO).
    pose proof (gate_left svd t m n ps kn pre post x Ok0 g) as G.
    assert (HD : ci_angles x <> [] -> dict_get ps (length pre) = Ok (Some (pv_of x))).
    { intros NA. apply (HR (length pre) x); [|exact NA]. rewrite nth_error_app2, Nat.sub_diag by lia. reflexivity. }
    specialize (G HD). destruct (f_shift_gate svd t m g (length pre) (cobj n (pre ++ x :: post) ps kn)) as [c' [g'|e]].
    - destruct G as [-> Lg]. specialize (IH (pre ++ [x]) g'). rewrite <- app_assoc in IH. cbn [app] in IH. specialize (IH HO HR).
      rewrite app_length in IH. cbn [length] in IH. rewrite Nat.add_comm in IH. cbn [plus] in IH.
      destruct (sfold _ _ g' _) as [c' [g''|e]]; [|exact IH]. destruct IH as [-> L2]. split; [reflexivity|]. cbn [cs_angles flat_map]. fold (cs_angles post). rewrite app_length. lia.
    - destruct G as (i & d & Hi & Hd & ->). exists (length (cs_angles pre) + i), d. split; [|split; [exact Hd|]].
      + rewrite cs_angles_app. cbn [cs_angles flat_map]. rewrite !app_length. lia.
      + rewrite cs_with_at by exact Hi. unfold moved. rewrite cs_angles_app, app_nth2_plus. cbn [cs_angles flat_map]. rewrite app_nth1 by exact Hi. reflexivity.
  Qed.
  Lemma cal_left : forall cs, Forall (ci_ok n) cs ->
    match f_cal_params_grad svd t m (circ n cs) with
    | (c', Ok g) => c' = circ n cs /\ length g = length (cs_angles cs)
    | (c', Err e) => exists k d, k < length (cs_angles cs) /\ (d = / 2 * PI \/ d = - (/ 2 * PI))%R /\
        c' = cobj n (cs_with cs (set_at k (nth k (cs_angles cs) 0 + d)%R (cs_angles cs))) (c_params (circ n cs)) (c_num (circ n cs))
    end.
  Proof.
    intros cs H. unfold f_cal_params_grad, sbind. rewrite (circ_cobj n cs). cbn [c_params c_num cobj c_gate]. rewrite map_length.
    pose proof (gates_left (c_params (circ n cs)) (c_num (circ n cs)) cs [] [] H (circ_recorded n cs H)) as G. cbn [app length] in G.
    destruct (sfold _ _ [] _) as [c' [g|e]]; [|exact G]. destruct G as [-> L]. cbn [c_num cobj plus length] in *. rewrite circ_num, L, Nat.eqb_refl by auto. cbn [assert_]. auto.
  Qed.
End Fold.

Lemma with_forall : forall n cs v, Forall (ci_ok n) cs -> length v = length (cs_angles cs) -> Forall (ci_ok n) (cs_with cs v).
Proof. intros n cs v H L. exact (form_ok n _ _ (cs_with_form cs v L) H). Qed.

Theorem failed_left : forall svd n cs t m c c' e, Forall (ci_ok n) cs -> circuit_of n cs = Ok c -> f_cal_params_grad svd t m c = (c', Err e) ->
  exists k d c2, k < length (cs_angles cs) /\ (d = PI / 2 \/ d = - (PI / 2))%R /\
    circuit_of n (cs_with cs (set_at k (nth k (cs_angles cs) 0 + d)%R (cs_angles cs))) = Ok c2 /\
    c_N c' = n /\ c_gate c' = c_gate c2 /\ c_params c' = c_params c /\ c_num c' = c_num c.
Proof.
  intros svd n cs t m c c' e H Ec E. rewrite circuit_of_ok in Ec by auto. injection Ec as <-. pose proof (cal_left svd t m n cs H) as G. rewrite E in G.
  destruct G as (k & d & Hk & Hd & ->). exists k, d, (circ n (cs_with cs (set_at k (nth k (cs_angles cs) 0 + d)%R (cs_angles cs)))).
  split; [exact Hk|]. split; [destruct Hd; [left|right]; lra|]. split; [apply circuit_of_ok, with_forall; [exact H|now apply set_at_length]|].
  cbn [cobj c_N c_gate c_params c_num]. rewrite circ_gate. auto.
Qed.
Theorem returned_left : forall svd n cs t m c c' g, Forall (ci_ok n) cs -> circuit_of n cs = Ok c -> f_cal_params_grad svd t m c = (c', Ok g) ->
  c' = c /\ length g = length (cs_angles cs).
Proof.
  intros svd n cs t m c c' g H Ec E. rewrite circuit_of_ok in Ec by auto. injection Ec as <-. pose proof (cal_left svd t m n cs H) as G. rewrite E in G. exact G.
Qed.

(** whatever was left, the next call that can run returns and leaves the circuit as it was built *)
Theorem failed_repaired : forall svd n cs t m t' psi m' M c c' e, exact_svd svd -> 0 < n -> Forall (ci_ok n) cs ->
  existsb matrix_only cs = true \/ (forallb (ci_TN n) cs = true /\ nonzero n psi) -> is_state n [1; 2 ^ n] t' psi -> is_op n m' M ->
  circuit_of n cs = Ok c -> f_cal_params_grad svd t m c = (c', Err e) ->
  exists g, f_cal_params_grad svd t' m' c' = (c, Ok g) /\ length g = length (cs_angles cs).
Proof.
  intros svd n cs t m t' psi m' M c c' e Hs Hn H HC Ht Hm Ec E. destruct (failed_left svd n cs t m c c' e H Ec E) as (k & d & c2 & Hk & _ & E2 & En & Eg & Ep & Ek).
  assert (EC : c' = mkC n (c_gate c2) (c_params c) (c_num c)) by (destruct c' as [a1 a2 a3 a4]; cbn [c_N c_gate c_params c_num] in *; congruence).
  destruct (shift_resets svd n cs _ t' psi m' M c c2 Hs Hn H (set_at_length _ _ _ Hk) HC Ht Hm Ec E2) as (g & G & L). rewrite <- EC, failed_agrees in G.
  exists g. split; [|exact L]. destruct (f_cal_params_grad svd t' m' c') as [c3 [g3|e3]]; congruence.
Qed.

(** ** arguments that cir_expectation refuses *)
Lemma no_angles_step : forall svd t m n ps kn pre x post g, ci_ok n x -> ci_angles x = [] ->
  f_shift_gate svd t m g (length pre) (cobj n (pre ++ x :: post) ps kn) = (cobj n (pre ++ x :: post) ps kn, Ok g).
Proof.
  intros svd t m n ps kn pre x post g H0 NA. unfold f_shift_gate. cbn [c_gate cobj]. rewrite map_app. cbn [map]. rewrite <- (map_length (oobj n) pre), nth_error_mid.
  rewrite (form_num n x x H0 (form_refl x)), NA. reflexivity.
Qed.
Lemma no_angles_steps : forall svd t m n ps kn a pre x g, Forall (ci_ok n) (pre ++ a ++ x) -> cs_angles a = [] ->
  sfold (f_shift_gate svd t m) (seq (length pre) (length a)) g (cobj n (pre ++ a ++ x) ps kn) = (cobj n (pre ++ a ++ x) ps kn, Ok g).
Proof.
  intros svd t m n ps kn a. induction a as [|y a IH]; intros pre x g HO HA; [reflexivity|]. cbn [length seq sfold app]. unfold sbind.
  cbn [cs_angles flat_map] in HA. fold (cs_angles a) in HA. apply app_eq_nil in HA. destruct HA as [HA1 HA2].
  rewrite no_angles_step; [|apply Forall_app in HO; destruct HO as [_ HO]; now inversion HO|exact HA1].
  specialize (IH (pre ++ [y]) x g). rewrite <- app_assoc, app_length in IH. cbn [app length] in IH. rewrite Nat.add_comm in IH. now apply IH.
Qed.
Lemma first_fails : forall svd t m n ps kn pre post x e g, ci_ok n x -> ci_angles x <> [] -> dict_get ps (length pre) = Ok (Some (pv_of x)) ->
  (forall c, c_N c = n -> cir_expectation svd c t m true = Err e) ->
  f_shift_gate svd t m g (length pre) (cobj n (pre ++ x :: post) ps kn) = (moved n ps kn pre post x (set_at 0 (nth 0 (ci_angles x) 0 + / 2 * PI)%R (ci_angles x)), Err e).
Proof.
  intros svd t m n ps kn pre post x e g Ok0 NA HD HE. rewrite <- (moved_self n ps kn pre post x). unfold f_shift_gate. unfold moved at 1 3. cbn [c_gate cobj c_params].
  rewrite map_app. cbn [map]. rewrite <- (map_length (oobj n) pre), nth_error_mid, map_length. rewrite ci_with_self, (form_num n x x Ok0 (form_refl x)).
  assert (L0 : 0 < length (ci_angles x)) by (destruct (ci_angles x); [congruence|cbn; lia]).
  replace (length (ci_angles x) =? 0) with false by (symmetry; apply Nat.eqb_neq; lia). rewrite HD.
  set (a := ci_angles x) in *. set (v := set_at 0 (nth 0 a 0 + / 2 * PI)%R a). assert (Lv : length v = length a) by (now apply set_at_length).
  assert (Nv : v <> []) by (intros X; rewrite X in Lv; cbn in Lv; lia). change (cobj n (pre ++ x :: post) ps kn) with (cobj n (pre ++ x :: post) ps kn).
  assert (SA : cobj n (pre ++ x :: post) ps kn = moved n ps kn pre post x a) by (symmetry; apply moved_self). try rewrite SA.
  destruct (pv_cases x NA) as [V|[L1 V]]; rewrite V; fold a.
  - assert (P : PV v = pv_of (ci_with x v)).
    { unfold pv_of in *. destruct x as [[]|l]; cbn [ci_with gi_with ci_angles gi_angles] in *; try discriminate; try reflexivity. f_equal. symmetry. apply (ci_with_angles (CL l)). exact Lv. }
    replace (seq 0 (length a)) with (0 :: seq 1 (length a - 1)) by (destruct (length a); [lia|cbn; now rewrite Nat.sub_0_r]). cbn [sfold]. unfold f_shift_entry at 1, sbind at 1 2 3. cbv zeta.
    replace (padd a 0 (/ 2 * PI)) with v by (unfold padd, v; symmetry; now rewrite set_nth_at). rewrite (f_update_ok n ps kn pre post x Ok0 a v) by auto.
    unfold sbind, f_expect. rewrite HE by reflexivity. reflexivity.
  - unfold f_shift_one, sbind. assert (P : PS (nth 0 a 0 + / 2 * PI)%R = pv_of (ci_with x v)).
    { unfold v. unfold a in *. unfold pv_of in *. destruct x as [[]|l]; cbn [ci_with gi_with ci_angles gi_angles] in *; try discriminate; reflexivity. }
    rewrite (f_update_ok n ps kn pre post x Ok0 a v) by auto. unfold f_expect. rewrite HE by reflexivity. reflexivity.
Qed.
Theorem bad_arguments_left : forall svd n pre x post t m c,
  Forall (ci_ok n) (pre ++ x :: post) -> cs_angles pre = [] -> ci_angles x <> [] ->
  (exists a b r, shape t = a :: b :: r /\ (a <> 1 \/ b <> 2 ^ n)) \/ (shape t = [1; 2 ^ n] /\ exists a b r, shape m = a :: b :: r /\ a <> b) ->
  circuit_of n (pre ++ x :: post) = Ok c ->
  exists c' c2, f_cal_params_grad svd t m c = (c', Err ValueError) /\
    circuit_of n (pre ++ ci_with x (set_at 0 (nth 0 (ci_angles x) 0 + PI / 2)%R (ci_angles x)) :: post) = Ok c2 /\
    c_N c' = n /\ c_gate c' = c_gate c2 /\ c_params c' = c_params c /\ c_num c' = c_num c.
Proof.
  intros svd n pre x post t m c H HA NA HB Ec. rewrite circuit_of_ok in Ec by auto. injection Ec as <-.
  assert (HE : forall c, c_N c = n -> cir_expectation svd c t m true = Err ValueError).
  { intros c <-. destruct HB as [(a & b & r & S & B)|(S & a & b & r & S' & B)]; [eapply expectation_bad_state; eauto|eapply expectation_bad_op; eauto]. }
  assert (Ok0 : ci_ok n x) by (apply Forall_app in H; destruct H as [_ H]; now inversion H).
  set (ps := c_params (circ n (pre ++ x :: post))). set (kn := c_num (circ n (pre ++ x :: post))).
  set (v := set_at 0 (nth 0 (ci_angles x) 0 + / 2 * PI)%R (ci_angles x)).
  assert (Lv : length v = length (ci_angles x)) by (apply set_at_length; destruct (ci_angles x); [congruence|cbn; lia]).
  exists (cobj n (pre ++ ci_with x v :: post) ps kn), (circ n (pre ++ ci_with x v :: post)). split; [|split].
  - unfold f_cal_params_grad. rewrite (circ_cobj n (pre ++ x :: post)) at 2. fold ps kn. unfold sbind at 1. rewrite circ_gate, map_length, app_length. cbn [length].
    rewrite seq_app. cbn [plus seq].
    assert (SA : forall l1 l2 b c, sfold (f_shift_gate svd t m) (l1 ++ l2) b c = sbind (sfold (f_shift_gate svd t m) l1 b) (fun b' => sfold (f_shift_gate svd t m) l2 b') c).
    { induction l1 as [|i l1 IH]; intros l2 b c; [reflexivity|]. cbn [app sfold]. unfold sbind at 1. unfold sbind at 1. unfold sbind at 1. destruct (f_shift_gate svd t m b i c) as [c1 [b1|e]]; [|reflexivity]. apply IH. }
    rewrite SA. unfold sbind at 1. pose proof (no_angles_steps svd t m n ps kn pre [] (x :: post) [] H HA) as X. cbn [app length] in X. rewrite X. cbn [sfold]. unfold sbind at 1. change (0 + length pre) with (length pre).
    rewrite (first_fails svd t m n ps kn pre post x ValueError []); auto. apply (circ_recorded n _ H (length pre) x); [|exact NA]. rewrite nth_error_app2, Nat.sub_diag by lia. reflexivity.
  - replace (PI / 2)%R with (/ 2 * PI)%R by lra. fold v. apply circuit_of_ok. apply Forall_app in H. destruct H as [H1 H2]. apply Forall_app. split; [exact H1|]. inversion H2; subst. constructor; [now apply ci_with_ok|assumption].
  - cbn [cobj c_N c_gate c_params c_num]. rewrite circ_gate. auto.
Qed.

(** ** params_update of u3 and cu3 *)
Lemma after_agrees : forall g p, params_update g p = match after_update g p with (g', None) => Ok g' | (_, Some e) => Err e end.
Proof. intros g p. unfold after_update. destruct (params_update g p); reflexivity. Qed.
Lemma short_u3 : forall l, length l < 3 -> u3_m l = Err IndexError.
Proof. intros l L. unfold u3_m. destruct l as [|a [|b [|c l]]]; cbn in *; try lia; reflexivity. Qed.
Theorem u3_left : forall n g o l, (exists t p q w, g = gi_u3 t p q w) \/ (exists t p q a b, g = gi_cu3 t p q a b) -> length l < 3 -> build n g = Ok o ->
  exists o', after_update o (PV l) = (o', Some IndexError) /\ g_params o' = Some (PV l) /\
    U_expand o' = U_expand o /\ (forall MPS b, TN_contract o' MPS b = TN_contract o MPS b) /\ (forall svd MPS, TN_operation svd o' MPS = TN_operation svd o MPS) /\
    operation_dagger o' = Err IndexError /\
    forall x y z, after_update o' (PV [x; y; z]) = match build n (gi_with g [x; y; z]) with Ok r => (r, None) | Err e => (o', Some e) end.
Proof.
  intros n g o l Hg L Ho. rewrite build_ok in Ho. injection Ho as <-. exists (with_params (obj n g) (PV l) (g_matrix (obj n g)) (g_umatrix (obj n g))).
  assert (D : forall A (f : R -> R -> R -> res A), (do x <- py_nth l 0; do y <- py_nth l 1; do z <- py_nth l 2; f x y z) = Err IndexError).
  { intros A f. destruct l as [|a [|b [|c l]]]; cbn in *; try lia; reflexivity. }
  assert (P : forall x y z u, params_update (with_params (obj n g) u (g_matrix (obj n g)) (g_umatrix (obj n g))) (PV [x; y; z]) = build n (gi_with g [x; y; z])).
  { intros x y z u. pose proof (params_update_obj n g (PV [x; y; z]) (gi_with g [x; y; z])) as X. destruct Hg as [(t & p & q & w & ->)|(t & p & q & a & b & ->)]; rewrite build_ok; cbn [gi_with gi_angles] in *; exact (X eq_refl). }
  assert (Q : forall x y z, after_update (with_params (obj n g) (PV l) (g_matrix (obj n g)) (g_umatrix (obj n g))) (PV [x; y; z]) =
    match build n (gi_with g [x; y; z]) with Ok r => (r, None) | Err e => (with_params (obj n g) (PV l) (g_matrix (obj n g)) (g_umatrix (obj n g)), Some e) end).
  { intros x y z. unfold after_update. rewrite P, build_ok. reflexivity. }
  unfold after_update at 1.
  destruct Hg as [(t & p & q & w & ->)|(t & p & q & a & b & ->)].
  - split; [unfold params_update; cbn [obj gi_cls g_cls p_vec bind]; now rewrite short_u3|]. repeat (split; [reflexivity|]). split; [|exact Q].
    unfold operation_dagger. cbn [with_params obj gi_cls g_cls g_params p_vec bind]. apply D.
  - split; [unfold params_update; cbn [obj gi_cls g_cls p_vec bind]; now rewrite short_u3|]. repeat (split; [reflexivity|]). split; [|exact Q].
    unfold operation_dagger. cbn [with_params obj gi_cls g_cls g_params p_vec bind]. apply D.
Qed.

(** ** params_update of BasicEntangleLayer *)
Lemma parts_agree : forall N wires params is ps,
  mfold (fun (ps : list slayer * list ring) i =>
    do y <- new_slayer YZYLayer N wires (pslice params (i * (3 * length wires)) ((i + 1) * (3 * length wires)));
    do c <- new_ring N wires; Ok (fst ps ++ [y], snd ps ++ [c])) is ps
  = match parts_made N wires params is ps with (ps', None) => Ok ps' | (_, Some e) => Err e end.
Proof.
  intros N wires params is. induction is as [|i is IH]; intros ps; [reflexivity|]. cbn [mfold parts_made]. cbv zeta.
  destruct (new_slayer YZYLayer N wires _); cbn [bind]; [|reflexivity]. destruct (new_ring N wires); cbn [bind]; [apply IH|reflexivity].
Qed.
Lemma basic_agrees : forall b params, basic_params_update b params = match basic_after_update b params with (b', None) => Ok b' | (_, Some e) => Err e end.
Proof.
  intros b params. unfold basic_params_update, basic_after_update, basic_parts. cbv zeta. rewrite parts_agree. destruct (parts_made _ _ _ _ _) as [ps' [e|]]; reflexivity.
Qed.
Lemma parts_prefix : forall n ws qs q, good_wires n ws -> 2 <= length ws -> q * (3 * length ws) <= length qs -> forall rest,
  parts_made (Z.of_nat n) (map Z.of_nat ws) qs (seq 0 q ++ rest) ([], []) =
  parts_made (Z.of_nat n) (map Z.of_nat ws) qs rest (b_part1 (basic_obj n q ws qs), b_part2 (basic_obj n q ws qs)).
Proof.
  intros n ws qs q W H. cbn [basic_obj b_part1 b_part2]. induction q as [|q IH]; intros L rest; [reflexivity|].
  rewrite seq_S, <- app_assoc, IH by lia. cbn [app parts_made plus]. cbv zeta. rewrite map_length. fold (basic_slice ws qs q).
  rewrite new_slayer_ok; [|exact W|]. 2:{ unfold basic_slice, pslice. rewrite firstn_length, skipn_length. cbn. lia. }
  rewrite new_ring_ok by auto. cbn [fst snd]. now rewrite !map_app.
Qed.
Theorem basic_left : forall n rep ws ps qs b, good_wires n ws -> 2 <= length ws -> 1 <= rep -> length ps = 3 * length ws * rep -> length qs < 3 * length ws * rep ->
  new_basic (Z.of_nat n) (map Z.of_nat ws) ps (Z.of_nat rep) = Ok b ->
  exists b', basic_after_update b qs = (b', Some ValueError) /\ b_params b' = qs /\ basic_U b' = Err IndexError /\
    forall rs, length rs = 3 * length ws * rep -> exists b2, new_basic (Z.of_nat n) (map Z.of_nat ws) rs (Z.of_nat rep) = Ok b2 /\ basic_after_update b' rs = (b2, None).
Proof.
  intros n rep ws ps qs b W H Hr HL HQ Hb. rewrite new_basic_ok in Hb by auto. injection Hb as <-.
  set (L := 3 * length ws) in *. set (q := length qs / L). assert (L0 : L <> 0) by (unfold L; lia).
  assert (Q1 : q * L <= length qs) by (unfold q; rewrite Nat.mul_comm; now apply Nat.mul_div_le).
  assert (Q2 : length qs < (q + 1) * L) by (pose proof (Nat.mul_succ_div_gt (length qs) L L0); fold q in H0; lia).
  assert (Q3 : q < rep) by nia.
  exists (mkB (Z.of_nat n) (map Z.of_nat ws) qs (Z.of_nat rep) (b_part1 (basic_obj n q ws qs)) (b_part2 (basic_obj n q ws qs))).
  split; [|split; [reflexivity|split]].
  - unfold basic_after_update. cbn [basic_obj b_N b_wires b_repeat]. rewrite Nat2Z.id. replace (seq 0 rep) with (seq 0 q ++ q :: seq (S q) (rep - S q)).
    2:{ replace rep with (q + S (rep - S q)) at 2 by lia. rewrite seq_app. reflexivity. }
    rewrite parts_prefix by auto. cbn [parts_made]. cbv zeta. rewrite map_length. fold L.
    assert (E : new_slayer YZYLayer (Z.of_nat n) (map Z.of_nat ws) (pslice qs (q * L) ((q + 1) * L)) = Err ValueError).
    { clear - Q1 Q2 L0. unfold new_slayer, raise_if. cbn [per_wire]. rewrite !map_length.
      replace (3 * length ws =? length (pslice qs (q * L) ((q + 1) * L))) with false; [reflexivity|]. symmetry. apply Nat.eqb_neq. unfold pslice. rewrite firstn_length, skipn_length. fold L. lia. }
    rewrite E. reflexivity.
  - unfold basic_U. cbn [b_part1 b_part2 b_repeat b_N]. destruct (Nat.eq_dec q 0) as [Z0|Z0]; [rewrite Z0; reflexivity|].
    pose proof (basic_U_ok n q ws (firstn (q * L) qs)) as X. assert (Hn : 0 < n) by (apply good_wires_length in W; lia).
    specialize (X Hn W H ltac:(lia)). rewrite firstn_length in X. specialize (X ltac:(fold L; lia)). unfold basic_U in X. cbn [b_repeat b_N basic_obj] in X.
    replace (b_part1 (basic_obj n q ws (firstn (q * L) qs))) with (b_part1 (basic_obj n q ws qs)) in X.
    2:{ cbn [basic_obj b_part1]. apply map_ext_in. intros i Hi. apply in_seq in Hi. f_equal. unfold basic_slice, pslice. fold L.
        rewrite skipn_firstn_comm, firstn_firstn. f_equal. nia. }
    change (b_part2 (basic_obj n q ws (firstn (q * L) qs))) with (b_part2 (basic_obj n q ws qs)) in X.
    destruct (py_nth (b_part2 (basic_obj n q ws qs)) 0) as [r0|]; cbn [bind] in *; [|discriminate]. destruct (ring_U r0) as [cr|]; cbn [bind] in *; [|discriminate].
    rewrite !Nat2Z.id in *. replace (seq 0 rep) with (seq 0 q ++ q :: seq (S q) (rep - S q)).
    2:{ replace rep with (q + S (rep - S q)) at 2 by lia. rewrite seq_app. reflexivity. }
    rewrite mfold_app, X. cbn [bind mfold].
    assert (E : py_nth (b_part1 (basic_obj n q ws qs)) (Z.of_nat q) = Err IndexError).
    { unfold py_nth, py_index. cbn [basic_obj b_part1]. rewrite map_length, seq_length.
      replace ((0 <=? Z.of_nat q) && (Z.of_nat q <? Z.of_nat q))%Z with false by lia. replace ((- Z.of_nat q <=? Z.of_nat q) && (Z.of_nat q <? 0))%Z with false by lia. reflexivity. }
    rewrite E. reflexivity.
  - intros rs HR. exists (basic_obj n rep ws rs). split; [now apply new_basic_ok|]. pose proof (basic_update_ok n rep ws qs rs W H HR) as X.
    rewrite basic_agrees in X. unfold basic_after_update in *. cbn [basic_obj b_N b_wires b_repeat] in *. destruct (parts_made _ _ rs _ _) as [p' [e|]]; [discriminate|]. congruence.
Qed.
(** angles beyond the expected number are stored and not used *)
Theorem basic_more : forall n rep ws ps qs b, good_wires n ws -> 2 <= length ws -> 1 <= rep -> length ps = 3 * length ws * rep -> 3 * length ws * rep <= length qs ->
  new_basic (Z.of_nat n) (map Z.of_nat ws) ps (Z.of_nat rep) = Ok b ->
  exists b' b2, basic_after_update b qs = (b', None) /\ b_params b' = qs /\
    new_basic (Z.of_nat n) (map Z.of_nat ws) (firstn (3 * length ws * rep) qs) (Z.of_nat rep) = Ok b2 /\ basic_U b' = basic_U b2.
Proof.
  intros n rep ws ps qs b W H Hr HL HQ Hb. rewrite new_basic_ok in Hb by auto. injection Hb as <-.
  assert (Lf : length (firstn (3 * length ws * rep) qs) = 3 * length ws * rep) by (rewrite firstn_length; lia).
  exists (basic_obj n rep ws qs), (basic_obj n rep ws (firstn (3 * length ws * rep) qs)). split; [|split; [reflexivity|split; [now apply new_basic_ok|]]].
  - unfold basic_after_update. cbn [basic_obj b_N b_wires b_repeat]. rewrite Nat2Z.id. rewrite <- (app_nil_r (seq 0 rep)), parts_prefix by (auto; lia). cbn [parts_made fst snd basic_obj b_part1 b_part2]. reflexivity.
  - unfold basic_U. replace (b_part1 (basic_obj n rep ws (firstn (3 * length ws * rep) qs))) with (b_part1 (basic_obj n rep ws qs)); [reflexivity|].
    cbn [basic_obj b_part1]. apply map_ext_in. intros i Hi. apply in_seq in Hi. f_equal. unfold basic_slice, pslice. rewrite skipn_firstn_comm, firstn_firstn. f_equal. nia.
Qed.
