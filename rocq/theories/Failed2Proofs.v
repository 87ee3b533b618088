(** Theorems: what a cal_params_grad2 that raises leaves behind. *)
From Coq Require Import List ZArith QArith Reals Lra Lia Bool Arith.
From Verif Require Import PyBase Scalar CInst BigSum Index Tensor Spec SpecFacts GateSpec RunSpec LayerSpec MPSSpec CircuitSpec GradSpec
  QMath QTN QOperator QGates GateCalls QLayers LayerCalls GateFacts2 GateFacts4 GateFacts6 LayerFacts3 LayerFacts4 MPSFacts2 MPSFacts9 QCircuit QGradient CircuitFacts1 CircuitProofs
  GradFacts1 GradFacts2 GradFacts3 GradFacts4 GradProofs QFailed FailedFacts FailedProofs QFailed2 StaleProofs.
Import ListNotations.
Local Close Scope Q_scope.
Local Close Scope R_scope.
Local Open Scope nat_scope.

(** ** the two models agree *)
Section Agree.
  Variable svd : tensor -> tensor * tensor * tensor.
  Variables (im : list tensor) (sd : mid).
  Lemma entry2_agrees : forall idx i c p g, grad2_entry svd im sd idx (c, p, g) i = match f_grad2_entry svd im sd idx (p, g) i c with (c', Ok (p', g')) => Ok (c', p', g') | (_, Err e) => Err e end.
  Proof.
    intros idx i c p g. unfold grad2_entry, f_grad2_entry, sbind, f_update, f_overlap, sret.
    destruct (update_gate c idx _) as [c1|]; cbn [bind]; [|reflexivity]. destruct (overlap_at svd im sd c1 idx); cbn [bind]; [|reflexivity].
    destruct (update_gate c1 idx _) as [c2|]; cbn [bind]; reflexivity.
  Qed.
  Lemma entries2_agree : forall idx l c p g, mfold (grad2_entry svd im sd idx) l (c, p, g) =
    match sfold (f_grad2_entry svd im sd idx) l (p, g) c with (c', Ok (p', g')) => Ok (c', p', g') | (_, Err e) => Err e end.
  Proof.
    intros idx l. induction l as [|i l IH]; intros c p g; [reflexivity|]. cbn [mfold sfold]. rewrite entry2_agrees. unfold sbind.
    destruct (f_grad2_entry svd im sd idx (p, g) i c) as [c' [[p' g']|e]]; cbn [bind]; [apply IH|reflexivity].
  Qed.
  Lemma gate2_agrees : forall idx c g, grad2_gate svd im sd (c, g) idx = match f_grad2_gate svd im sd g idx c with (c', Ok g') => Ok (c', g') | (_, Err e) => Err e end.
  Proof.
    intros idx c g. unfold grad2_gate, f_grad2_gate. destruct (nth_error (c_gate c) idx); [|reflexivity]. destruct (o_num_params o =? 0); [reflexivity|].
    destruct (dict_get (c_params c) idx) as [[[x|l]|]|]; cbn [bind]; try reflexivity.
    - unfold f_grad2_one, sbind, f_update, f_overlap, sret. destruct (update_gate c idx _) as [c1|]; cbn [bind]; [|reflexivity].
      destruct (overlap_at svd im sd c1 idx); cbn [bind]; [|reflexivity]. destruct (update_gate c1 idx _) as [c2|]; reflexivity.
    - rewrite entries2_agree. unfold sbind, sret. destruct (sfold _ _ _ c) as [c' [[p' g']|e]]; reflexivity.
  Qed.
End Agree.
Theorem failed2_agrees : forall svd t sd c, cal_params_grad2 svd t c sd = match f_cal_params_grad2 svd t sd c with (c', Ok g) => Ok (g, c') | (_, Err e) => Err e end.
Proof.
  intros svd t sd c. unfold cal_params_grad2, f_cal_params_grad2. destruct (StateVec2MPS svd t (c_N c)) as [im|e]; cbn [bind]; [|reflexivity]. unfold sbind.
  assert (F : forall l c g, mfold (grad2_gate svd im sd) l (c, g) = match sfold (f_grad2_gate svd im sd) l g c with (c', Ok g') => Ok (c', g') | (_, Err e) => Err e end).
  { induction l as [|i l IH]; intros c0 g; [reflexivity|]. cbn [mfold sfold]. rewrite gate2_agrees. unfold sbind. destruct (f_grad2_gate svd im sd g i c0) as [c' [g'|e]]; cbn [bind]; [apply IH|reflexivity]. }
  rewrite F. destruct (sfold _ _ _ c) as [c' [g|e]]; cbn [bind]; [|reflexivity]. unfold assert_. destruct (length g =? c_num c'); reflexivity.
Qed.

(** ** what is left of the circuit *)
Section Left.
  Variable svd : tensor -> tensor * tensor * tensor.
  Variables (im : list tensor) (sd : mid).
  Variable n : nat.
  Variables (ps : list (nat * option pval)) (kn : nat).
  Variables (pre post : list ci) (x0 : ci).
  Hypothesis Ok0 : ci_ok n x0.
  Let a := ci_angles x0.
  Let moved := moved n ps kn pre post x0.
  Definition by_half (c : circuit) : Prop := exists i, i < length (ci_angles x0) /\ c = moved (set_at i (nth i a 0 - PI)%R a).
  Lemma vec_form : pv_of x0 = PV a -> forall u, length u = length a -> PV u = pv_of (ci_with x0 u).
  Proof.
    intros PV0 u Lu. unfold a in *. unfold pv_of in *. destruct x0 as [[]|l]; cbn [ci_with gi_with ci_angles gi_angles] in *; try discriminate;
      cbn in Lu; try (destruct u as [|u1 [|u2 [|u3 [|]]]]; try discriminate; reflexivity).
    f_equal. symmetry. apply (ci_with_angles (CL l)). exact Lu.
  Qed.
  Lemma num_form : length a = 1 -> pv_of x0 = PS (nth 0 a 0%R) -> forall z, PS z = pv_of (ci_with x0 [z]).
  Proof. intros L1 PS0 z. unfold a in *. unfold pv_of in *. destruct x0 as [[]|l]; cbn [ci_with gi_with ci_angles gi_angles] in *; try discriminate; reflexivity. Qed.
  (** one angle *)
  Lemma one2_run : length a = 1 -> pv_of x0 = PS (nth 0 a 0%R) ->
    f_grad2_one svd im sd (length pre) (nth 0 a 0%R) (moved a) =
    match overlap_at svd im sd (moved (set_at 0 (nth 0 a 0 - PI)%R a)) (length pre) with Ok e => (moved a, Ok e) | Err e => (moved (set_at 0 (nth 0 a 0 - PI)%R a), Err e) end.
  Proof.
    intros L1 PS0. pose proof (num_form L1 PS0) as P. set (y := nth 0 a 0%R) in *.
    assert (S : forall z, set_at 0 z a = [z]) by (intros z; destruct a as [|? [|]]; try discriminate; reflexivity).
    assert (A : [y] = a) by (unfold y; destruct a as [|z [|]]; try discriminate; reflexivity). rewrite S.
    unfold f_grad2_one, sbind, moved. rewrite (f_update_ok n ps kn pre post x0 Ok0 a [(y - PI)%R]) by (cbn; auto; discriminate). unfold f_overlap.
    destruct (overlap_at svd im sd _ (length pre)); [|reflexivity]. replace (y - PI + PI)%R with y by lra.
    rewrite (f_update_ok n ps kn pre post x0 Ok0 _ [y]) by (cbn; auto; discriminate). unfold sret. now rewrite A.
  Qed.
  (** one angle of a list *)
  Lemma entry2_run : a <> [] -> pv_of x0 = PV a -> forall i g, i < length a ->
    f_grad2_entry svd im sd (length pre) (a, g) i (moved a) =
    match overlap_at svd im sd (moved (set_at i (nth i a 0 - PI)%R a)) (length pre) with Ok e => (moved a, Ok (a, g ++ [e])) | Err e => (moved (set_at i (nth i a 0 - PI)%R a), Err e) end.
  Proof.
    intros NA PV0 i g Hi. pose proof (vec_form PV0) as P. assert (NE : forall u : list R, length u = length a -> u <> []) by (intros u Lu ->; destruct a; [congruence|discriminate]).
    unfold f_grad2_entry. cbv zeta.
    assert (P1 : padd a i (- PI) = set_at i (nth i a 0 - PI)%R a) by (unfold padd; now rewrite set_nth_at).
    rewrite P1. assert (L1 : length (set_at i (nth i a 0 - PI)%R a) = length a) by (now apply set_at_length).
    assert (P3 : padd (set_at i (nth i a 0 - PI)%R a) i PI = a).
    { unfold padd. rewrite set_nth_at, nth_set_at, set_at_twice by lia. replace (nth i a 0 - PI + PI)%R with (nth i a 0%R) by lra. now apply set_at_nth. }
    rewrite P3. unfold sbind, moved. rewrite (f_update_ok n ps kn pre post x0 Ok0 a (set_at i (nth i a 0 - PI)%R a)) by auto. unfold f_overlap.
    destruct (overlap_at svd im sd _ (length pre)); [|reflexivity]. rewrite (f_update_ok n ps kn pre post x0 Ok0 _ a) by auto. reflexivity.
  Qed.
  Lemma entries2_left : a <> [] -> pv_of x0 = PV a -> forall l g, (forall i, In i l -> i < length a) ->
    match sfold (f_grad2_entry svd im sd (length pre)) l (a, g) (moved a) with (c', Ok (_, g')) => c' = moved a /\ length g' = length g + length l | (c', Err e) => by_half c' end.
  Proof.
    intros NA PV0. induction l as [|i l IH]; intros g Hl; [cbn; split; [reflexivity|lia]|]. cbn [sfold]. unfold sbind.
    rewrite (entry2_run NA PV0 i g (Hl i (or_introl eq_refl))). destruct (overlap_at svd im sd _ (length pre)) as [e|e]; [|exists i; split; [exact (Hl i (or_introl eq_refl))|reflexivity]].
    specialize (IH (g ++ [e]) (fun j Hj => Hl j (or_intror Hj))). destruct (sfold _ l (a, g ++ [e]) (moved a)) as [c'' [[p' g'']|e']]; [|exact IH].
    destruct IH as [-> E]. split; [reflexivity|]. rewrite app_length in E. cbn [length] in *. lia.
  Qed.
  Lemma gate2_left : forall g, (a <> [] -> dict_get ps (length pre) = Ok (Some (pv_of x0))) ->
    match f_grad2_gate svd im sd g (length pre) (cobj n (pre ++ x0 :: post) ps kn) with (c', Ok g') => c' = cobj n (pre ++ x0 :: post) ps kn /\ length g' = length g + length a | (c', Err e) => by_half c' end.
  Proof.
    intros g HD. rewrite <- (moved_self n ps kn pre post x0). fold a. fold moved. unfold f_grad2_gate. unfold moved at 1 3 6. unfold FailedFacts.moved at 1 2 3. cbn [c_gate cobj c_params].
    rewrite map_app. cbn [map]. rewrite <- (map_length (oobj n) pre), nth_error_mid, map_length. unfold a at 1. rewrite ci_with_self.
    rewrite (form_num n x0 x0 Ok0 (form_refl x0)). fold a. destruct (length a =? 0) eqn:E0; [apply Nat.eqb_eq in E0; split; [reflexivity|lia]|].
    assert (NA : a <> []) by (intros X; rewrite X in E0; discriminate). rewrite (HD NA). 
    destruct (pv_cases x0 NA) as [V|[L1 V]]; rewrite V; fold a.
    - pose proof (entries2_left NA V (seq 0 (length a)) g ltac:(intros i Hi; apply in_seq in Hi; lia)) as X. unfold sbind, sret.
      destruct (sfold _ _ _ (moved a)) as [c' [[p' r]|e]]; [rewrite seq_length in X|]; exact X.
    - fold a in L1, V. unfold sbind, sret. rewrite (one2_run L1 V). destruct (overlap_at svd im sd _ (length pre)) as [r|e]; [|exists 0; fold a; rewrite L1; split; [lia|reflexivity]].
      split; [reflexivity|]. rewrite app_length, L1. reflexivity.
  Qed.
  (** the first angle, when the overlap cannot be computed *)
  Lemma first2_fails : forall g e, a <> [] -> dict_get ps (length pre) = Ok (Some (pv_of x0)) ->
    (forall u, length u = length a -> overlap_at svd im sd (moved u) (length pre) = Err e) ->
    f_grad2_gate svd im sd g (length pre) (cobj n (pre ++ x0 :: post) ps kn) = (moved (set_at 0 (nth 0 a 0 - PI)%R a), Err e).
  Proof.
    intros g e NA HD HE. rewrite <- (moved_self n ps kn pre post x0). fold a. fold moved. unfold f_grad2_gate. unfold moved at 1 3. unfold FailedFacts.moved at 1 2. cbn [c_gate cobj c_params].
    rewrite map_app. cbn [map]. rewrite <- (map_length (oobj n) pre), nth_error_mid, map_length. unfold a at 1. rewrite ci_with_self.
    rewrite (form_num n x0 x0 Ok0 (form_refl x0)). fold a.
    assert (L0 : 0 < length a) by (destruct a; [congruence|cbn; lia]). replace (length a =? 0) with false by (symmetry; apply Nat.eqb_neq; lia). rewrite HD.
    assert (LS : length (set_at 0 (nth 0 a 0 - PI)%R a) = length a) by (now apply set_at_length).
    destruct (pv_cases x0 NA) as [V|[L1 V]]; rewrite V; fold a.
    - replace (seq 0 (length a)) with (0 :: seq 1 (length a - 1)) by (destruct (length a); [lia|cbn; now rewrite Nat.sub_0_r]). cbn [sfold]. unfold sbind.
      rewrite (entry2_run NA V 0 g L0), HE by exact LS. reflexivity.
    - fold a in L1, V. unfold sbind. rewrite (one2_run L1 V), HE by exact LS. reflexivity.
  Qed.
End Left.

Section Fold.
  Variable svd : tensor -> tensor * tensor * tensor.
  Variable n : nat.
  Lemma gates2_left : forall im sd ps kn post pre g, Forall (ci_ok n) (pre ++ post) -> recorded ps (pre ++ post) ->
    match sfold (f_grad2_gate svd im sd) (seq (length pre) (length post)) g (cobj n (pre ++ post) ps kn) with
    | (c', Ok g') => c' = cobj n (pre ++ post) ps kn /\ length g' = length g + length (cs_angles post)
    | (c', Err e) => exists k, k < length (cs_angles (pre ++ post)) /\
        c' = cobj n (cs_with (pre ++ post) (set_at k (nth k (cs_angles (pre ++ post)) 0 - PI)%R (cs_angles (pre ++ post)))) ps kn
    end.
  Proof.
    intros im sd ps kn post. induction post as [|x post IH]; intros pre g HO HR; [cbn; split; [reflexivity|lia]|].
    cbn [length seq sfold]. unfold sbind at 1.
    assert (Ok0 : ci_ok n x) by (apply Forall_app in HO; destruct HO as [_ HO]; now inversion HO).
    pose proof (gate2_left svd im sd n ps kn pre post x Ok0 g) as G.
    assert (HD : ci_angles x <> [] -> dict_get ps (length pre) = Ok (Some (pv_of x))).
    { intros NA. apply (HR (length pre) x); [|exact NA]. rewrite nth_error_app2, Nat.sub_diag by lia. reflexivity. }
    specialize (G HD). destruct (f_grad2_gate svd im sd g (length pre) (cobj n (pre ++ x :: post) ps kn)) as [c' [g'|e]].
    - destruct G as [-> Lg]. specialize (IH (pre ++ [x]) g'). rewrite <- app_assoc in IH. cbn [app] in IH. specialize (IH HO HR).
      rewrite app_length in IH. cbn [length] in IH. rewrite Nat.add_comm in IH. cbn [plus] in IH.
      destruct (sfold _ _ g' _) as [c' [g''|e]]; [|exact IH]. destruct IH as [-> L2]. split; [reflexivity|]. cbn [cs_angles flat_map]. fold (cs_angles post). rewrite app_length. lia.
    - destruct G as (i & Hi & ->). exists (length (cs_angles pre) + i). split.
      + rewrite cs_angles_app. cbn [cs_angles flat_map]. rewrite !app_length. lia.
      + rewrite cs_with_at by exact Hi. unfold moved. rewrite cs_angles_app, app_nth2_plus. cbn [cs_angles flat_map]. rewrite app_nth1 by exact Hi. reflexivity.
  Qed.
  Lemma cal2_left : forall t sd cs, Forall (ci_ok n) cs ->
    match f_cal_params_grad2 svd t sd (circ n cs) with
    | (c', Ok g) => c' = circ n cs /\ length g = length (cs_angles cs)
    | (c', Err e) => (c' = circ n cs /\ StateVec2MPS svd t n = Err e) \/ exists k, k < length (cs_angles cs) /\
        c' = cobj n (cs_with cs (set_at k (nth k (cs_angles cs) 0 - PI)%R (cs_angles cs))) (c_params (circ n cs)) (c_num (circ n cs))
    end.
  Proof.
    intros t sd cs H. unfold f_cal_params_grad2. replace (c_N (circ n cs)) with n by (symmetry; apply circ_N). destruct (StateVec2MPS svd t n) as [im|e]; [|left; auto]. unfold sbind. rewrite (circ_cobj n cs). cbn [c_params c_num cobj c_gate]. rewrite map_length.
    pose proof (gates2_left im sd (c_params (circ n cs)) (c_num (circ n cs)) cs [] [] H (circ_recorded n cs H)) as G. cbn [app length] in G.
    destruct (sfold _ _ [] _) as [c' [g|e]]; [|right; exact G]. destruct G as [-> L]. cbn [c_num cobj plus length] in *. rewrite circ_num, L, Nat.eqb_refl by auto. cbn [assert_]. auto.
  Qed.
End Fold.

(** the circuit a raising call leaves: unchanged, or one angle moved by -pi *)
Theorem failed2_left : forall svd n cs t sd c c' e, Forall (ci_ok n) cs -> circuit_of n cs = Ok c -> f_cal_params_grad2 svd t sd c = (c', Err e) ->
  (c' = c /\ StateVec2MPS svd t n = Err e) \/ exists k c2, k < length (cs_angles cs) /\
    circuit_of n (cs_with cs (set_at k (nth k (cs_angles cs) 0 - PI)%R (cs_angles cs))) = Ok c2 /\ c' = mkC n (c_gate c2) (c_params c) (c_num c).
Proof.
  intros svd n cs t sd c c' e H Ec E. rewrite circuit_of_ok in Ec by auto. injection Ec as <-. pose proof (cal2_left svd n t sd cs H) as G. rewrite E in G.
  destruct G as [G|(k & Hk & ->)]; [left; exact G|right]. exists k, (circ n (cs_with cs (set_at k (nth k (cs_angles cs) 0 - PI)%R (cs_angles cs)))).
  split; [exact Hk|]. split; [apply circuit_of_ok, with_forall; [exact H|now apply set_at_length]|]. rewrite circ_gate. reflexivity.
Qed.
Theorem returned2_left : forall svd n cs t sd c c' g, Forall (ci_ok n) cs -> circuit_of n cs = Ok c -> f_cal_params_grad2 svd t sd c = (c', Ok g) ->
  c' = c /\ length g = length (cs_angles cs).
Proof.
  intros svd n cs t sd c c' g H Ec E. rewrite circuit_of_ok in Ec by auto. injection Ec as <-. pose proof (cal2_left svd n t sd cs H) as G. rewrite E in G. exact G.
Qed.

(** with a proper state the circuit is never left unchanged *)
Theorem failed2_left_state : forall svd n cs t psi sd c c' e, exact_svd svd -> 0 < n -> is_state n [1; 2 ^ n] t psi -> nonzero n psi ->
  Forall (ci_ok n) cs -> circuit_of n cs = Ok c -> f_cal_params_grad2 svd t sd c = (c', Err e) ->
  exists k c2, k < length (cs_angles cs) /\
    circuit_of n (cs_with cs (set_at k (nth k (cs_angles cs) 0 - PI)%R (cs_angles cs))) = Ok c2 /\ c' = mkC n (c_gate c2) (c_params c) (c_num c).
Proof.
  intros svd n cs t psi sd c c' e Hs Hn Ht HZ H Ec E. destruct (failed2_left svd n cs t sd c c' e H Ec E) as [(_ & X)|X]; [|exact X].
  destruct (round_trip svd n t psi Hs Hn Ht HZ) as (l0 & _ & E0 & _). congruence.
Qed.
(** a state that is refused: nothing is changed *)
Theorem bad_state2 : forall svd n cs t sd c, Forall (ci_ok n) cs -> shape t <> [1; 2 ^ n] -> circuit_of n cs = Ok c -> f_cal_params_grad2 svd t sd c = (c, Err ValueError).
Proof.
  intros svd n cs t sd c H HB Ec. rewrite circuit_of_ok in Ec by auto. injection Ec as <-. unfold f_cal_params_grad2. rewrite circ_N.
  replace (StateVec2MPS svd t n) with (@Err (list tensor) ValueError); [reflexivity|]. unfold StateVec2MPS. destruct (shape t) as [|a [|b [|]]]; try reflexivity. cbn [length Nat.eqb negb raise_if nth].
  destruct (a =? 1) eqn:Ea; [|reflexivity]. destruct (b =? 2 ^ n) eqn:Eb; [|reflexivity]. apply Nat.eqb_eq in Ea, Eb. congruence.
Qed.

Lemma no_angles2_step : forall svd im sd n ps kn pre x post g, ci_ok n x -> ci_angles x = [] ->
  f_grad2_gate svd im sd g (length pre) (cobj n (pre ++ x :: post) ps kn) = (cobj n (pre ++ x :: post) ps kn, Ok g).
Proof.
  intros svd im sd n ps kn pre x post g H0 NA. unfold f_grad2_gate. cbn [c_gate cobj]. rewrite map_app. cbn [map]. rewrite <- (map_length (oobj n) pre), nth_error_mid.
  rewrite (form_num n x x H0 (form_refl x)), NA. reflexivity.
Qed.
Lemma no_angles2_steps : forall svd im sd n ps kn a pre x g, Forall (ci_ok n) (pre ++ a ++ x) -> cs_angles a = [] ->
  sfold (f_grad2_gate svd im sd) (seq (length pre) (length a)) g (cobj n (pre ++ a ++ x) ps kn) = (cobj n (pre ++ a ++ x) ps kn, Ok g).
Proof.
  intros svd im sd n ps kn a. induction a as [|y a IH]; intros pre x g HO HA; [reflexivity|]. cbn [length seq sfold app]. unfold sbind.
  cbn [cs_angles flat_map] in HA. fold (cs_angles a) in HA. apply app_eq_nil in HA. destruct HA as [HA1 HA2].
  rewrite no_angles2_step; [|apply Forall_app in HO; destruct HO as [_ HO]; now inversion HO|exact HA1].
  specialize (IH (pre ++ [y]) x g). rewrite <- app_assoc, app_length in IH. cbn [app length] in IH. rewrite Nat.add_comm in IH. now apply IH.
Qed.
Lemma dict_missing : forall A (d : list (nat * A)) k, ~ In k (map fst d) -> dict_get d k = Err KeyError.
Proof. induction d as [|[k' v] d IH]; intros k H; [reflexivity|]. cbn in *. replace (k' =? k) with false by (symmetry; apply Nat.eqb_neq; tauto). apply IH. tauto. Qed.
(** intermediate results that are missing for the first operation with angles *)
Theorem missing_left : forall svd n pre x post t psi sd c, exact_svd svd -> 0 < n -> is_state n [1; 2 ^ n] t psi -> nonzero n psi ->
  Forall (ci_ok n) (pre ++ x :: post) -> cs_angles pre = [] -> ci_angles x <> [] ->
  (pre <> [] /\ ~ In (length pre - 1) (map fst sd)) \/ (pre = [] /\ ci_TN n x = true /\ ~ In (2 * S (length post) - 2) (map fst sd)) ->
  circuit_of n (pre ++ x :: post) = Ok c ->
  exists c2, circuit_of n (pre ++ ci_with x (set_at 0 (nth 0 (ci_angles x) 0 - PI)%R (ci_angles x)) :: post) = Ok c2 /\
    f_cal_params_grad2 svd t sd c = (mkC n (c_gate c2) (c_params c) (c_num c), Err KeyError).
Proof.
  intros svd n pre x post t psi sd c Hs Hn Ht HZ H HA NA HB Ec. rewrite circuit_of_ok in Ec by auto. injection Ec as <-.
  destruct (round_trip svd n t psi Hs Hn Ht HZ) as (im & _ & E0 & M0 & _).
  assert (Ok0 : ci_ok n x) by (apply Forall_app in H; destruct H as [_ H]; now inversion H).
  set (ps := c_params (circ n (pre ++ x :: post))). set (kn := c_num (circ n (pre ++ x :: post))).
  set (v := set_at 0 (nth 0 (ci_angles x) 0 - PI)%R (ci_angles x)).
  assert (Lv : length v = length (ci_angles x)) by (apply set_at_length; destruct (ci_angles x); [congruence|cbn; lia]).
  assert (HE : forall u, length u = length (ci_angles x) -> overlap_at svd im sd (moved n ps kn pre post x u) (length pre) = Err KeyError).
  { intros u Lu. unfold overlap_at, moved. cbn [c_gate cobj]. rewrite map_app. cbn [map]. rewrite <- (map_length (oobj n) pre), nth_error_mid, !map_length, !app_length. cbn [length]. rewrite !map_length.
    destruct HB as [(NP & X)|(-> & T & X)].
    - replace (length pre =? 0) with false by (symmetry; apply Nat.eqb_neq; destruct pre; [congruence|discriminate]). now rewrite (dict_missing _ _ _ X).
    - cbn [length Nat.eqb plus]. assert (T' : ci_TN n (ci_with x u) = true) by (now rewrite ci_with_TN).
      destruct (o_TN_ok svd n (ci_with x u) im psi Hs (ci_with_ok n x u Ok0 Lu) T' M0 HZ) as (l' & -> & M'). cbn [bind].
      rewrite (MPS2StateVec_ok n l' _ Hn M'). cbn [bind].
      match goal with |- context[dict_get sd ?k] => replace k with (2 * S (length post) - 2) by (rewrite ?map_length; lia) end. now rewrite (dict_missing _ _ _ X). }
  exists (circ n (pre ++ ci_with x v :: post)). split.
  - apply circuit_of_ok. apply Forall_app in H. destruct H as [H1 H2]. apply Forall_app. split; [exact H1|]. inversion H2; subst. constructor; [now apply ci_with_ok|assumption].
  - rewrite circ_gate. fold ps kn. change (mkC n (map (oobj n) (pre ++ ci_with x v :: post)) ps kn) with (moved n ps kn pre post x v).
    unfold f_cal_params_grad2. rewrite circ_N, E0. rewrite (circ_cobj n (pre ++ x :: post)) at 2. fold ps kn. unfold sbind at 1. rewrite circ_gate, map_length, app_length. cbn [length].
    rewrite seq_app. cbn [plus seq].
    assert (SA : forall l1 l2 b c, sfold (f_grad2_gate svd im sd) (l1 ++ l2) b c = sbind (sfold (f_grad2_gate svd im sd) l1 b) (fun b' => sfold (f_grad2_gate svd im sd) l2 b') c).
    { induction l1 as [|i l1 IH]; intros l2 b c; [reflexivity|]. cbn [app sfold]. unfold sbind at 1. unfold sbind at 1. unfold sbind at 1. destruct (f_grad2_gate svd im sd b i c) as [c1 [b1|e]]; [|reflexivity]. apply IH. }
    rewrite SA. unfold sbind at 1. pose proof (no_angles2_steps svd im sd n ps kn pre [] (x :: post) [] H HA) as X. cbn [app length] in X. rewrite X. cbn [sfold]. unfold sbind at 1. change (0 + length pre) with (length pre).
    rewrite (first2_fails svd im sd n ps kn pre post x Ok0 [] KeyError NA); auto. apply (circ_recorded n _ H (length pre) x); [|exact NA]. rewrite nth_error_app2, Nat.sub_diag by lia. reflexivity.
Qed.

(** a later call with results saved when the circuit was as built: the gradient, and the circuit is put right *)
Theorem failed2_repaired : forall svd n cs t psi t' sd' mo c c' e, exact_svd svd -> 0 < n -> Forall (ci_ok n) cs -> forallb (ci_TN n) cs = true -> cs <> [] -> forallb pure_rotation cs = true ->
  ci_ok n mo -> ci_TN n mo = true -> hermitian n (ci_op n mo) -> is_state n [1; 2 ^ n] t psi -> nonzero n psi ->
  circuit_of n cs = Ok c -> f_cal_params_grad2 svd t' sd' c = (c', Err e) ->
  exists o sd sv g, obuild n mo = Ok o /\ save_mid_MPS svd t c o = Ok (sd, sv) /\ f_cal_params_grad2 svd t sd c' = (c, Ok g) /\ is_gradient n cs psi (ci_op n mo) g.
Proof.
  intros svd n cs t psi t' sd' mo c c' e Hs Hn H T NE P Hm Tm HM Ht HZ Ec E.
  assert (X : exists w c2, length w = length (cs_angles cs) /\ circuit_of n (cs_with cs w) = Ok c2 /\ c' = mkC n (c_gate c2) (c_params c) (c_num c)).
  { destruct (failed2_left svd n cs t' sd' c c' e H Ec E) as [(-> & _)|(k & c2 & Hk & E2 & ->)].
    - exists (cs_angles cs), c. rewrite cs_with_self. do 2 (split; [auto|]). rewrite circuit_of_ok in Ec by auto. injection Ec as <-. rewrite circ_gate. apply circ_cobj.
    - eexists _, c2. split; [|split; [exact E2|reflexivity]]. now apply set_at_length. }
  destruct X as (w & c2 & Lw & E2 & ->). destruct (adjoint_saved_as_built svd n cs w t psi mo c c2 Hs Hn H T NE P Lw Hm Tm HM Ht HZ Ec E2) as (o & sd & sv & g & E3 & E4 & E5 & G).
  exists o, sd, sv, g. do 2 (split; [assumption|]). split; [|exact G]. rewrite failed2_agrees in E5. destruct (f_cal_params_grad2 svd t sd (mkC n (c_gate c2) (c_params c) (c_num c))) as [c3 [g3|]]; congruence.
Qed.
