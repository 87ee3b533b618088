(** Counterexample, updates and cases for objects that occur several times. *)
From Coq Require Import List ZArith QArith Reals Lra Lia Bool Arith.
From Verif Require Import PyBase Scalar CInst BigSum Index Tensor Spec SpecFacts GateSpec RunSpec LayerSpec MPSSpec CircuitSpec GradSpec
  QMath QTN QOperator QGates GateCalls QLayers LayerCalls GateFacts2 GateFacts4 GateFacts6 LayerFacts4 QCircuit QGradient CircuitFacts1 CircuitProofs CircuitCases GradFacts1 GradFacts2 GradFacts3 GradFacts4 GradProofs GradProofs2 GradCases
  QShared SharedSpec SharedFacts SharedProofs.
Import ListNotations.
Local Close Scope Q_scope.
Local Close Scope R_scope.
Local Open Scope nat_scope.

Definition rxc (a : R) : ci := CG (gi_rx a 0).
Lemma rx_rx : forall a b, expect 1 [rxc a; rxc b] (zero_state 1) (lift Z_op [0]) = cos (a + b).
Proof.
  intros a b. replace (a + b)%R with (2 * (a / 2 + b / 2))%R by lra. rewrite cos_2a, cos_plus, sin_plus. conc. ring.
Qed.
Lemma rxc_ok : forall a, ci_ok 1 (rxc a).
Proof. intros a. split; [|exact I]. split; [repeat constructor; cbn; intuition lia|]. intros w. cbn. intuition lia. Qed.
Lemma zero1_nonzero : nonzero 1 (zero_state 1).
Proof. apply (nonzero_at 1 _ [0]); [cbn; tauto|reflexivity]. Qed.
Lemma dcos_shift : forall th b, derivable_pt_lim (fun x => cos (x + b)) th (- sin (th + b))%R.
Proof.
  intros th b. replace (- sin (th + b))%R with (- sin (th + b) * (1 + 0))%R by ring. apply (derivable_pt_lim_comp (fun y => y + b)%R cos); [|apply derivable_pt_lim_cos].
  apply (derivable_pt_lim_plus id (fct_cte b)); [apply derivable_pt_lim_id|apply derivable_pt_lim_const].
Qed.
Theorem shared_twice : forall svd th t m, exact_svd svd -> is_state 1 [1; 2] t (zero_state 1) -> is_op 1 m (lift Z_op [0]) -> sin (2 * th) <> 0%R ->
  exists h c, mmap (obuild 1) [CG (gi_rx th 0)] = Ok h /\ mfold (s_add h) [0; 0] (s_Circuit 1) = Ok c /\ s_cal_params_grad svd t m c h = Ok ([0; 0]%R, h) /\
    derivable_pt_lim (fun x => expect 1 [CG (gi_rx x 0); CG (gi_rx th 0)] (zero_state 1) (lift Z_op [0])) th (- sin (2 * th))%R /\
    derivable_pt_lim (fun x => expect 1 [CG (gi_rx th 0); CG (gi_rx x 0)] (zero_state 1) (lift Z_op [0])) th (- sin (2 * th))%R /\
    ~ is_gradient 1 [CG (gi_rx th 0); CG (gi_rx th 0)] (zero_state 1) (lift Z_op [0]) [0; 0]%R.
Proof.
  intros svd th t m Hs Ht Hm NZ.
  destruct (shared_value svd 1 [rxc th] [0; 0] t (zero_state 1) m (lift Z_op [0]) Hs (le_n 1)) as (h & c & E1 & E2 & E3); auto.
  { constructor; [apply rxc_ok|constructor]. }
  { intros r [<-|[<-|[]]]; cbn; lia. }
  { right. split; [reflexivity|exact zero1_nonzero]. }
  exists h, c. split; [exact E1|]. split; [exact E2|].
  assert (D : derivable_pt_lim (fun x => expect 1 [rxc x; rxc th] (zero_state 1) (lift Z_op [0])) th (- sin (2 * th))%R).
  { apply (ext_lim _ (fun x => cos (x + th))); [intros y; apply rx_rx|]. replace (2 * th)%R with (th + th)%R by lra. apply dcos_shift. }
  assert (D' : derivable_pt_lim (fun x => expect 1 [rxc th; rxc x] (zero_state 1) (lift Z_op [0])) th (- sin (2 * th))%R).
  { apply (ext_lim _ (fun x => cos (x + th))); [intros y; rewrite rx_rx; f_equal; lra|]. replace (2 * th)%R with (th + th)%R by lra. apply dcos_shift. }
  split; [|split; [exact D|split; [exact D'|]]].
  - rewrite E3. do 2 f_equal. cbn [flat_map map app seq length the_op nth rxc ci_angles gi_angles].
    change (meant (with_angle [rxc th] 0 0 (th + / 2 * PI)) [0; 0]) with [rxc (th + / 2 * PI); rxc (th + / 2 * PI)].
    change (meant (with_angle [rxc th] 0 0 (th - / 2 * PI)) [0; 0]) with [rxc (th - / 2 * PI); rxc (th - / 2 * PI)]. rewrite !rx_rx.
    replace (th + / 2 * PI + (th + / 2 * PI))%R with (2 * th + PI)%R by lra. replace (th - / 2 * PI + (th - / 2 * PI))%R with (2 * th - PI)%R by lra.
    assert (X : (/ 2 * (cos (2 * th + PI) - cos (2 * th - PI)) = 0)%R) by (rewrite cos_plus, cos_minus, sin_PI; ring). now rewrite X.
  - apply (not_gradient 1 _ _ _ _ 0 (- sin (2 * th))%R); [cbn; lia|exact D|cbn; intros X; apply NZ; lra].
Qed.

Theorem shared_update : forall n xs refs r v p, 0 < n -> Forall (ci_ok n) xs -> (forall k, In k refs -> k < length xs) -> r < length xs ->
  length v = length (ci_angles (the_op xs r)) -> v <> [] ->
  (if takes_list (the_op xs r) then p = PV v else exists y, v = [y] /\ p = PS y) ->
  exists h c h' d d0 c1, mmap (obuild n) xs = Ok h /\ mfold (s_add h) refs (s_Circuit n) = Ok c /\ s_update h r p = Ok h' /\ value h' c = Ok c1 /\
    circuit_of n (meant (set_nth r (ci_with (the_op xs r) v) xs) refs) = Ok d /\ circuit_of n (meant xs refs) = Ok d0 /\
    c_gate c1 = c_gate d /\ c_params c1 = c_params d0 /\ c_num c1 = c_num d0 /\ c_N c1 = n.
Proof.
  intros n xs refs r v p Hn OK W Lr Lv Nv Hp. destruct (built n xs refs Hn OK W) as (E1 & E2 & V). cbv zeta in *.
  assert (Ox : ci_ok n (the_op xs r)) by (rewrite Forall_forall in OK; apply OK, nth_In, Lr).
  assert (P : p = pv_of (ci_with (the_op xs r) v)).
  { assert (A : ci_angles (ci_with (the_op xs r) v) = v) by (now apply ci_with_angles). revert A Hp Lv. generalize (the_op xs r). intros x A Hp Lv.
    destruct x as [g|l]; [|cbn [takes_list] in Hp; rewrite Hp; cbn [ci_with pv_of] in *; congruence].
    destruct g; cbn [takes_list] in Hp; try (destruct Hp as (y & -> & ->)); try subst p; cbn in Lv |- *; try reflexivity; try discriminate; now destruct v as [|? [|? [|? [|]]]]. }
  set (x' := ci_with (the_op xs r) v) in *. set (xs' := set_nth r x' xs).
  assert (OK' : Forall (ci_ok n) xs').
  { apply Forall_forall. intros y Hy. apply In_nth_error in Hy. destruct Hy as (k & Hk). unfold xs' in Hk. rewrite nth_error_set in Hk. destruct ((r =? k) && (k <? length xs))%bool.
    - injection Hk as <-. now apply ci_with_ok.
    - rewrite Forall_forall in OK. eapply OK, nth_error_In, Hk. }
  assert (W' : forall k, In k refs -> k < length xs') by (intros k Hk; unfold xs'; rewrite set_nth_length; now apply W).
  exists (map (oobj n) xs). eexists. exists (map (oobj n) xs'), (circ n (meant xs' refs)), (circ n (meant xs refs)). eexists.
  split; [exact E1|]. split; [exact E2|]. split.
  { apply s_update_obj; auto. exists (ci_angles (the_op xs r)). split; [reflexivity|]. symmetry. apply ci_with_self. }
  split; [apply value_obj; [exact Hn|exact W']|]. split; [apply circuit_of_ok; now apply meant_ok|]. split; [apply circuit_of_ok; now apply meant_ok|].
  cbn [cobj c_gate c_params c_num c_N]. rewrite circ_gate. auto.
Qed.
