(** The gradient from saved states with memory layouts agrees with the one without. *)
From Coq Require Import List ZArith QArith Reals Lra Lia Bool Arith.
From Coquelicot Require Import Complex.
From Verif Require Import PyBase Scalar CInst BigSum Index Tensor TensorFacts Spec SpecFacts GateSpec RunSpec LayerSpec MPSSpec CircuitSpec
  QMath QTN QOperator QGates GateCalls QLayers LayerCalls GateFacts2 GateFacts4 LayerFacts4 MPSFacts8 MPSFacts9 QCircuit QGradient MPSCases CircuitFacts1 CircuitProofs GradSpec GradFacts1 GradFacts2 GradFacts3 GradProofs
  QStride QStride2 QStride3 StrideFacts StrideProofs StrideProofs2 StrideProofs3 StrideCases StrideCircuit StrideCircuit2.
Import ListNotations.
Local Close Scope Q_scope.
Local Close Scope R_scope.
Local Open Scope nat_scope.

(** saved states without their memory layouts *)
Definition saved_values (sd : smid) : mid := map (fun p => (fst p, map val (snd p))) sd.
(** saved states of n qubits in any memory layout *)
Definition saved_laid (n : nat) (sd : smid) : Prop := Forall (fun p => Forall laid_out (snd p) /\ mps_shape n (map val (snd p))) sd.

Section Saved.
  Variable svd : tensor -> tensor * tensor * tensor.
  Variable svd_lay : stensor -> list nat * list nat * list nat.
  Variable mmT : stensor -> stensor -> bool.
  Variable ein_lay : stensor -> stensor -> list nat.
  Variable lay : tensor -> list nat.
  Hypothesis Hsh : svd_shapes svd.
  Hypothesis Hts : torch_svd svd.
  Hypothesis Htl : torch_layouts svd_lay ein_lay.
  Hypothesis Hml : matrix_layouts lay.
  Variable n : nat.
  Hypothesis Hn : 0 < n.

  Definition RM (l : list stensor) (l' : list tensor) : Prop := Forall2 SR l l' /\ mps_shape n l'.
  Definition RE (p : nat * list stensor) (q : nat * list tensor) : Prop := fst p = fst q /\ RM (snd p) (snd q).
  Definition RD (sd : smid) (sd' : mid) : Prop := Forall2 RE sd sd'.
  Definition RS (a : list stensor * smid) (b : list tensor * mid) : Prop := RM (fst a) (fst b) /\ RD (snd a) (snd b).

  Lemma RD_set : forall sd sd' k l l', RD sd sd' -> RM l l' -> RD (dict_set sd k l) (dict_set sd' k l').
  Proof.
    intros sd sd' k l l' H Hl. induction H as [|[a m] [b m'] sd sd' [E Hm] H IH]; cbn [dict_set]; [repeat constructor; apply Hl|].
    cbn [fst snd] in *. subst b. destruct (a =? k); constructor; auto; split; auto.
  Qed.
  Lemma RD_get : forall sd sd' k, RD sd sd' -> rres RM (dict_get sd k) (dict_get sd' k).
  Proof.
    intros sd sd' k H. induction H as [|[a m] [b m'] sd sd' [E Hm] H IH]; cbn [dict_get]; [reflexivity|].
    cbn [fst snd] in *. subst b. destruct (a =? k); [exact Hm|exact IH].
  Qed.

  Lemma op_RM : forall c l l', ci_ok n c -> RM l l' -> rres RM (s_o_TN_operation svd svd_lay mmT ein_lay lay (oobj n c) l) (o_TN_operation svd (oobj n c) l').
  Proof.
    intros c l l' Hc [F Sl]. pose proof (ro_op svd svd_lay mmT ein_lay lay Hts Htl Hml (oobj n c) l l' F) as E.
    destruct (s_o_TN_operation _ _ _ _ _ _ _) as [m|e], (o_TN_operation svd (oobj n c) l') as [m'|e'] eqn:Em; cbn [rres] in E |- *; try contradiction; auto.
    split; [exact E|]. destruct c as [g|y]; cbn [oobj o_TN_operation ci_ok] in *; [now apply (TN_operation_shape svd n g l' m')|now apply (layer_TN_shape svd n y l' m')].
  Qed.
  Lemma vec_RM : forall l l', RM l l' -> rres SR (s_MPS2StateVec mmT l) (MPS2StateVec l').
  Proof. intros l l' [F Sl]. eapply rMPS2StateVec; eauto. Qed.
  Lemma start_RM : forall x, laid_out x -> wf (val x) -> rres RM (s_StateVec2MPS svd svd_lay mmT x n) (StateVec2MPS svd (val x) n).
  Proof.
    intros x Hx W. pose proof (rStateVec2MPS svd svd_lay mmT ein_lay Hts Htl x (val x) n (laid_SR x Hx)) as E.
    destruct (s_StateVec2MPS _ _ _ _ _) as [m|e], (StateVec2MPS svd (val x) n) as [m'|e'] eqn:Em; cbn [rres] in E |- *; try contradiction; auto.
    split; [exact E|]. now apply (StateVec2MPS_shape svd Hsh n (val x) m').
  Qed.
  Lemma dagger_cases : forall c o, ci_ok n c -> o_dagger (oobj n c) = Ok (Some o) -> exists d, o = oobj n d /\ ci_ok n d.
  Proof.
    intros [g|l] o H E; cbn [ci_ok oobj o_dagger] in *.
    - rewrite operation_dagger_obj in E. cbn [bind] in E. injection E as <-. exists (CG (gi_inv g)). split; [reflexivity|]. now apply gi_inv_ok_ok.
    - rewrite layer_dagger_ok in E by exact H. cbn [bind] in E. destruct (li_inv l) as [l'|] eqn:El; [|discriminate]. injection E as <-.
      exists (CL l'). split; [reflexivity|]. now apply (li_inv_ok n l).
  Qed.
  Lemma all_ok : forall cs k x, Forall (ci_ok n) cs -> nth_error cs k = Some x -> ci_ok n x.
  Proof. intros cs k x H E. rewrite Forall_forall in H. eapply H, nth_error_In; eauto. Qed.

  Lemma forward_RS : forall cs st st' i, Forall (ci_ok n) cs -> RS st st' ->
    rres RS (s_forward_step svd svd_lay mmT ein_lay lay (map (oobj n) cs) st i) (forward_step svd (map (oobj n) cs) st' i).
  Proof.
    intros cs [l sd] [l' sd'] i H [Hl Hd]. cbn [fst snd] in *. unfold s_forward_step, forward_step. rewrite nth_error_map.
    destruct (nth_error cs i) as [x|] eqn:X; cbn [option_map]; [|reflexivity]. destruct (o_supportTN _); [|reflexivity].
    eapply rbind; [apply op_RM; [now apply (all_ok cs i)|exact Hl]|]. intros m m' _ _ Hm. split; [exact Hm|]. cbn [fst snd].
    destruct (nth_error _ (S i)) as [y|]; [|exact Hd]. destruct (_ =? 0); [exact Hd|]. now apply RD_set.
  Qed.
  Lemma backward_RS : forall cs st st' i, Forall (ci_ok n) cs -> RS st st' ->
    rres RS (s_backward_step svd svd_lay mmT ein_lay lay (map (oobj n) cs) st i) (backward_step svd (map (oobj n) cs) st' i).
  Proof.
    intros cs [l sd] [l' sd'] i H [Hl Hd]. cbn [fst snd] in *. unfold s_backward_step, backward_step. rewrite nth_error_map.
    destruct (nth_error cs i) as [x|] eqn:X; cbn [option_map]; [|reflexivity]. apply rbind_eq. intros [o|] Eo; [|reflexivity].
    destruct (dagger_cases x o (all_ok cs i x H X) Eo) as (d & -> & Hd'). destruct (o_supportTN _); [|reflexivity].
    eapply rbind; [apply op_RM; [exact Hd'|exact Hl]|]. intros m m' _ _ Hm. split; [exact Hm|]. cbn [fst snd].
    destruct (i =? 0); [exact Hd|]. destruct (nth_error _ (i - 1)) as [y|]; [|exact Hd]. destruct (_ =? 0); [exact Hd|]. now apply RD_set.
  Qed.
  Lemma save_RS : forall x cs mo ps k, laid_out x -> wf (val x) -> Forall (ci_ok n) cs -> ci_ok n mo ->
    rres (fun a b => RD (fst a) (fst b) /\ SR (snd a) (snd b))
      (s_save_mid_MPS svd svd_lay mmT ein_lay lay x (cobj n cs ps k) (oobj n mo)) (save_mid_MPS svd (val x) (cobj n cs ps k) (oobj n mo)).
  Proof.
    intros x cs mo ps k Hx W H Hm. unfold s_save_mid_MPS, save_mid_MPS. cbn [c_N c_gate cobj].
    eapply rbind; [now apply start_RM|]. intros l l' _ _ Hl. rewrite (F2_length _ _ _ _ _ (proj1 Hl)). apply rraise.
    eapply (rbind _ _ _ _ RS); [apply rfold; [intros; now apply forward_RS|split; [exact Hl|constructor]]|].
    intros [l1 sd1] [l1' sd1'] _ _ [H1 D1]. cbn [fst snd] in *.
    eapply rbind; [now apply vec_RM|]. intros sv sv' _ _ Hsv.
    eapply rbind; [now apply op_RM|]. intros l2 l2' _ _ H2.
    apply rbind_eq. intros last _. cbv zeta.
    eapply (rbind _ _ _ _ RS); [apply rfold; [intros; now apply backward_RS|split; [exact H2|]]|].
    - cbn [snd]. destruct (_ =? 0); [exact D1|now apply RD_set].
    - intros [l3 sd3] [l3' sd3'] _ _ [_ D3]. split; [exact D3|exact Hsv].
  Qed.

  Lemma overlap_RS : forall im im' sd sd' cs ps k i, Forall (ci_ok n) cs -> RM im im' -> RD sd sd' ->
    s_overlap_at svd svd_lay mmT ein_lay lay im sd (cobj n cs ps k) i = overlap_at svd im' sd' (cobj n cs ps k) i.
  Proof.
    intros im im' sd sd' cs ps k i H Him Hd.
    assert (E : rres eq (s_overlap_at svd svd_lay mmT ein_lay lay im sd (cobj n cs ps k) i) (overlap_at svd im' sd' (cobj n cs ps k) i)).
    2:{ destruct (s_overlap_at _ _ _ _ _ _ _ _ _), (overlap_at _ _ _ _ _); cbn in E; try contradiction; congruence. }
    unfold s_overlap_at, overlap_at. cbn [c_gate cobj]. rewrite nth_error_map. destruct (nth_error cs i) as [x|] eqn:X; cbn [option_map]; [|reflexivity].
    pose proof (all_ok cs i x H X) as Hx.
    eapply (rbind _ _ _ _ RM).
    { destruct (i =? 0); [now apply op_RM|]. eapply rbind; [now apply RD_get|]. intros m m' _ _ Hm. now apply op_RM. }
    intros l1 l1' _ _ H1. eapply rbind; [now apply vec_RM|]. intros p1 p1' _ E1 Hp1.
    eapply rbind; [now apply RD_get|]. intros l2 l2' _ _ H2. eapply rbind; [now apply vec_RM|]. intros p2 p2' _ _ Hp2.
    unfold s_minus_overlap, minus_overlap. destruct (vec_row _ _ E1) as [m Sp].
    eapply rbind; [eapply rview_row; eauto|]. intros v v' _ _ Hv.
    eapply rbind; [apply rmatmul; [apply SR_conj; exact Hp2|exact Hv]|]. intros y y' _ _ Hy.
    apply MM_SR in Hy. rewrite (proj1 Hy). destruct (data y') as [|z [|? ?]]; reflexivity.
  Qed.

  Section Gates.
    Variables (im : list stensor) (im' : list tensor) (sd : smid) (sd' : mid).
    Hypothesis Him : RM im im'.
    Hypothesis Hsd : RD sd sd'.
    Variables (cs0 : list ci) (ps : list (nat * option pval)) (kn : nat).
    Hypothesis H0 : Forall (ci_ok n) cs0.
    Hypothesis HR : recorded ps cs0.
    (** the circuits met during the call: the angles may differ, nothing else *)
    Definition met (c : circuit) : Prop := exists cs, c = cobj n cs ps kn /\ Forall2 form cs cs0.
    Lemma met_overlap : forall c i, met c -> s_overlap_at svd svd_lay mmT ein_lay lay im sd c i = overlap_at svd im' sd' c i.
    Proof. intros c i (cs & -> & F). apply overlap_RS; auto. now apply (form_ok n cs cs0). Qed.
    Lemma met_split : forall cs i x, Forall2 form cs cs0 -> nth_error cs i = Some x ->
      exists pre post pre0 x0 post0, cs = pre ++ x :: post /\ length pre = i /\ cs0 = pre0 ++ x0 :: post0 /\ nth_error cs0 i = Some x0 /\
        Forall2 form pre pre0 /\ form x x0 /\ Forall2 form post post0.
    Proof.
      intros cs i x F X. destruct (nth_error_split cs i X) as (pre & post & -> & L). apply Forall2_app_inv_l in F. destruct F as (pre0 & r & F1 & F2 & ->).
      inversion F2 as [|? x0 ? post0 Fx F3]; subst. exists pre, post, pre0, x0, post0. repeat split; auto.
      assert (L0 : length pre = length pre0) by (eapply F2_length; exact F1). rewrite L0. apply nth_error_mid.
    Qed.
    Lemma met_update : forall cs i x x0 u, Forall2 form cs cs0 -> nth_error cs i = Some x -> nth_error cs0 i = Some x0 ->
      length u = length (ci_angles x0) -> u <> [] -> exists c, update_gate (cobj n cs ps kn) i (pv_of (ci_with x0 u)) = Ok c /\ met c.
    Proof.
      intros cs i x x0 u F X X0 Lu Nu. destruct (met_split cs i x F X) as (pre & post & pre0 & y0 & post0 & -> & L & C0 & Y0 & F1 & Fx & F3).
      rewrite X0 in Y0. injection Y0 as <-. subst i.
      assert (Ox : ci_ok n x) by (pose proof (form_ok n _ _ F H0) as H1; apply Forall_app in H1; destruct H1 as [_ H1]; now inversion H1).
      exists (cobj n (pre ++ ci_with x0 u :: post) ps kn). split; [now apply update_gate_ok|].
      exists (pre ++ ci_with x0 u :: post). split; [reflexivity|]. rewrite C0. apply Forall2_app; [exact F1|]. constructor; [now apply form_self|exact F3].
    Qed.
    Lemma met_cases : forall cs i x, Forall2 form cs cs0 -> nth_error cs i = Some x -> exists x0, nth_error cs0 i = Some x0 /\ form x x0.
    Proof. intros cs i x F X. destruct (met_split cs i x F X) as (? & ? & ? & x0 & ? & _ & _ & _ & E & _ & Fx & _). eauto. Qed.
    Lemma met_nth : forall cs i x0, Forall2 form cs cs0 -> nth_error cs0 i = Some x0 -> exists x, nth_error cs i = Some x.
    Proof.
      intros cs i x0 F X. destruct (nth_error cs i) as [x|] eqn:E; [eauto|]. apply nth_error_None in E.
      assert (i < length cs0) by (apply nth_error_Some; congruence). rewrite (F2_length _ _ _ _ _ F) in E. lia.
    Qed.
    (** setting one operation's angles, in a circuit met during the call *)
    Lemma met_set : forall c i x0 p u, met c -> nth_error cs0 i = Some x0 -> length u = length (ci_angles x0) -> u <> [] -> p = pv_of (ci_with x0 u) ->
      exists c', update_gate c i p = Ok c' /\ met c'.
    Proof. intros c i x0 p u (cs & -> & F) X Lu Nu ->. destruct (met_nth cs i x0 F X) as (x & Ex). now apply (met_update cs i x x0 u). Qed.

    Definition same (a b : circuit * list R) : Prop := a = b /\ met (fst a).
    Lemma gate_RS : forall i a b, same a b ->
      rres same (s_grad2_gate svd svd_lay mmT ein_lay lay im sd a i) (grad2_gate svd im' sd' b i).
    Proof.
      intros i [c gr] b [<- (cs & E & F)]. cbn [fst] in E. subst c. unfold s_grad2_gate, grad2_gate. cbn [c_gate c_params cobj]. rewrite nth_error_map.
      destruct (nth_error cs i) as [x|] eqn:X; cbn [option_map]; [|reflexivity].
      destruct (met_cases cs i x F X) as (x0 & X0 & Fx). assert (Ox : ci_ok n x) by (eapply all_ok; [now apply (form_ok n cs cs0)|exact X]).
      assert (MC : met (cobj n cs ps kn)) by (exists cs; auto).
      rewrite (form_num n x x0 Ox Fx). destruct (length (ci_angles x0) =? 0) eqn:E0; [split; auto|].
      assert (NA : ci_angles x0 <> []) by (intros Z; rewrite Z in E0; discriminate). rewrite (HR i x0 X0 NA). cbn [bind].
      set (a := ci_angles x0) in *.
      assert (NE : forall u : list R, length u = length a -> u <> []) by (intros u Lu ->; destruct a; [congruence|discriminate]).
      destruct (pv_cases x0 NA) as [V|[L1 V]]; rewrite V.
      - fold a in V |- *.
        assert (P : forall u, length u = length a -> PV u = pv_of (ci_with x0 u)).
        { intros u Lu. symmetry. unfold pv_of in *. destruct x0 as [[]|l]; cbn [ci_with gi_with ci_angles gi_angles] in *; try discriminate;
            cbn in Lu; try (destruct u as [|u1 [|u2 [|u3 [|]]]]; try discriminate; reflexivity).
          f_equal. apply (ci_with_angles (CL l)). exact Lu. }
        eapply (rbind _ _ _ _ (fun p q : circuit * list R * list R => p = q /\ met (fst (fst p)) /\ length (snd (fst p)) = length a)).
        + apply rfold; [|split; [reflexivity|split; [exact MC|reflexivity]]].
          intros [[c1 p] g] q j [<- [M1 Lp]]. cbn [fst snd] in *. unfold s_grad2_entry, grad2_entry. cbv zeta.
          assert (La : forall y z, length (padd p y z) = length a) by (intros; unfold padd; now rewrite set_nth_length).
          assert (Lb : length (padd (padd p j (- PI)) j PI) = length a) by (unfold padd at 1; now rewrite set_nth_length).
          destruct (met_set c1 i x0 (PV (padd p j (- PI))) (padd p j (- PI)) M1 X0) as (c2 & E2 & M2); auto. rewrite E2. cbn [bind].
          rewrite (met_overlap c2 i M2). apply rbind_eq. intros e _.
          destruct (met_set c2 i x0 (PV (padd (padd p j (- PI)) j PI)) (padd (padd p j (- PI)) j PI) M2 X0) as (c3 & E3 & M3); auto. rewrite E3. cbn [bind].
          split; [reflexivity|]. split; [exact M3|exact Lb].
        + intros [[c1 p] g] q _ _ [<- [M1 _]]. split; [reflexivity|exact M1].
      - fold a in L1, V |- *. set (y := nth 0 a 0%R).
        assert (P : forall z, PS z = pv_of (ci_with x0 [z])).
        { intros z. unfold pv_of in *. destruct x0 as [[]|l]; cbn [ci_with gi_with ci_angles gi_angles] in *; try discriminate; reflexivity. }
        destruct (met_set _ i x0 (PS (y - PI)) [(y - PI)%R] MC X0) as (c2 & E2 & M2); [symmetry; exact L1|discriminate|apply P|]. rewrite E2. cbn [bind].
        rewrite (met_overlap c2 i M2). apply rbind_eq. intros e _.
        destruct (met_set c2 i x0 (PS (y - PI + PI)) [(y - PI + PI)%R] M2 X0) as (c3 & E3 & M3); [symmetry; exact L1|discriminate|apply P|]. rewrite E3. cbn [bind].
        split; [reflexivity|exact M3].
    Qed.
  End Gates.

  Lemma grad2_RS : forall x cs sd sd', laid_out x -> wf (val x) -> Forall (ci_ok n) cs -> RD sd sd' ->
    s_cal_params_grad2 svd svd_lay mmT ein_lay lay x (circ n cs) sd = cal_params_grad2 svd (val x) (circ n cs) sd'.
  Proof.
    intros x cs sd sd' Hx W H Hd. rewrite (circ_cobj n cs).
    set (ps := c_params (circ n cs)). set (kn := c_num (circ n cs)).
    assert (HR : recorded ps cs) by (now apply circ_recorded).
    assert (E : rres eq (s_cal_params_grad2 svd svd_lay mmT ein_lay lay x (cobj n cs ps kn) sd) (cal_params_grad2 svd (val x) (cobj n cs ps kn) sd')).
    2:{ destruct (s_cal_params_grad2 _ _ _ _ _ _ _ _), (cal_params_grad2 _ _ _ _); cbn in E; try contradiction; congruence. }
    unfold s_cal_params_grad2, cal_params_grad2. cbn [c_N c_gate cobj].
    eapply rbind; [now apply start_RM|]. intros l l' _ _ Hl.
    eapply (rbind _ _ _ _ (same cs ps kn)).
    - apply rfold; [intros a b i; now apply gate_RS|]. split; [reflexivity|]. exists cs. split; [reflexivity|]. apply form_all.
    - intros [c g] q _ _ [<- _]. apply rassert. reflexivity.
  Qed.

  (** from hypotheses on layouts to the relations *)
  Lemma laid_RD : forall sd, saved_laid n sd -> RD sd (saved_values sd).
  Proof. intros sd H. induction H as [|[k l] sd [H1 H2] H IH]; constructor; auto. split; [reflexivity|]. split; [now apply laid_F2|exact H2]. Qed.
  Lemma SR_laid : forall l l', Forall2 SR l l' -> Forall laid_out l /\ l' = map val l.
  Proof.
    intros l l' F. induction F as [|x t l l' [<- L] F [IH1 ->]]; [split; [constructor|reflexivity]|]. split; [|reflexivity]. constructor; [exact L|exact IH1].
  Qed.
  Lemma RD_laid : forall sd sd', RD sd sd' -> saved_laid n sd /\ sd' = saved_values sd.
  Proof.
    intros sd sd' H. induction H as [|[k l] [k' l'] sd sd' [E [F S]] H [IH1 ->]]; [split; [constructor|reflexivity]|]. cbn [fst snd] in *. subst k'.
    destruct (SR_laid l l' F) as [L ->]. split; [|reflexivity]. constructor; auto.
  Qed.
End Saved.
