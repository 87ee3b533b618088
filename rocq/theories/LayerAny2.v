(** Lemmas: layers of one-qubit gates on any list of wires, with a batch; the statements for the API. *)
From Coq Require Import List ZArith QArith Reals Lra Lia ZifyBool Bool Arith Ring Setoid Morphisms Permutation.
From Verif Require Import PyBase Scalar CInst BigSum Index Tensor TensorFacts Spec SpecFacts QMath QTN QOperator
  ExpandFacts ExpandFacts2 ContractFacts ContractFacts2 GateSpec QGates GateCalls GateFacts GateFacts2 GateFacts3 GateFacts4 GateFacts6 RunSpec
  MPSSpec MPSFacts1 MPSFacts2 MPSFacts4 MPSFacts5 MPSFacts6 MPSFacts8 MPSFacts9 LayerSpec QLayers LayerCalls LayerFacts1 ContractBad LayerAnySpec LayerAnyCalls LayerAny GateProofs.
Import ListNotations.
Local Close Scope Q_scope.
Local Close Scope R_scope.
Local Open Scope nat_scope.

Lemma batch_dim_lt : forall n z, batch_dim n z < S n.
Proof. intros n z. unfold batch_dim. pose proof (Z.mod_pos_bound (z + 1) (Z.of_nat (S n))). lia. Qed.
Lemma batch_dim_val : forall n z, in_register n z -> Z.of_nat (batch_dim n z) = if (z + 1 <? 0)%Z then (z + 1 + Z.of_nat (S n))%Z else (z + 1)%Z.
Proof.
  intros n z [H1 H2]. unfold batch_dim. destruct (z + 1 <? 0)%Z eqn:E.
  - replace (z + 1)%Z with (z + 1 + Z.of_nat (S n) + (-1) * Z.of_nat (S n))%Z at 1 by lia. rewrite Z.mod_add by lia. rewrite Z.mod_small by lia. lia.
  - rewrite Z.mod_small by lia. lia.
Qed.
Lemma batch_step : forall n z M t, in_register n z ->
  contract1_at (SC := C_scalar) M (Z.of_nat n + 1) (z + 1) t = contract1_at M (Z.of_nat (S n)) (Z.of_nat (batch_dim n z)) t.
Proof.
  intros n z M t H. rewrite (batch_dim_val n z H). destruct H as [H1 H2]. replace (Z.of_nat n + 1)%Z with (Z.of_nat (S n)) by lia.
  destruct (z + 1 <? 0)%Z eqn:E; [|reflexivity]. apply contract1_neg. lia.
Qed.
Lemma contract1_bad : forall s w A f, w < length s -> nth w s 0 <> 2 ->
  contract1_at (SC := C_scalar) (op_tensor 1 A) (Z.of_nat (length s)) (Z.of_nat w) (tbuild s f) = Err TorchError.
Proof.
  intros s w A f Hw H2. unfold contract1_at. rewrite zrange_seq.
  destruct (length s) as [|n] eqn:Ls; [lia|].
  replace (Z.of_nat (S n) - 1)%Z with (Z.of_nat n) by lia.
  rewrite py_set_nat by (rewrite map_length, seq_length; auto). cbn [bind].
  rewrite py_set_nat by (rewrite set_nth_length, map_length, seq_length; auto). cbn [bind].
  rewrite <- !map_set_nth, swap_last_perm by auto.
  destruct (swap_last_inv n w Hw) as [Hp Hi].
  rewrite permute_tbuild by (now rewrite Ls). cbn [bind]. rewrite unsqueeze_last, tbuild_shape, map_app. cbn [bind map].
  unfold matmul. unfold op_tensor. cbn [shape tbuild]. rewrite !rev_app_distr. cbn [rev app Nat.pow Nat.mul Nat.add].
  replace (2 =? nth w s 0) with false by (symmetry; apply Nat.eqb_neq; lia). reflexivity.
Qed.

Section Batch.
  Variables (n : nat) (zs : list Z) (Gs : list qop).
  Hypothesis Hn : 0 < n.
  Let ws := map (qubit n) zs.
  Let L1 := map (op_tensor (SC := C_scalar) 1) (lfac ws Gs (repeat id_op n)).
  Hypothesis HI : forall z, In z zs -> in_register n z.
  Let g := fun z => last_gate ws Gs (qubit n z).
  Let step := fun (MPS : tensor (SC := C_scalar)) qbit => do m <- py_nth L1 qbit; contract1_at m (Z.of_nat n + 1) (qbit + 1) MPS.

  Lemma step_ok : forall B z F, In z zs -> z <> (-1)%Z -> step (tbuild (B :: repeat 2 n) F) z =
    Ok (tbuild (B :: repeat 2 n) (batched (apply_on (g z) [pred (batch_dim n z)]) F)).
  Proof.
    intros B z F Hz D. unfold step, L1, ws. pose proof (HI z Hz) as R.
    rewrite (L1_nth n zs Gs Hn z R). cbn [bind]. rewrite batch_step by exact R. pose proof (batch_dim_lt n z) as Q.
    assert (Q0 : batch_dim n z = S (pred (batch_dim n z))). { pose proof (batch_dim_val n z R) as V. destruct (z + 1 <? 0)%Z; destruct R; lia. }
    pose proof (contract1_ok (B :: repeat 2 n) (batch_dim n z) (last_gate (map (qubit n) zs) Gs (qubit n z)) F) as C. cbn [length] in C. rewrite repeat_length in C.
    rewrite C; [|exact Q|rewrite Q0; cbn [nth]; apply nth_repeat_lt; lia]. rewrite Q0 at 1.
    f_equal. exact (batched_apply_on B n _ [pred (batch_dim n z)] F).
  Qed.
  Lemma any_batch : forall B F, ~ In (-1)%Z zs -> exists F', base_TN_contract L1 (Z.of_nat n) zs (tbuild (B :: repeat 2 n) F) true = Ok (tbuild (B :: repeat 2 n) F') /\
    forall i, i < B -> st_eq n (fun b => F' (i :: b)) (act n (obs_op n (map (fun z => pred (batch_dim n z)) zs) (map g zs)) (fun b => F (i :: b))).
  Proof.
    intros B F N. unfold base_TN_contract. cbn iota. fold step.
    assert (X : forall z, In z zs -> z <> (-1)%Z) by (intros z Hz ->; contradiction).
    destruct (any_fold n g (fun z => pred (batch_dim n z)) _ step (fun _ t => exists F', t = tbuild (B :: repeat 2 n) F') zs (tbuild (B :: repeat 2 n) F) (fun _ => k0)) as (a & E & F' & ->).
    - intros z a psi Hz (F1 & ->). rewrite step_ok by auto. eexists. split; [reflexivity|]. eexists. reflexivity.
    - intros f h a _ H. exact H.
    - eexists. reflexivity.
    - exists F'. split; [exact E|]. intros i Hi.
      destruct (any_fold n g (fun z => pred (batch_dim n z)) _ step (fun psi t => exists F', t = tbuild (B :: repeat 2 n) F' /\ st_eq n (fun b => F' (i :: b)) psi) zs (tbuild (B :: repeat 2 n) F) (fun b => F (i :: b))) as (a & E1 & F2 & -> & S2).
      + intros z a psi Hz (F1 & -> & S1). rewrite step_ok by auto. eexists. split; [reflexivity|]. eexists. split; [reflexivity|].
        unfold batched. cbn [hd tl]. intros b Hb. pose proof (HI z Hz) as R. pose proof (batch_dim_lt n z) as Q.
        assert (Q1 : pred (batch_dim n z) < n). { lia. }
        rewrite <- (act_lift n (g z) [pred (batch_dim n z)] (fun b => F1 (i :: b)) (good_wires_1 n _ Q1) b Hb). apply act_proper; [reflexivity|exact S1|exact Hb].
      + intros f h a S (F1 & -> & S1). exists F1. split; [reflexivity|]. eapply st_trans; eauto.
      + exists F. split; [reflexivity|]. intros b _. reflexivity.
      + rewrite E in E1. assert (E2 : tbuild (SC := C_scalar) (B :: repeat 2 n) F' = tbuild (B :: repeat 2 n) F2) by congruence. clear E1. intros b Hb. rewrite <- (S2 b Hb).
        assert (V : valid (B :: repeat 2 n) (i :: b)) by (apply valid_cons; split; [exact Hi|]; now apply bits_valid).
        assert (T : tget (tbuild (SC := C_scalar) (B :: repeat 2 n) F') (i :: b) = tget (tbuild (SC := C_scalar) (B :: repeat 2 n) F2) (i :: b)).
        { now rewrite E2. }
        rewrite !tget_tbuild in T by exact V. exact T.
  Qed.
  Lemma any_batch_two : forall F, base_TN_contract L1 (Z.of_nat n) zs (tbuild (repeat 2 (S n)) F) true =
    Ok (tbuild (repeat 2 (S n)) (act (S n) (obs_op (S n) (map (batch_dim n) zs) (map g zs)) F)).
  Proof.
    intros F. unfold base_TN_contract. cbn iota. fold step.
    destruct (any_fold (S n) g (batch_dim n) _ step (fun psi t => t = tbuild (repeat 2 (S n)) psi) zs (tbuild (repeat 2 (S n)) F) F) as (a & E & ->).
    - intros z a psi Hz ->. unfold step, L1, ws. pose proof (HI z Hz) as R. rewrite (L1_nth n zs Gs Hn z R). cbn [bind]. rewrite batch_step by exact R.
      pose proof (batch_dim_lt n z) as Q.
      pose proof (contract1_ok (repeat 2 (S n)) (batch_dim n z) (last_gate (map (qubit n) zs) Gs (qubit n z)) psi) as C. rewrite repeat_length in C.
      rewrite C by (auto; now apply nth_repeat_lt). eexists. split; [reflexivity|]. apply tbuild_st_ext. symmetry. apply act_lift. now apply good_wires_1.
    - intros f h a E ->. now apply tbuild_st_ext.
    - reflexivity.
    - exact E.
  Qed.
  Lemma any_batch_bad : forall B F, B <> 2 -> In (-1)%Z zs -> base_TN_contract L1 (Z.of_nat n) zs (tbuild (B :: repeat 2 n) F) true = Err TorchError.
  Proof.
    intros B F HB Hm. unfold base_TN_contract. cbn iota. fold step.
    assert (X : forall us F, (forall z, In z us -> In z zs) -> In (-1)%Z us -> mfold step us (tbuild (B :: repeat 2 n) F) = Err TorchError).
    { induction us as [|u us IH]; intros F0 HU H1; [destruct H1|]. cbn [mfold]. destruct (Z.eq_dec u (-1)) as [->|D].
      - unfold step at 1, L1, ws. assert (Hz : In (-1)%Z zs) by (apply HU; now left). pose proof (HI _ Hz) as R. rewrite (L1_nth n zs Gs Hn _ R). cbn [bind].
        replace (Z.of_nat n + 1)%Z with (Z.of_nat (length (B :: repeat 2 n))) by (cbn [length]; rewrite repeat_length; lia).
        change (-1 + 1)%Z with (Z.of_nat 0). rewrite contract1_bad; [reflexivity|cbn [length]; lia|cbn [nth]; exact HB].
      - rewrite step_ok; [|apply HU; now left|exact D]. cbn [bind]. apply IH; [intros; apply HU; now right|]. destruct H1 as [H1|H1]; [contradiction|exact H1]. }
    apply X; auto.
  Qed.
End Batch.

(** * The API *)
Definition sg_cls (s : sg) : skind := match s with sg_rot k _ => kind_cls k | sg_H => HLayer end.
Definition sg_params (s : sg) : list R := match s with sg_rot _ ps => ps | sg_H => [] end.
Definition sg_obj (n : nat) (s : sg) (zs : list Z) : slayer := mkSL (sg_cls s) (Z.of_nat n) zs (sg_params s).
Lemma sg_build_ok : forall n s zs, sg_angles s (length zs) -> length zs <= n -> sg_build n s zs = Ok (LS (sg_obj n s zs)).
Proof.
  intros n s zs HA HL. unfold sg_build, new_slayer, raise_if, sg_obj. replace (Z.of_nat n <? Z.of_nat (length zs))%Z with false by lia.
  destruct s as [k ps|]; cbn [sg_cls sg_params sg_angles] in *.
  - replace (per_wire (kind_cls k) * length zs =? length ps) with true; [reflexivity|]. rewrite HA. symmetry. apply Nat.eqb_eq. now destruct k.
  - reflexivity.
Qed.
Lemma sg_gates_length : forall s L, length (sg_gates s L) = L.
Proof. intros. unfold sg_gates. now rewrite map_length, seq_length. Qed.
Lemma sg_wm : forall s (zs : list Z) i, sg_angles s (length zs) -> i < length zs ->
  wire_matrix (sg_cls s) (sg_params s) i = Ok (op_tensor 1 (nth i (sg_gates s (length zs)) id_op)).
Proof.
  intros s zs i HA Hi. destruct s as [k ps|]; cbn [sg_cls sg_params sg_angles] in *.
  - exact (wire_rot k ps (length zs) i HA Hi).
  - exact (wire_H [] (length zs) i Hi).
Qed.

Section Api.
  Variables (n : nat) (s : sg) (zs : list Z).
  Hypothesis HA : sg_angles s (length zs).
  Hypothesis HL : length zs <= n.
  Let Gs := sg_gates s (length zs).
  Let ws := map (qubit n) zs.
  Let LG : length Gs = length zs := sg_gates_length s (length zs).
  Let WM : forall i, i < length zs -> wire_matrix (sg_cls s) (sg_params s) i = Ok (op_tensor 1 (nth i Gs id_op)) := fun i => sg_wm s zs i HA.

  Hypothesis Hn : 0 < n.
  Lemma layer_out_of_range : (exists z, In z zs /\ ~ in_register n z) -> exists o, sg_build n s zs = Ok o /\ layer_U o = Err IndexError /\
    (forall t b, layer_TN_contract o t b = Err IndexError) /\ (forall svd m, layer_TN_operation svd o m = Err IndexError).
  Proof.
    intros HE. eexists. split; [now apply sg_build_ok|]. pose proof (fill_bad _ n zs Gs WM HE) as E.
    cbn [layer_U layer_TN_contract layer_TN_operation]. unfold slayer_U, slayer_TN_contract, slayer_TN_operation, cal_single_gates, sg_obj. cbn [sl_kind sl_params sl_N sl_wires].
    rewrite E. repeat split.
  Qed.
  Hypothesis HI : forall z, In z zs -> in_register n z.
  Lemma cal_any : cal_single_gates (sg_obj n s zs) = Ok (map (op_tensor 1) (lfac ws Gs (repeat id_op n))).
  Proof. exact (fill_any _ n zs Gs Hn LG WM HI). Qed.
  Lemma tensor_gates : map (fun z => last_gate ws Gs (qubit n z)) zs = map (last_gate ws Gs) ws.
  Proof. unfold ws at 3. now rewrite map_map. Qed.
  Lemma tensor_op : op_eq n (obs_op n ws (map (fun z => last_gate ws Gs (qubit n z)) zs)) (each_qubit n (fun w => pow_op (count_occ Nat.eq_dec ws w) (last_gate ws Gs w))).
  Proof. rewrite tensor_gates. apply obs_pow. intros w Hw. unfold ws in Hw. apply in_map_iff in Hw. destruct Hw as (z & <- & _). now apply qubit_lt. Qed.

  Lemma layer_any_wires : exists o u, sg_build n s zs = Ok o /\ layer_U o = Ok u /\ is_op n u (each_qubit n (last_gate ws Gs)) /\
    (forall t, shape t = repeat 2 n -> wf t -> exists t', layer_TN_contract o t false = Ok t' /\
       is_state n (repeat 2 n) t' (act n (each_qubit n (fun w => pow_op (count_occ Nat.eq_dec ws w) (last_gate ws Gs w))) (amp t))) /\
    (forall svd m psi, is_mps n m psi -> exists m', layer_TN_operation svd o m = Ok m' /\
       is_mps n m' (act n (each_qubit n (fun w => pow_op (count_occ Nat.eq_dec ws w) (last_gate ws Gs w))) psi)).
  Proof.
    eexists. eexists. split; [now apply sg_build_ok|]. cbn [layer_U layer_TN_contract layer_TN_operation].
    unfold slayer_U, slayer_TN_contract, slayer_TN_operation. rewrite cal_any. cbn [bind sg_obj sl_N sl_wires]. split; [exact (L1_U n zs Gs Hn)|]. split; [apply is_op_tensor|]. split.
    - intros t S F. assert (E : t = tbuild (repeat 2 n) (amp t)).
      { apply state_eta. split; [exact S|]. split; [|intros x _; reflexivity]. unfold wf in F. rewrite F, S. now rewrite prodn_repeat. }
      eexists. split; [rewrite E at 1; exact (any_contract n zs Gs Hn LG HI (amp t))|]. apply state_eta. apply tbuild_st_ext. apply act_proper; [exact tensor_op|reflexivity].
    - intros svd m psi M. destruct (any_mps n zs Gs Hn LG HI m psi M) as (m' & E & M'). exists m'. split; [exact E|].
      eapply is_mps_st; [exact M'|]. apply act_proper; [exact tensor_op|reflexivity].
  Qed.
  Lemma layer_any_batch : forall B t, ~ In (-1)%Z zs -> shape t = B :: repeat 2 n -> wf t -> exists o t', sg_build n s zs = Ok o /\ layer_TN_contract o t true = Ok t' /\
    shape t' = B :: repeat 2 n /\ wf t' /\ forall i r, i < B -> In r (bits n) ->
      tget t' (i :: r) = act n (obs_op n (map (fun z => pred (batch_dim n z)) zs) (map (last_gate ws Gs) ws)) (fun b => tget t (i :: b)) r.
  Proof.
    intros B t N S F. destruct (wf_tbuild t _ S F) as (f & ->). destruct (any_batch n zs Gs Hn HI B f N) as (F' & E & X).
    exists (LS (sg_obj n s zs)), (tbuild (B :: repeat 2 n) F'). split; [now apply sg_build_ok|]. split.
    { cbn [layer_TN_contract]. unfold slayer_TN_contract. rewrite cal_any. exact E. }
    split; [reflexivity|]. split; [apply tbuild_wf|]. intros i r Hi Hr.
    assert (V : forall b, In b (bits n) -> valid (B :: repeat 2 n) (i :: b)) by (intros b Hb; apply valid_cons; split; [exact Hi|]; now apply bits_valid).
    rewrite tget_tbuild by (now apply V). rewrite (X i Hi r Hr). pose proof tensor_gates as TG. cbv zeta in TG. fold ws. rewrite TG. apply act_proper; [reflexivity| |exact Hr].
    intros b Hb. now rewrite tget_tbuild by (now apply V).
  Qed.
  Lemma layer_any_batch_two : forall t, shape t = 2 :: repeat 2 n -> wf t -> exists o t', sg_build n s zs = Ok o /\ layer_TN_contract o t true = Ok t' /\
    is_state (S n) (2 :: repeat 2 n) t' (act (S n) (obs_op (S n) (map (batch_dim n) zs) (map (last_gate ws Gs) ws)) (amp t)).
  Proof.
    intros t S F. change (2 :: repeat 2 n) with (repeat 2 (Datatypes.S n)) in *. assert (E : t = tbuild (repeat 2 (Datatypes.S n)) (amp t)).
    { apply state_eta. split; [exact S|]. split; [|intros x _; reflexivity]. unfold wf in F. rewrite F, S. now rewrite prodn_repeat. }
    exists (LS (sg_obj n s zs)). eexists. split; [now apply sg_build_ok|]. split.
    { cbn [layer_TN_contract]. unfold slayer_TN_contract. rewrite cal_any. cbn [bind sg_obj sl_N sl_wires]. rewrite E at 1. exact (any_batch_two n zs Gs Hn HI (amp t)). }
    apply state_eta. apply tbuild_st_ext. pose proof tensor_gates as TG. fold ws. rewrite TG. reflexivity.
  Qed.
  Lemma layer_any_batch_bad : forall B t, B <> 2 -> In (-1)%Z zs -> shape t = B :: repeat 2 n -> wf t -> exists o, sg_build n s zs = Ok o /\ layer_TN_contract o t true = Err TorchError.
  Proof.
    intros B t HB Hm S F. destruct (wf_tbuild t _ S F) as (f & ->). exists (LS (sg_obj n s zs)). split; [now apply sg_build_ok|].
    cbn [layer_TN_contract]. unfold slayer_TN_contract. rewrite cal_any. cbn [bind sg_obj sl_N sl_wires]. exact (any_batch_bad n zs Gs Hn HI B f HB Hm).
  Qed.
End Api.
