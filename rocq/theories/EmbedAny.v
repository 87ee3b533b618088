(** Lemmas: PauliEncoding on any list of wires. *)
From Coq Require Import List ZArith QArith Reals Lra Lia ZifyBool Bool Arith Ring Setoid Morphisms String.
From Verif Require Import PyBase Scalar CInst BigSum Index Tensor TensorFacts Spec SpecFacts QMath QTN QOperator
  ExpandFacts ExpandFacts2 ContractFacts ContractFacts2 GateSpec QGates GateCalls GateFacts GateFacts2 GateFacts3 GateFacts4 GateFacts6 RunSpec
  MPSSpec MPSFacts1 MPSFacts2 MPSFacts4 MPSFacts5 MPSFacts6 MPSFacts8 MPSFacts9 LayerSpec QLayers LayerCalls LayerFacts1 ContractBad LayerAnySpec LayerAnyCalls LayerAny
  LayerAny2 LayerAny3 LayerAny4 GateProofs EmbedSpec QEmbedding EmbedFacts EmbedAnySpec IdentFacts.
Import ListNotations.
Local Close Scope Q_scope.
Local Close Scope R_scope.
Local Open Scope nat_scope.
Notation length := List.length.

Lemma axis_zero : forall a, op_eq 1 (axis_op a 0) id_op.
Proof.
  intros []; cbn [axis_op]; unfold rx_op, ry_op, rz_op; rewrite id_op2; apply op2_op_eq; cbn [k0 k1 C_scalar];
    rewrite ?RtoC_neg, ?zcos, ?zsin, ?zms, ?zexp, ?znexp; try reflexivity; match goal with |- ?l = ?r => change (@eq C l r) end; ring.
Qed.
Lemma axis_add : forall a s t, op_eq 1 (mul_op 1 (axis_op a s) (axis_op a t)) (axis_op a (s + t)).
Proof.
  intros [] s t; cbn [axis_op]; unfold rx_op, ry_op, rz_op; rewrite mul_op2; apply op2_op_eq; cbn [kadd kmul C_scalar]; symmetry; match goal with |- ?l = ?r => change (@eq C l r) end;
    first [add; ring|add'; ring].
Qed.
Lemma axis_pow : forall a m t, op_eq 1 (pow_op m (axis_op a t)) (axis_op a (INR m * t)).
Proof.
  intros a m t. induction m as [|m IH]; cbn [pow_op].
  - replace (INR 0 * t)%R with 0%R by (cbn; ring). symmetry. apply axis_zero.
  - rewrite IH, axis_add. rewrite S_INR. now replace ((INR m + 1) * t)%R with (INR m * t + t)%R by ring.
Qed.
Lemma axis_unitary : forall a t, unitary 1 (axis_op a t).
Proof. intros [] t; cbn [axis_op]; [apply rx_unitary|apply ry_unitary|apply rz_unitary]. Qed.
Lemma enc_ops_angles : forall a xs L, enc_ops a xs L = map (axis_op a) (enc_angles xs L).
Proof. intros. unfold enc_ops, enc_angles. now rewrite map_map. Qed.
Lemma enc_ops_length : forall a xs L, length (enc_ops a xs L) = L.
Proof. intros. unfold enc_ops. now rewrite map_length, seq_length. Qed.
Lemma last_rot : forall a ws ts w, op_eq 1 (last_gate ws (map (axis_op a) ts) w) (axis_op a (last_angle ws ts w)).
Proof.
  intros a ws ts w. unfold last_gate, last_angle.
  assert (X : forall ts A t, op_eq 1 A (axis_op a t) ->
    op_eq 1 (fold_left (fun A (wg : nat * qop) => if fst wg =? w then snd wg else A) (combine ws (map (axis_op a) ts)) A)
      (axis_op a (fold_left (fun t (wt : nat * R) => if fst wt =? w then snd wt else t) (combine ws ts) t))).
  { clear ts. induction ws as [|v ws IH]; intros [|t0 ts] A t E; try exact E. cbn [map combine fold_left fst snd]. apply IH. destruct (v =? w); [reflexivity|exact E]. }
  apply X. symmetry. apply axis_zero.
Qed.
Lemma obs_ext2 : forall n (F G : nat -> qop) vs ws, (forall v, In v vs -> v < n) -> (forall w, op_eq 1 (F w) (G w)) -> op_eq n (obs_op n vs (map F ws)) (obs_op n vs (map G ws)).
Proof.
  intros n F G vs. induction vs as [|v vs IH]; intros [|w ws] HV E; cbn [map]; try reflexivity. rewrite !obs_op_cons.
  rewrite (IH ws) by (auto; intros; apply HV; simpl; auto). apply mul_op_proper; [reflexivity|]. apply lift_ext; [|apply E]. intros u [<-|[]]. apply HV. now left.
Qed.

Section Enc.
  Variables (n : nat) (a : axis) (xs : list R) (zs : list Z).
  Hypothesis Hx : xs <> [].
  Hypothesis HL : length xs <= n.
  Hypothesis HI : forall z, In z zs -> in_register n z.
  Let Gs := enc_ops a xs (length zs).
  Let ws := map (qubit n) zs.
  Let t := last_angle ws (enc_angles xs (length zs)).
  Let e := mkPE (Z.of_nat n) xs (axis_name a) zs.
  Lemma enc_n : 0 < n. Proof. destruct xs; [congruence|cbn in HL; lia]. Qed.
  Let Hn := enc_n.
  Let LG : length Gs = length zs := enc_ops_length a xs (length zs).
  Lemma enc_ws_lt : forall w, In w ws -> w < n.
  Proof. intros w Hw. unfold ws in Hw. apply in_map_iff in Hw. destruct Hw as (z & <- & _). now apply qubit_lt. Qed.
  Lemma enc_cal : pe_single_gates e = Ok (map (op_tensor 1) (lfac ws Gs (repeat id_op n))).
  Proof. unfold e. rewrite pe_gates_axis. apply (fill_any _ n zs Gs Hn LG); [|exact HI]. intros i Hi. now apply enc_matrix_ok. Qed.
  Lemma enc_last : forall w, op_eq 1 (last_gate ws Gs w) (axis_op a (t w)).
  Proof. intros w. unfold Gs. rewrite enc_ops_angles. apply last_rot. Qed.
  Lemma enc_T : op_eq n (obs_op n ws (map (fun z => last_gate ws Gs (qubit n z)) zs)) (rotate_each n a (fun w => (INR (count_occ Nat.eq_dec ws w) * t w)%R)).
  Proof.
    replace (map (fun z => last_gate ws Gs (qubit n z)) zs) with (map (last_gate ws Gs) ws) by (unfold ws at 2; now rewrite map_map).
    rewrite obs_pow by exact enc_ws_lt. unfold rotate_each. apply each_ext. intros w _. rewrite (pow_ext _ _ _ (enc_last w)). apply axis_pow.
  Qed.
  Lemma enc_any_wires : exists e u, PauliEncoding (Z.of_nat n) xs zs (axis_name a) = Ok e /\ pe_U e = Ok u /\ is_op n u (rotate_each n a t) /\ unitary n (op_of u) /\
    (forall s, shape s = repeat 2 n -> wf s -> exists s', pe_TN_contract e s false = Ok s' /\
       is_state n (repeat 2 n) s' (act n (rotate_each n a (fun w => (INR (count_occ Nat.eq_dec ws w) * t w)%R)) (amp s))) /\
    (forall m psi, is_mps n m psi -> exists m', pe_TN_operation e m = Ok m' /\
       is_mps n m' (act n (rotate_each n a (fun w => (INR (count_occ Nat.eq_dec ws w) * t w)%R)) psi)).
  Proof.
    assert (EG : op_eq n (each_qubit n (last_gate ws Gs)) (rotate_each n a t)) by (apply each_ext; intros; apply enc_last).
    exists e, (op_tensor n (rotate_each n a t)). split; [now apply pe_build|]. unfold pe_U, pe_TN_contract, pe_TN_operation. rewrite enc_cal. cbn [bind e pe_N pe_wires].
    split; [etransitivity; [exact (L1_U n zs Gs Hn)|]; f_equal; now apply op_tensor_ext|]. split; [apply is_op_tensor|]. split.
    { rewrite (proj2 (proj2 (is_op_tensor n (rotate_each n a t)))). apply each_unitary. intros; apply axis_unitary. }
    split.
    - intros s S F. assert (E : s = tbuild (repeat 2 n) (amp s)).
      { apply state_eta. split; [exact S|]. split; [|intros x _; reflexivity]. unfold wf in F. rewrite F, S. now rewrite prodn_repeat. }
      eexists. split; [rewrite E at 1; exact (any_contract n zs Gs Hn LG HI (amp s))|]. apply state_eta. apply tbuild_st_ext. apply act_proper; [exact enc_T|reflexivity].
    - intros m psi M. destruct (any_mps n zs Gs Hn LG HI m psi M) as (m' & E & M'). exists m'. split; [exact E|].
      eapply is_mps_st; [exact M'|]. apply act_proper; [exact enc_T|reflexivity].
  Qed.
  Lemma enc_gates_batch : map (fun z => last_gate ws Gs (qubit n z)) zs = map (last_gate ws Gs) ws.
  Proof. unfold ws at 3. now rewrite map_map. Qed.
  Lemma enc_any_batch : forall B s, ~ In (-1)%Z zs -> shape s = B :: repeat 2 n -> wf s -> exists e s', PauliEncoding (Z.of_nat n) xs zs (axis_name a) = Ok e /\ pe_TN_contract e s true = Ok s' /\
    shape s' = B :: repeat 2 n /\ wf s' /\ forall i r, i < B -> In r (bits n) ->
      tget s' (i :: r) = act n (obs_op n (map (fun z => pred (batch_dim n z)) zs) (map (fun w => axis_op a (t w)) ws)) (fun b => tget s (i :: b)) r.
  Proof.
    intros B s N S F. destruct (wf_tbuild s _ S F) as (f & ->). destruct (any_batch n zs Gs Hn HI B f N) as (F' & E & X).
    exists e, (tbuild (B :: repeat 2 n) F'). split; [now apply pe_build|]. split.
    { unfold pe_TN_contract. rewrite enc_cal. exact E. }
    split; [reflexivity|]. split; [apply tbuild_wf|]. intros i r Hi Hr.
    assert (V : forall b, In b (bits n) -> valid (B :: repeat 2 n) (i :: b)) by (intros b Hb; apply valid_cons; split; [exact Hi|]; now apply bits_valid).
    rewrite tget_tbuild by (now apply V). rewrite (X i Hi r Hr). pose proof enc_gates_batch as TG. cbv zeta in TG. fold ws. rewrite TG.
    apply act_proper; [| |exact Hr].
    - apply obs_ext2; [|exact enc_last]. intros v Hv. apply in_map_iff in Hv. destruct Hv as (z & <- & _). pose proof (batch_dim_lt n z). pose proof Hn. lia.
    - intros b Hb. now rewrite tget_tbuild by (now apply V).
  Qed.
  Lemma enc_any_batch_two : forall s, shape s = 2 :: repeat 2 n -> wf s -> exists e s', PauliEncoding (Z.of_nat n) xs zs (axis_name a) = Ok e /\ pe_TN_contract e s true = Ok s' /\
    is_state (S n) (2 :: repeat 2 n) s' (act (S n) (obs_op (S n) (map (batch_dim n) zs) (map (fun w => axis_op a (t w)) ws)) (amp s)).
  Proof.
    intros s S F. change (2 :: repeat 2 n) with (repeat 2 (Datatypes.S n)) in *. assert (E : s = tbuild (repeat 2 (Datatypes.S n)) (amp s)).
    { apply state_eta. split; [exact S|]. split; [|intros x _; reflexivity]. unfold wf in F. rewrite F, S. now rewrite prodn_repeat. }
    exists e. eexists. split; [now apply pe_build|]. split.
    { unfold pe_TN_contract. rewrite enc_cal. cbn [bind e pe_N pe_wires]. rewrite E at 1. exact (any_batch_two n zs Gs Hn HI (amp s)). }
    apply state_eta. apply tbuild_st_ext. pose proof enc_gates_batch as TG. cbv zeta in TG. fold ws. rewrite TG. apply act_proper; [|reflexivity].
    apply obs_ext2; [|exact enc_last]. intros v Hv. apply in_map_iff in Hv. destruct Hv as (z & <- & _). apply batch_dim_lt.
  Qed.
  Lemma enc_any_batch_bad : forall B s, B <> 2 -> In (-1)%Z zs -> shape s = B :: repeat 2 n -> wf s -> exists e, PauliEncoding (Z.of_nat n) xs zs (axis_name a) = Ok e /\ pe_TN_contract e s true = Err TorchError.
  Proof.
    intros B s HB Hm S F. destruct (wf_tbuild s _ S F) as (f & ->). exists e. split; [now apply pe_build|].
    unfold pe_TN_contract. rewrite enc_cal. cbn [bind e pe_N pe_wires]. exact (any_batch_bad n zs Gs Hn HI B f HB Hm).
  Qed.
End Enc.
