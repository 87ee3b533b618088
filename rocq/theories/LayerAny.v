(** Lemmas: layers of one-qubit gates on any list of wires. *)
From Coq Require Import List ZArith QArith Reals Lra Lia ZifyBool Bool Arith Ring Setoid Morphisms Permutation.
From Verif Require Import PyBase Scalar CInst BigSum Index Tensor TensorFacts Spec SpecFacts QMath QTN QOperator
  ExpandFacts ExpandFacts2 ContractFacts ContractFacts2 GateSpec QGates GateCalls GateFacts GateFacts2 GateFacts3 GateFacts4 RunSpec
  MPSSpec MPSFacts1 MPSFacts2 MPSFacts4 MPSFacts5 MPSFacts6 MPSFacts8 MPSFacts9 LayerSpec QLayers LayerCalls LayerFacts1 ContractBad LayerAnySpec LayerAnyCalls.
Import ListNotations.
Local Close Scope Q_scope.
Local Close Scope R_scope.
Local Open Scope nat_scope.

Lemma qubit_lt : forall n z, 0 < n -> qubit n z < n.
Proof. intros n z H. unfold qubit. pose proof (Z.mod_pos_bound z (Z.of_nat n)). lia. Qed.
Lemma qubit_val : forall n z, in_register n z -> Z.of_nat (qubit n z) = if (z <? 0)%Z then (z + Z.of_nat n)%Z else z.
Proof.
  intros n z [H1 H2]. unfold qubit. destruct (z <? 0)%Z eqn:E.
  - replace z with (z + Z.of_nat n + (-1) * Z.of_nat n)%Z at 1 by lia. rewrite Z.mod_add by lia. rewrite Z.mod_small by lia. lia.
  - rewrite Z.mod_small by lia. lia.
Qed.
Lemma qubit_nat : forall n w, w < n -> qubit n (Z.of_nat w) = w.
Proof. intros n w H. unfold qubit. rewrite Z.mod_small by lia. lia. Qed.
Lemma py_index_qubit : forall n z, in_register n z -> py_index n z = Ok (qubit n z).
Proof.
  intros n z H. pose proof (qubit_val n z H) as E. destruct H as [H1 H2]. unfold py_index. destruct (z <? 0)%Z eqn:L.
  - replace ((0 <=? z)%Z && (z <? Z.of_nat n)%Z) with false by lia. replace ((- Z.of_nat n <=? z)%Z && true) with true by lia. f_equal. lia.
  - replace ((0 <=? z)%Z && (z <? Z.of_nat n)%Z) with true by lia. f_equal. lia.
Qed.
Lemma py_index_out : forall n z, ~ in_register n z -> py_index n z = Err IndexError.
Proof.
  intros n z H. unfold in_register in H. unfold py_index. replace ((0 <=? z)%Z && (z <? Z.of_nat n)%Z) with false by lia.
  replace ((- Z.of_nat n <=? z)%Z && (z <? 0)%Z) with false by lia. reflexivity.
Qed.
Lemma py_nth_qubit : forall A (l : list A) n z d, length l = n -> in_register n z -> py_nth l z = Ok (nth (qubit n z) l d).
Proof.
  intros A l n z d L H. unfold py_nth. rewrite L, py_index_qubit by exact H. cbn [bind].
  assert (0 < n) by (destruct H; lia). rewrite (nth_error_nth' l d); [reflexivity|]. rewrite L. now apply qubit_lt.
Qed.
Lemma py_set_qubit : forall A (l : list A) n z x, length l = n -> in_register n z -> py_set l z x = Ok (set_nth (qubit n z) x l).
Proof. intros A l n z x L H. unfold py_set. now rewrite L, py_index_qubit by exact H. Qed.

(** * The list of gates *)
Lemma lfac_last : forall ws Gs Fs w, (forall v, In v ws -> v < length Fs) -> 
  fac (lfac ws Gs Fs) w = fold_left (fun A (wg : nat * qop) => if fst wg =? w then snd wg else A) (combine ws Gs) (fac Fs w).
Proof.
  induction ws as [|v ws IH]; intros [|G Gs] Fs w HW; try reflexivity. change (lfac (v :: ws) (G :: Gs) Fs) with (lfac ws Gs (set_nth v G Fs)).
  rewrite IH by (intros; rewrite set_nth_length; apply HW; simpl; auto). cbn [combine fold_left fst snd].
  rewrite fac_set by (apply HW; simpl; auto). rewrite Nat.eqb_sym. reflexivity.
Qed.
Lemma lfac_last_gate : forall n ws Gs w, (forall v, In v ws -> v < n) -> fac (lfac ws Gs (repeat id_op n)) w = last_gate ws Gs w.
Proof. intros n ws Gs w HW. rewrite lfac_last by (rewrite repeat_length; auto). now rewrite fac_repeat. Qed.

Lemma each_prod : forall n F, op_eq n (prod_of n F) (each_qubit n F).
Proof.
  intros n F. unfold each_qubit. assert (W : good_wires n (seq 0 n)).
  { split; [apply seq_NoDup|]. intros w Hw. apply in_seq in Hw. lia. }
  rewrite <- (lfac_obs n (seq 0 n) (map F (seq 0 n)) W). apply prod_of_ext. intros i Hi.
  pose proof (lfac_in (seq 0 n) (map F (seq 0 n)) (repeat id_op n) i) as E. rewrite seq_nth in E by auto. cbn [plus] in E.
  rewrite E; [| now rewrite map_length | apply W | intros; rewrite repeat_length; now apply W | now rewrite seq_length ].
  rewrite (nth_indep _ id_op (F 0)) by (rewrite map_length, seq_length; auto). rewrite map_nth, seq_nth by auto. reflexivity.
Qed.
Lemma each_ext : forall n F G, (forall i, i < n -> op_eq 1 (F i) (G i)) -> op_eq n (each_qubit n F) (each_qubit n G).
Proof. intros n F G H. rewrite <- !each_prod. now apply prod_of_ext. Qed.

(** the tensor forms apply the gate once per occurrence *)
Lemma obs_pow : forall n ws (G : nat -> qop), (forall w, In w ws -> w < n) ->
  op_eq n (obs_op n ws (map G ws)) (each_qubit n (fun w => pow_op (count_occ Nat.eq_dec ws w) (G w))).
Proof.
  intros n ws G HW. rewrite <- each_prod. induction ws as [|v ws IH]; cbn [map].
  - cbn. symmetry. apply prod_of_id. reflexivity.
  - rewrite obs_op_cons, IH by (intros; apply HW; simpl; auto). assert (Hv : v < n) by (apply HW; simpl; auto).
    rewrite <- (prod_of_1 n (G v) v (fun i => if i =? v then G v else id_op) Hv) by auto. rewrite prod_mul. apply prod_of_ext.
    intros i Hi. cbn [count_occ]. destruct (Nat.eq_dec v i) as [->|D].
    + rewrite Nat.eqb_refl. reflexivity.
    + replace (i =? v) with false by (symmetry; apply Nat.eqb_neq; auto). apply mul_op_id_r.
Qed.

Section Any.
  Variables (wm : nat -> res (tensor (SC := C_scalar))) (n : nat) (zs : list Z) (Gs : list qop).
  Hypothesis Hn : 0 < n.
  Hypothesis LG : length Gs = length zs.
  Hypothesis WM : forall i, i < length zs -> wm i = Ok (op_tensor 1 (nth i Gs id_op)).
  Let ws := map (qubit n) zs.
  Let L1 := map (op_tensor 1) (lfac ws Gs (repeat id_op n)).

  Lemma ws_lt : forall v, In v ws -> v < n.
  Proof. intros v H. apply in_map_iff in H. destruct H as (z & <- & _). now apply qubit_lt. Qed.
  Lemma L1_length : length L1 = n.
  Proof. unfold L1. now rewrite map_length, lfac_length, repeat_length. Qed.

  Lemma fill_gen : forall us Hs j Fs, length Fs = n -> length Hs = length us ->
      (forall i, i < length us -> wm (j + i) = Ok (op_tensor 1 (nth i Hs id_op))) ->
      (forall z, In z us -> in_register n z) ->
      mfold (fun lst1 (iq : nat * Z) => do m <- wm (fst iq); py_set lst1 (snd iq) m)
        (combine (seq j (length us)) us) (map (op_tensor 1) Fs) = Ok (map (op_tensor 1) (lfac (map (qubit n) us) Hs Fs)).
  Proof.
    induction us as [|u us IH]; intros [|H Hs] j Fs HF HL HM HI; try discriminate; [reflexivity|].
    cbn [length seq map combine mfold fst snd]. pose proof (HM 0) as M0. rewrite Nat.add_0_r in M0. cbn [nth length] in M0. rewrite M0 by lia. cbn [bind].
    rewrite (py_set_qubit _ _ n) by (rewrite ?map_length; auto; apply HI; simpl; auto). cbn [bind]. rewrite <- map_set_nth.
    change (lfac (qubit n u :: map (qubit n) us) (H :: Hs) Fs) with (lfac (map (qubit n) us) Hs (set_nth (qubit n u) H Fs)). apply IH.
    - now rewrite set_nth_length.
    - cbn [length] in HL. lia.
    - intros i Hi. rewrite Nat.add_succ_comm. apply (HM (S i)). cbn [length]. lia.
    - intros; apply HI; simpl; auto.
  Qed.
  Lemma fill_any : (forall z, In z zs -> in_register n z) -> fill_wires wm (Z.of_nat n) zs = Ok L1.
  Proof.
    intros HI. unfold fill_wires. rewrite eyes_op. unfold enumerate. apply (fill_gen zs Gs 0); auto. apply repeat_length.
  Qed.
  Lemma fill_bad : (exists z, In z zs /\ ~ in_register n z) -> fill_wires wm (Z.of_nat n) zs = Err IndexError.
  Proof.
    intros HE. unfold fill_wires, enumerate.
    assert (X : forall us j (l : list (tensor (SC := C_scalar))), length l = n -> (forall i, i < length us -> exists m, wm (j + i) = Ok m) -> (exists z, In z us /\ ~ in_register n z) ->
      mfold (fun lst1 (iq : nat * Z) => do m <- wm (fst iq); py_set lst1 (snd iq) m) (combine (seq j (length us)) us) l = Err IndexError).
    { clear. induction us as [|u us IH]; intros j l L HM (z & Hz & HB); [destruct Hz|].
      cbn [length seq combine mfold fst snd]. destruct (HM 0) as (m & M0); [cbn [length]; lia|]. rewrite Nat.add_0_r in M0. rewrite M0. cbn [bind].
      assert (D : in_register n u \/ ~ in_register n u) by (unfold in_register; lia). destruct D as [D|D].
      - rewrite (py_set_qubit _ _ n) by auto. cbn [bind]. apply IH.
        + now rewrite set_nth_length.
        + intros i Hi. rewrite Nat.add_succ_comm. apply (HM (S i)). cbn [length]. lia.
        + exists z. split; [|exact HB]. destruct Hz as [->|Hz]; [contradiction|exact Hz].
      - unfold py_set. rewrite L, py_index_out by exact D. reflexivity. }
    apply X; [|intros i Hi; eexists; now apply WM|exact HE]. rewrite eyes_op, map_length. apply repeat_length.
  Qed.
  Lemma L1_U : multi_kron L1 = Ok (op_tensor n (each_qubit n (last_gate ws Gs))).
  Proof.
    unfold L1. rewrite (multi_kron_fac _ n) by (auto; rewrite lfac_length; apply repeat_length). f_equal. apply op_tensor_ext.
    rewrite <- each_prod. apply prod_of_ext. intros i Hi. rewrite lfac_last_gate; [reflexivity|apply ws_lt].
  Qed.
  Lemma L1_nth : forall z, in_register n z -> py_nth L1 z = Ok (op_tensor 1 (last_gate ws Gs (qubit n z))).
  Proof.
    intros z H. rewrite (py_nth_qubit _ _ n _ (op_tensor 1 id_op)) by (auto using L1_length). unfold L1. rewrite map_nth. do 2 f_equal.
    exact (lfac_last_gate n ws Gs (qubit n z) ws_lt).
  Qed.

  (** a fold over the wires that applies a gate for every entry *)
  Lemma any_fold : forall m (g : Z -> qop) (v : Z -> nat) A (step : A -> Z -> res A) (P : qstate -> A -> Prop) us a psi,
    (forall z a psi, In z us -> P psi a -> exists a', step a z = Ok a' /\ P (act m (lift (g z) [v z]) psi) a') ->
    (forall f g a, st_eq m f g -> P f a -> P g a) ->
    P psi a -> exists a', mfold step us a = Ok a' /\ P (act m (obs_op m (map v us) (map g us)) psi) a'.
  Proof.
    intros m g v A step P us a psi HS HE. clear WM LG L1 ws. revert a psi. induction us as [|u us IH]; intros a psi HP.
    - exists a. split; [reflexivity|]. eapply HE; [|exact HP]. apply st_sym. exact (act_id m psi).
    - destruct (HS u a psi) as (a1 & E1 & P1); [now left|exact HP|].
      destruct (IH (fun z b phi Hz Hb => HS z b phi (or_intror Hz) Hb) a1 _ P1) as (a2 & E2 & P2).
      exists a2. cbn [map mfold]. rewrite E1. cbn [bind]. split; [exact E2|]. eapply HE; [|exact P2]. rewrite obs_op_cons. symmetry. apply act_mul.
  Qed.

  Hypothesis HI : forall z, In z zs -> in_register n z.

  Lemma contract_step : forall z M t, in_register n z -> contract1_at (SC := C_scalar) M (Z.of_nat n) z t = contract1_at M (Z.of_nat n) (Z.of_nat (qubit n z)) t.
  Proof.
    intros z M t H. rewrite (qubit_val n z H). destruct H as [H1 H2]. destruct (z <? 0)%Z eqn:E; [|reflexivity]. apply contract1_neg. lia.
  Qed.
  Lemma any_contract : forall f, base_TN_contract L1 (Z.of_nat n) zs (tbuild (repeat 2 n) f) false =
    Ok (tbuild (repeat 2 n) (act n (obs_op n ws (map (fun z => last_gate ws Gs (qubit n z)) zs)) f)).
  Proof.
    intros f. unfold base_TN_contract. cbn iota.
    destruct (any_fold n (fun z => last_gate ws Gs (qubit n z)) (qubit n) tensor (fun MPS qbit => do m <- py_nth L1 qbit; contract1_at m (Z.of_nat n) qbit MPS)
      (fun psi t => t = tbuild (repeat 2 n) psi) zs (tbuild (repeat 2 n) f) f) as (a & E & ->).
    - intros z a psi Hz ->. pose proof (HI z Hz) as R. rewrite L1_nth by exact R. cbn [bind]. rewrite contract_step by exact R.
      pose proof (contract1_ok (repeat 2 n) (qubit n z) (last_gate ws Gs (qubit n z)) psi) as C. rewrite repeat_length in C. pose proof (qubit_lt n z Hn) as Q.
      rewrite C by (auto; now apply nth_repeat_lt). eexists. split; [reflexivity|]. apply tbuild_st_ext. symmetry. apply act_lift. now apply good_wires_1.
    - intros g h a E ->. now apply tbuild_st_ext.
    - reflexivity.
    - exact E.
  Qed.
  Lemma any_mps : forall l psi, is_mps n l psi -> exists l', base_TN_operation L1 zs l = Ok l' /\
    is_mps n l' (act n (obs_op n ws (map (fun z => last_gate ws Gs (qubit n z)) zs)) psi).
  Proof.
    intros l psi HM. unfold base_TN_operation.
    apply (any_fold n (fun z => last_gate ws Gs (qubit n z)) (qubit n) (list tensor) _ (fun psi l => is_mps n l psi)).
    - intros z a phi Hz HP. pose proof (HI z Hz) as R. rewrite L1_nth by exact R. cbn [bind]. pose proof (qubit_lt n z Hn) as Q.
      destruct (single_site_ok n (last_gate ws Gs (qubit n z)) a phi (qubit n z) HP Q) as (x & x' & E1 & E2 & l' & E3 & M). exists l'.
      assert (LA : length a = n) by apply HP.
      rewrite (py_nth_qubit _ a n z x LA R). rewrite (py_nth_nat _ a (qubit n z) x) in E1 by lia. injection E1 as ->. cbn [bind]. rewrite E2. cbn [bind].
      rewrite (py_set_qubit _ a n z x' LA R). rewrite py_set_nat in E3 by lia.
      split; [exact E3|]. eapply is_mps_st; [exact M|]. apply st_sym, act_lift. now apply good_wires_1.
    - intros f g a E H. eapply is_mps_st; eauto.
    - exact HM.
  Qed.
End Any.
