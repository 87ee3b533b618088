(** Whole circuits with memory layouts agree with those without. *)
From Coq Require Import List ZArith QArith Reals Lia Bool Arith.
From Coquelicot Require Import Complex.
From Verif Require Import PyBase Scalar CInst BigSum Index Tensor Spec MPSSpec QMath QTN QOperator QGates QMathC QLayers QCircuit QStride QStride2 StrideFacts StrideProofs StrideProofs2 StrideProofs3.
Import ListNotations.
Local Close Scope Q_scope.
Local Open Scope nat_scope.

Section Circ.
  Variable svd : tensor -> tensor * tensor * tensor.
  Variable svd_lay : stensor -> list nat * list nat * list nat.
  Variable mmT : stensor -> stensor -> bool.
  Variable ein_lay : stensor -> stensor -> list nat.
  Variable lay : tensor -> list nat.
  Hypothesis Hsvd : svd_ranks svd.
  Hypothesis Hlay : lay_ranks svd_lay ein_lay.
  Hypothesis Hmat : forall t, length (lay t) = length (shape t).

  Lemma SR_place : forall t, SR (place lay t) t.
  Proof. intros t. split; [reflexivity|apply Hmat]. Qed.
  Lemma rplace : forall r, rres SR (place_res lay r) r.
  Proof. intros [t|e]; [apply SR_place|reflexivity]. Qed.

  Lemma rTN_operation : forall g l l', Forall2 SR l l' ->
    rres (Forall2 SR) (s_TN_operation svd svd_lay mmT ein_lay lay g l) (TN_operation svd g l').
  Proof.
    intros g l l' F. unfold s_TN_operation, TN_operation. cbv zeta.
    destruct (g_cls g); try reflexivity;
      first [ eapply rsingle_op; eauto using SR_place | eapply rcnot_op; eauto using SR_place, rplace
            | eapply rctrl_op; eauto using SR_place, rplace | eapply rswap_op; eauto
            | eapply rtoffoli_op; eauto using SR_place, rplace ].
  Qed.
  Lemma rTN_contract : forall g x t b, SR x t -> rres SR (s_TN_contract mmT lay g x b) (TN_contract g t b).
  Proof.
    intros g x t b F. unfold s_TN_contract, TN_contract. cbv zeta.
    destruct (g_cls g); try reflexivity;
      first [ eapply rsingle_ct; eauto using SR_place | eapply rdouble_ct; eauto using SR_place
            | eapply rswap_ct; eauto | eapply rtriple_ct; eauto using SR_place ].
  Qed.

  Lemma reinsum : forall M M' s s', SR M M' -> SR s s' -> rres SR (s_einsum_ab_bcd ein_lay M s) (einsum_ab_bcd M' s').
  Proof.
    intros M M' s s' HM Hs. unfold s_einsum_ab_bcd. rewrite (proj1 HM), (proj1 Hs).
    destruct (einsum_ab_bcd M' s') as [r|e] eqn:E; [|reflexivity].
    cbn. split; [reflexivity|]. cbn. rewrite (proj2 Hlay). unfold einsum_ab_bcd in E.
    destruct (shape M') as [|? [|? [|? ?]]]; try discriminate. destruct (shape s') as [|? [|? [|? [|? ?]]]]; try discriminate.
    destruct (_ =? _); [|discriminate]. injection E as <-. reflexivity.
  Qed.

  Lemma rslayer_op : forall s l l', Forall2 SR l l' ->
    rres (Forall2 SR) (s_slayer_TN_operation ein_lay lay s l) (slayer_TN_operation s l').
  Proof.
    intros s l l' F. unfold s_slayer_TN_operation, slayer_TN_operation, base_TN_operation. apply rbind_eq. intros lst _.
    apply rfold; [|exact F]. intros m m' q Fm. apply rbind_eq. intros u _.
    eapply rbind; [apply rnth; exact Fm|]. intros a a' _ _ Ha.
    eapply rbind; [apply reinsum; [apply SR_place|exact Ha]|]. intros x x' _ _ Hx. now apply rset.
  Qed.
  Lemma rslayer_ct : forall s x t b, SR x t ->
    rres SR (s_slayer_TN_contract mmT lay s x b) (slayer_TN_contract s t b).
  Proof.
    intros s x t b F. unfold s_slayer_TN_contract, slayer_TN_contract, base_TN_contract. apply rbind_eq. intros lst _.
    apply rfold; [|exact F]. intros m m' q Fm. apply rbind_eq. intros u _.
    destruct b; apply rcontract1; auto using SR_place.
  Qed.

  Lemma rcnot_TN : forall N a b l l', Forall2 SR l l' ->
    rres (Forall2 SR) (s_cnot_TN svd svd_lay mmT ein_lay lay N a b l) (cnot_TN svd N a b l').
  Proof. intros. unfold s_cnot_TN, cnot_TN. apply rbind_eq. intros g _. now apply rTN_operation. Qed.
  Lemma rswap_TN : forall N a b l l', Forall2 SR l l' ->
    rres (Forall2 SR) (s_swap_TN svd svd_lay mmT ein_lay lay N a b l) (swap_TN svd N a b l').
  Proof. intros. unfold s_swap_TN, swap_TN. apply rbind_eq. intros g _. now apply rTN_operation. Qed.
  Lemma rclosing : forall N L l l', Forall2 SR l l' ->
    rres (Forall2 SR) (s_closing_TN svd svd_lay mmT ein_lay lay N L l) (closing_TN svd N L l').
  Proof.
    intros N L l l' F. unfold s_closing_TN, closing_TN.
    eapply rbind; [apply rfold; [|exact F]|].
    - intros m m' i Fm. destruct (negb _); [now apply rswap_TN|now apply rcnot_TN].
    - intros m m' _ _ Fm. apply rfold; [|exact Fm]. intros; now apply rswap_TN.
  Qed.
  Lemma rring_op : forall r l l', Forall2 SR l l' ->
    rres (Forall2 SR) (s_ring_TN_operation svd svd_lay mmT ein_lay lay r l) (ring_TN_operation svd r l').
  Proof.
    intros r l l' F. unfold s_ring_TN_operation, ring_TN_operation. apply rraise. cbv zeta.
    eapply rbind; [apply rfold; [|exact F]; intros; now apply rcnot_TN|].
    intros m m' _ _ Fm. destruct (_ =? _)%Z; [exact Fm|now apply rclosing].
  Qed.
  Lemma rring_dag_op : forall r l l', Forall2 SR l l' ->
    rres (Forall2 SR) (s_ring_dag_TN_operation svd svd_lay mmT ein_lay lay r l) (ring_dag_TN_operation svd r l').
  Proof.
    intros r l l' F. unfold s_ring_dag_TN_operation, ring_dag_TN_operation. apply rraise. cbv zeta.
    destruct (_ =? _)%Z; [now apply rcnot_TN|].
    eapply rbind; [apply rclosing; exact F|]. intros m m' _ _ Fm. apply rfold; [|exact Fm]. intros; now apply rcnot_TN.
  Qed.
  Lemma rring_step : forall r b N x t i, SR x t ->
    rres SR (s_ring_contract_step mmT lay r b N x i) (ring_contract_step r b N t i).
  Proof.
    intros. unfold s_ring_contract_step, ring_contract_step. apply rbind_eq. intros p _. apply rbind_eq. intros q _.
    apply rbind_eq. intros g _. now apply rTN_contract.
  Qed.
  Lemma rring_ct : forall r x t b, SR x t -> rres SR (s_ring_TN_contract mmT lay r x b) (ring_TN_contract r t b).
  Proof.
    intros r x t b F. unfold s_ring_TN_contract, ring_TN_contract. apply rraise. destruct (_ =? _)%Z; [now apply rring_step|].
    apply rfold; [|exact F]. intros; now apply rring_step.
  Qed.
  Lemma rring_dag_ct : forall r x t b, SR x t -> rres SR (s_ring_dag_TN_contract mmT lay r x b) (ring_dag_TN_contract r t b).
  Proof.
    intros r x t b F. unfold s_ring_dag_TN_contract, ring_dag_TN_contract. apply rraise. destruct (_ =? _)%Z; [now apply rring_step|].
    apply rfold; [|exact F]. intros; now apply rring_step.
  Qed.

  Lemma ro_op : forall o l l', Forall2 SR l l' ->
    rres (Forall2 SR) (s_o_TN_operation svd svd_lay mmT ein_lay lay o l) (o_TN_operation svd o l').
  Proof.
    intros [g|[s|r|r|r|b]] l l' F; cbn [s_o_TN_operation o_TN_operation layer_TN_operation];
      auto using rTN_operation, rslayer_op, rring_op, rring_dag_op; reflexivity.
  Qed.
  Lemma ro_ct : forall o x t b, SR x t -> rres SR (s_o_TN_contract mmT lay o x b) (o_TN_contract o t b).
  Proof.
    intros [g|[s|r|r|r|b']] x t b F; cbn [s_o_TN_contract o_TN_contract layer_TN_contract];
      auto using rTN_contract, rslayer_ct, rring_ct, rring_dag_ct; reflexivity.
  Qed.

  Lemma revolution : forall c l l', Forall2 SR l l' ->
    rres (Forall2 SR) (s_TN_evolution svd svd_lay mmT ein_lay lay c l) (TN_evolution svd c l').
  Proof.
    intros c l l' F. unfold s_TN_evolution, TN_evolution. rewrite (F2_length _ _ _ _ _ F). apply rraise.
    apply rfold; [|exact F]. intros m m' o Fm. destruct (o_supportTN o); [now apply ro_op|reflexivity].
  Qed.
  Lemma rcontract_evolution : forall c x t b, SR x t ->
    rres SR (s_TN_contract_evolution mmT lay c x b) (TN_contract_evolution c t b).
  Proof.
    intros c x t b F. unfold s_TN_contract_evolution, TN_contract_evolution. rewrite (proj1 F). apply rraise.
    apply rfold; [|exact F]. intros m m' o Fm. destruct (o_supportTN o); [now apply ro_ct|reflexivity].
  Qed.

  Lemma rcU : forall c, rres SR (s_cU mmT lay c) (cU c true).
  Proof.
    intros c. unfold s_cU, cU. apply rfold; [|apply SR_fresh]. intros u u' o Hu.
    eapply rbind; [apply rplace|]. intros v v' _ _ Hv. eapply rres_weaken; [exact MM_SR|]. now apply rmatmul.
  Qed.

  (** a row or a column vector can be viewed in any shape *)
  Lemma rview_row : forall x t m dims, SR x t -> shape t = [1; m] -> rres SR (s_view x dims) (view t dims).
  Proof.
    intros x t m dims [Hv Hl] Hs. apply rview; [split; assumption|]. intros s _ Hp _. rewrite Hs in *.
    destruct (strd x) as [|a [|b [|? ?]]]; try discriminate. apply view_row. rewrite Hp. unfold prodn. cbn. lia.
  Qed.

  Lemma rquad : forall x t M M', SR x t -> (forall dims, rres SR (s_view x dims) (view t dims)) -> SR M M' ->
    s_quad_form mmT x M = quad_form t M'.
  Proof.
    intros x t M M' Hx Hv HM.
    assert (E : rres eq (s_quad_form mmT x M) (quad_form t M')).
    { unfold s_quad_form, quad_form. eapply rbind; [apply Hv|]. intros a a' _ _ Ha.
      eapply rbind; [apply Hv|]. intros b b' _ _ Hb.
      eapply rbind; [apply rmatmul; [apply SR_conj; exact Ha|exact HM]|]. intros u u' _ _ Hu.
      eapply rbind; [apply rmatmul; [apply MM_SR; exact Hu|exact Hb]|]. intros y y' _ _ Hy.
      apply MM_SR in Hy. rewrite (proj1 Hy). destruct (data y') as [|z [|? ?]]; reflexivity. }
    destruct (s_quad_form mmT x M), (quad_form t M'); cbn in E; try contradiction; congruence.
  Qed.

  Lemma rdag : forall x t, SR x t -> rres SR (s_dag x) (dag t).
  Proof. intros x t H. unfold s_dag, dag. rewrite (proj1 H). apply rraise. apply rpermute. now apply SR_conj. Qed.

  Lemma rexpval : forall x t M M' b, SR x t -> (b = false -> rres SR (s_view x [(-1)%Z; 1%Z]) (view t [(-1)%Z; 1%Z])) -> SR M M' ->
    s_expval mmT x M b = expval t M' b.
  Proof.
    intros x t M M' b Hx Hv HM.
    assert (E : rres eq (s_expval mmT x M b) (expval t M' b)).
    { unfold s_expval, expval. destruct b.
      - rewrite (proj1 Hx). apply rbind_eq. intros tr _. apply rraise.
        eapply rbind; [apply rmatmul; eassumption|]. intros p p' _ _ Hp. apply MM_SR in Hp. rewrite (proj1 Hp).
        apply rbind_eq. intros z _. reflexivity.
      - eapply rbind; [apply Hv; reflexivity|]. intros a a' _ _ Ha.
        eapply rbind; [apply rdag; exact Ha|]. intros d d' _ _ Hd.
        eapply rbind; [apply rmatmul; [exact Hd|exact HM]|]. intros u u' _ _ Hu.
        eapply rbind; [apply rmatmul; [apply MM_SR; exact Hu|exact Ha]|]. intros y y' _ _ Hy.
        eapply rbind; [apply rdiag; apply MM_SR; exact Hy|]. intros z z' _ _ ->. reflexivity. }
    destruct (s_expval mmT x M b), (expval t M' b); cbn in E; try contradiction; congruence.
  Qed.

  Lemma rmeasure : forall n x t ith, SR x t -> s_measure mmT lay n x ith = measure n t ith.
  Proof.
    intros n x t ith Hx. unfold s_measure, measure. cbv zeta. pose proof (SR_squeeze x t Hx) as Hq. rewrite (proj1 Hq).
    destruct (Zmeasure n ith) as [Ms|e]; [|reflexivity]. cbn [bind].
    assert (E : forall M, s_expval mmT (s_squeeze x) (place lay M) (negb (length (shape (squeeze t)) =? 1)) = expval (squeeze t) M (negb (length (shape (squeeze t)) =? 1))).
    { intros M. apply rexpval; [exact Hq| |apply SR_place]. intros Hb. apply negb_false_iff, Nat.eqb_eq in Hb.
      destruct Hq as [Hq1 Hq2]. apply rview; [split; assumption|]. intros s _ Hp _. rewrite Hb in Hq2.
      destruct (shape (squeeze t)) as [|k [|? ?]]; try discriminate. destruct (strd (s_squeeze x)) as [|a [|? ?]]; try discriminate.
      apply view_line1. exact Hp. }
    induction Ms as [|M Ms IH]; [reflexivity|]. cbn [mmap]. rewrite E. destruct (expval (squeeze t) M _); [|reflexivity]. cbn [bind]. now rewrite IH.
  Qed.
End Circ.
