(** C81: statements and cases. *)
From Coq Require Import List ZArith QArith Reals Lia Bool Arith.
From Coquelicot Require Import Complex.
From Verif Require Import PyBase Scalar CInst BigSum Index Tensor Spec MPSSpec MPDOSpec QMath QTN QOperator QGates QMathC QLayers QCircuit GateSpec GateCalls RunSpec LayerSpec LayerCalls CircuitSpec CircuitFacts1 CircuitProofs CircuitCases MPSFacts7 MPSFacts8 MPSCases
  QStride QStride2 StrideFacts StrideProofs StrideProofs2 StrideProofs3 StrideCases StrideCircuit.
Import ListNotations.
Local Close Scope Q_scope.
Local Open Scope nat_scope.

(** any layout of the gate matrices *)
Definition matrix_layouts (lay : tensor -> list nat) : Prop := forall t, length (lay t) = length (shape t).

Lemma view_row_shape : forall (t r : tensor), view t [1%Z; (-1)%Z] = Ok r -> exists m, shape r = [1; m].
Proof.
  intros t r H. unfold view in H. destruct (infer_shape _ _) as [s|] eqn:E; [|discriminate]. injection H as <-. cbn.
  apply infer_sound in E as [_ E]. inversion E as [|? ? ? ? H1 E2]; subst. inversion E2 as [|? ? ? ? _ E3]; subst. inversion E3; subst.
  destruct H1 as [H1| ->]; [discriminate|]. eexists. reflexivity.
Qed.
Lemma vec_row : forall l r, MPS2StateVec l = Ok r -> exists m, shape r = [1; m].
Proof.
  intros [|t ts] r H; [discriminate|]. unfold MPS2StateVec in H.
  match type of H with bind ?a _ = _ => destruct a as [c|]; [|discriminate] end. cbn [bind] in H.
  match type of H with bind ?a _ = _ => destruct a as [c1|]; [|discriminate] end. cbn [bind] in H.
  eapply view_row_shape. exact H.
Qed.

Section C81.
  Variables (svd : tensor -> tensor * tensor * tensor) (svd_lay : stensor -> list nat * list nat * list nat)
            (mmT : stensor -> stensor -> bool) (ein_lay : stensor -> stensor -> list nat) (lay : tensor -> list nat).

  Lemma evolution_layout : forall c l, torch_svd svd -> torch_layouts svd_lay ein_lay -> matrix_layouts lay -> Forall laid_out l ->
    values_of (s_TN_evolution svd svd_lay mmT ein_lay lay c l) = TN_evolution svd c (map val l).
  Proof. intros. apply values_eq. eapply revolution; eauto using laid_F2. Qed.
  Lemma contract_layout : forall c x b, matrix_layouts lay -> laid_out x ->
    value_of (s_TN_contract_evolution mmT lay c x b) = TN_contract_evolution c (val x) b.
  Proof. intros. apply value_eq. eapply rcontract_evolution; eauto using laid_SR. Qed.
  Lemma matrix_layout : forall c, matrix_layouts lay -> value_of (s_cU mmT lay c) = cU c true.
  Proof. intros. apply value_eq. now apply rcU. Qed.

  Lemma expectation_layout : forall n cs c x M b, svd_shapes svd -> torch_svd svd -> torch_layouts svd_lay ein_lay -> matrix_layouts lay ->
    0 < n -> Forall (ci_ok n) cs -> circuit_of n cs = Ok c -> laid_out x -> shape (val x) = [1; 2 ^ n] -> wf (val x) -> laid_out M ->
    s_cir_expectation svd svd_lay mmT ein_lay lay c x M b = cir_expectation svd c (val x) (val M) b.
  Proof.
    intros n cs c x M b Hsh Hs Hl Hm Hn Hcs Hc Hx Sx Wx HM.
    assert (EN : c_N c = n).
    { rewrite circuit_of_ok in Hc by exact Hcs. injection Hc as <-. apply circ_N. }
    assert (E : rres eq (s_cir_expectation svd svd_lay mmT ein_lay lay c x M b) (cir_expectation svd c (val x) (val M) b)).
    2:{ destruct (s_cir_expectation _ _ _ _ _ _ _ _ _), (cir_expectation _ _ _ _ _); cbn in E; try contradiction; congruence. }
    pose proof (laid_SR x Hx) as Rx. pose proof (laid_SR M HM) as RM.
    unfold s_cir_expectation, cir_expectation.
    apply rbind_eq. intros s0 _. apply rraise. apply rbind_eq. intros s1 _. apply rraise.
    apply rbind_eq. intros m0 _. apply rbind_eq. intros m1 _. apply rraise.
    destruct (TN_check c && b).
    - eapply rbind; [eapply rview_row; [exact Rx|exact Sx]|]. intros v v' _ Ev Hv.
      eapply rbind; [eapply rStateVec2MPS; eauto|]. intros l l' _ El Fl.
      eapply rbind; [eapply revolution; eauto|]. intros l1 l1' _ El1 Fl1.
      assert (Sh : mps_shape n l1').
      { eapply (circuit_shape svd n cs c l' l1'); eauto. rewrite EN in El. eapply StateVec2MPS_shape; [exact Hsh|exact Hn| |exact El].
        unfold view in Ev. destruct (infer_shape _ _) as [s|] eqn:Ei; [|discriminate]. injection Ev as <-.
        apply infer_sound in Ei as [Ei _]. unfold wf in *. cbn. rewrite Ei. exact Wx. }
      eapply rbind; [eapply rMPS2StateVec; eauto|]. intros p p' _ Ep Hp.
      destruct (vec_row _ _ Ep) as [m Sp].
      assert (Eq : s_quad_form mmT p M = quad_form p' (val M)).
      { apply rquad; [exact Hp| |exact RM]. intros dims. eapply rview_row; eauto. }
      rewrite Eq. destruct (quad_form p' (val M)); reflexivity.
    - eapply rbind; [apply rcU; exact Hm|]. intros u u' _ Eu Hu.
      eapply rbind; [eapply rview_row; [exact Rx|exact Sx]|]. intros v v' _ Ev Hv.
      eapply rbind; [apply rmatmul; eassumption|]. intros p p' _ Ep Hp.
      assert (Sv : exists k, shape v' = [k; 1]).
      { unfold view in Ev. destruct (infer_shape _ _) as [s|] eqn:Ei; [|discriminate]. injection Ev as <-. cbn.
        apply infer_sound in Ei as [_ Ei]. inversion Ei as [|? ? ? ? _ E2]; subst. inversion E2 as [|? ? ? ? H1 E3]; subst. inversion E3; subst.
        destruct H1 as [H1| ->]; [discriminate|]. eexists. reflexivity. }
      destruct Sv as [k Sv]. destruct (matmul_last u' v' p' [k] 1 Ep Sv) as (bs & m & Sp).
      assert (Eq : s_quad_form mmT p M = quad_form p' (val M)).
      { apply rquad; [apply MM_SR; exact Hp| |exact RM]. intros dims. eapply rview_column; eauto. }
      rewrite Eq. destruct (quad_form p' (val M)); reflexivity.
  Qed.

  (** with the specification *)
  Lemma evolution_laid : forall n cs l psi, exact_svd svd -> torch_svd svd -> torch_layouts svd_lay ein_lay -> matrix_layouts lay ->
    Forall (ci_ok n) cs -> forallb (ci_TN n) cs = true -> Forall laid_out l -> is_mps n (map val l) psi -> nonzero n psi ->
    exists c l', circuit_of n cs = Ok c /\ s_TN_evolution svd svd_lay mmT ein_lay lay c l = Ok l' /\
      is_mps n (map val l') (act n (cs_op n cs) psi).
  Proof.
    intros n cs l psi He Hs Hl Hm Hcs HT Fl HM HZ.
    destruct (mps_product svd n cs (map val l) psi He Hcs HT HM HZ) as (c & l' & Ec & El & HM').
    exists c. pose proof (evolution_layout c l Hs Hl Hm Fl) as E. rewrite El in E.
    destruct (s_TN_evolution _ _ _ _ _ _ _) as [k|e]; [|discriminate]. injection E as <-. exists k. auto.
  Qed.
  Lemma contract_laid : forall n cs x, matrix_layouts lay -> Forall (ci_ok n) cs -> forallb (ci_con n) cs = true ->
    laid_out x -> shape (val x) = repeat 2 n -> wf (val x) ->
    exists c y, circuit_of n cs = Ok c /\ s_TN_contract_evolution mmT lay c x false = Ok y /\
      is_state n (repeat 2 n) (val y) (act n (cs_op n cs) (amp (val x))).
  Proof.
    intros n cs x Hm Hcs HT Hx Sx Wx. destruct (contraction_product n cs (val x) Hcs HT Sx Wx) as (c & s' & Ec & Es & HS).
    exists c. pose proof (contract_layout c x false Hm Hx) as E. rewrite Es in E.
    destruct (s_TN_contract_evolution _ _ _ _ _) as [k|e]; [|discriminate]. injection E as <-. exists k. auto.
  Qed.
  Lemma expectation_laid : forall n cs x psi m M b, exact_svd svd -> torch_svd svd -> torch_layouts svd_lay ein_lay -> matrix_layouts lay ->
    0 < n -> Forall (ci_ok n) cs -> laid_out x -> is_state n [1; 2 ^ n] (val x) psi -> laid_out m -> is_op n (val m) M ->
    (b = true -> nonzero n psi /\ forallb (ci_TN n) cs = true) ->
    exists c, circuit_of n cs = Ok c /\ s_cir_expectation svd svd_lay mmT ein_lay lay c x m b = Ok (expect n cs psi M).
  Proof.
    intros n cs x psi m M b He Hs Hl Hm Hn Hcs Hx HS Lm HM HT.
    destruct (expectation_value svd n cs (val x) psi (val m) M b He Hn Hcs HS HM HT) as (c & Ec & E).
    exists c. split; [exact Ec|]. rewrite <- E. destruct HS as (Sx & Wx & _).
    eapply (expectation_layout n cs); eauto. now apply exact_shapes. unfold wf. rewrite Wx, Sx. cbn [prodn]. lia.
  Qed.

  (** measuring *)
  Lemma measure_layout : forall n x ith, matrix_layouts lay -> laid_out x -> s_measure mmT lay n x ith = measure n (val x) ith.
  Proof. intros. apply rmeasure; auto using laid_SR. Qed.
  Lemma expval_layout : forall x M rho, laid_out x -> laid_out M ->
    rho = true \/ (exists m, shape (val x) = [m] \/ shape (val x) = [1; m] \/ shape (val x) = [m; 1]) ->
    s_expval mmT x M rho = expval (val x) (val M) rho.
  Proof.
    intros x M rho Hx HM H. apply rexpval; auto using laid_SR. intros ->. destruct H as [H|[m H]]; [discriminate|].
    apply rview; [auto using laid_SR|]. intros s _ Hp _. red in Hx.
    destruct H as [H|[H|H]]; rewrite H in *.
    - destruct (strd x) as [|a [|? ?]]; try discriminate. apply view_line1. exact Hp.
    - destruct (strd x) as [|a [|b [|? ?]]]; try discriminate. apply view_row. rewrite Hp. unfold prodn. cbn. lia.
    - destruct (strd x) as [|a [|b [|? ?]]]; try discriminate.
      apply view_fits; [reflexivity|exact Hp|]. cbn [combine rev app].
      apply (fits_cut 1 b [(m, a)] [] (rev s)); [reflexivity|]. rewrite <- (app_nil_r (rev s)).
      apply fits_cut; [rewrite prodn_rev, Hp; unfold prodn; cbn; lia|]. now constructor.
  Qed.
  Lemma swapped_expval : forall t x M, shape t = [2; 2] -> s_swap_TN_contract 2 (WList [0%Z; 1%Z]) (fresh t) false = Ok x ->
    s_expval mmT x M false = Err TorchError.
  Proof.
    intros [sh d] x M Ht H. cbn in Ht. subst sh. cbn in H. injection H as <-. reflexivity.
  Qed.
End C81.

(** the hypotheses are met together: an exact svd whose results, like the gate matrices, are stored column by column, and the
    sites of a GHZ state with the strides reversed *)
Definition col_lay (t : tensor) : list nat := rev (cstrides (rev (shape t))).
Definition bent_ghz : list stensor := map (fun t => mkS t (col_lay t)) ghz_mps.
Lemma triv_torch : torch_svd (SC := C_scalar) triv_svd.
Proof. intros c U S V H. unfold triv_svd in H. cbv zeta in H. injection H as <- <- <-. repeat split. Qed.
Lemma col_lay_meets : matrix_layouts col_lay.
Proof. intros t. unfold col_lay. rewrite rev_length, cstrides_length, rev_length. reflexivity. Qed.
Lemma bent_ghz_meets : Forall laid_out bent_ghz /\ map val bent_ghz = ghz_mps.
Proof.
  unfold bent_ghz. split; [|rewrite map_map; cbn [val]; apply map_id].
  apply Forall_map. apply Forall_forall. intros t _. red. cbn [strd val]. apply col_lay_meets.
Qed.
Lemma columns_case : exact_svd triv_svd /\ torch_svd (SC := C_scalar) triv_svd /\ torch_layouts (col_svd_lay (SC := C_scalar) triv_svd) col_ein_lay /\ matrix_layouts col_lay /\
  Forall (ci_ok 3) demo /\ forallb (ci_TN 3) demo = true /\ Forall laid_out bent_ghz /\ is_mps 3 (map val bent_ghz) ghz /\ nonzero 3 ghz.
Proof.
  split; [exact some_exact_svd|]. split; [exact triv_torch|]. split; [apply columns_meet|]. split; [exact col_lay_meets|].
  split; [exact demo_ok|]. split; [reflexivity|]. destruct bent_ghz_meets as [F E]. split; [exact F|]. rewrite E.
  split; [exact ghz_is_mps|exact ghz_nonzero].
Qed.
