(** Lemmas: the two gradients of circuits whose objects occur several times. *)
From Coq Require Import List ZArith QArith Reals Lra Lia Bool Arith.
From Verif Require Import PyBase Scalar CInst BigSum Index Tensor Spec SpecFacts GateSpec RunSpec LayerSpec MPSSpec CircuitSpec GradSpec
  QMath QTN QOperator QGates GateCalls QLayers LayerCalls GateFacts2 GateFacts4 GateFacts6 LayerFacts4 QCircuit QGradient CircuitFacts1 CircuitProofs GradFacts1 GradFacts2 GradFacts3 GradFacts4 GradProofs GradProofs2
  QShared SharedSpec SharedFacts.
Import ListNotations.
Local Close Scope Q_scope.
Local Close Scope R_scope.
Local Open Scope nat_scope.

(** ** building *)
Lemma value_add : forall h c v r o, value h c = Ok v -> at_ref h r = Ok o -> exists c', s_add h c r = Ok c' /\ value h c' = Ok (add v o) /\ s_gate c' = s_gate c ++ [r].
Proof.
  intros h c v r o V E. unfold s_add. rewrite E. cbn [bind]. eexists. split; [reflexivity|].
  unfold value in V. apply bind_inv in V. destruct V as (os & Em & V). injection V as <-.
  assert (Ea : mmap (at_ref h) (s_gate c ++ [r]) = Ok (os ++ [o])).
  { destruct (mmap_inv _ _ _ _ _ Em) as [L N]. apply mmap_intro; [rewrite !app_length; cbn; lia|]. intros k x y Hx Hy. destruct (Nat.lt_ge_cases k (length os)) as [Lt|Ge].
    - rewrite nth_error_app1 in Hx by lia. rewrite nth_error_app1 in Hy by lia. destruct (N k x Hx) as (b & Hb & Eb). congruence.
    - rewrite nth_error_app2 in Hx by lia. rewrite nth_error_app2 in Hy by lia. rewrite L in Hy. destruct (k - length (s_gate c)) as [|j]; cbn in Hx, Hy; [congruence|now destruct j]. }
  assert (Lo : length os = length (s_gate c)) by (apply (mmap_inv _ _ _ _ _ Em)).
  unfold add, value. cbn [c_N c_gate c_params c_num]. destruct (o_num_params o =? 0); cbn [s_gate s_N s_params s_num]; rewrite Ea; cbn [bind]; rewrite app_length; cbn [length]; rewrite Nat.add_sub, Lo; split; reflexivity.
Qed.
Lemma value_adds : forall h refs os c v, value h c = Ok v -> mmap (at_ref h) refs = Ok os ->
  exists c', mfold (s_add h) refs c = Ok c' /\ value h c' = Ok (fold_left add os v) /\ s_gate c' = s_gate c ++ refs.
Proof.
  intros h refs. induction refs as [|r refs IH]; intros os c v V E; cbn [mmap mfold] in *.
  - injection E as <-. exists c. split; [reflexivity|]. split; [exact V|now rewrite app_nil_r].
  - apply bind_inv in E. destruct E as (o & Eo & E). apply bind_inv in E. destruct E as (os' & Es & E). injection E as <-.
    destruct (value_add h c v r o V Eo) as (c1 & -> & V1 & G1). cbn [bind fold_left]. destruct (IH os' c1 _ V1 Es) as (c2 & E2 & V2 & G2). exists c2. split; [exact E2|]. split; [exact V2|].
    rewrite G2, G1, <- app_assoc. reflexivity.
Qed.
Lemma at_objs : forall n xs refs, 0 < n -> (forall r, In r refs -> r < length xs) -> mmap (at_ref (map (oobj n) xs)) refs = Ok (map (oobj n) (meant xs refs)).
Proof. intros n xs refs Hn W. unfold meant. rewrite map_map. apply mmap_Ok_ext. intros r Hr. apply at_obj; [exact Hn|now apply W]. Qed.
Lemma built : forall n xs refs, 0 < n -> Forall (ci_ok n) xs -> (forall r, In r refs -> r < length xs) ->
  let cs := meant xs refs in
  mmap (obuild n) xs = Ok (map (oobj n) xs) /\
  mfold (s_add (map (oobj n) xs)) refs (s_Circuit n) = Ok (sobj n refs (c_params (circ n cs)) (c_num (circ n cs))) /\
  value (map (oobj n) xs) (sobj n refs (c_params (circ n cs)) (c_num (circ n cs))) = Ok (circ n cs).
Proof.
  intros n xs refs Hn OK W cs. split; [|].
  - apply mmap_Ok_ext. intros x Hx. apply obuild_ok. rewrite Forall_forall in OK. now apply OK.
  - destruct (value_adds (map (oobj n) xs) refs _ (s_Circuit n) (Circuit n) eq_refl (at_objs n xs refs Hn W)) as (c & E & V & G). fold cs in V. fold (circ n cs) in V.
    assert (C : c = sobj n refs (c_params (circ n cs)) (c_num (circ n cs))).
    { destruct (value_inv _ _ _ V) as (HN & HP & HK & _). rewrite circ_N in HN. destruct c as [N g ps k]. cbn in HN, HP, HK, G. unfold sobj. now subst. }
    subst c. split; [exact E|exact V].
Qed.
Lemma meant_ok : forall n xs refs, Forall (ci_ok n) xs -> (forall r, In r refs -> r < length xs) -> Forall (ci_ok n) (meant xs refs).
Proof. intros n xs refs OK W. apply Forall_forall. intros y Hy. apply in_map_iff in Hy. destruct Hy as (r & <- & Hr). rewrite Forall_forall in OK. apply OK, nth_In. now apply W. Qed.
Lemma meant_nth : forall xs refs k r, nth_error refs k = Some r -> nth_error (meant xs refs) k = Some (the_op xs r).
Proof. intros xs refs k r H. unfold meant. now rewrite nth_error_map, H. Qed.

(** ** the shift rule *)
Lemma flat_map_nth : forall B (f : nat -> list B) l, flat_map (fun k => f (nth k l 0)) (seq 0 (length l)) = flat_map f l.
Proof.
  intros B f l. induction l as [|a l IH]; [reflexivity|]. cbn [length seq flat_map nth]. f_equal. rewrite <- seq_shift, flat_map_concat_map, map_map, <- flat_map_concat_map. exact IH.
Qed.
Theorem shared_value : forall svd n xs refs t psi m M, exact_svd svd -> 0 < n -> Forall (ci_ok n) xs -> (forall r, In r refs -> r < length xs) ->
  existsb matrix_only (meant xs refs) = true \/ (forallb (ci_TN n) (meant xs refs) = true /\ nonzero n psi) -> is_state n [1; 2 ^ n] t psi -> is_op n m M ->
  exists h c, mmap (obuild n) xs = Ok h /\ mfold (s_add h) refs (s_Circuit n) = Ok c /\ s_cal_params_grad svd t m c h =
    Ok (flat_map (fun r => map (fun i => let y := nth i (ci_angles (the_op xs r)) 0%R in
          (/ 2 * (expect n (meant (with_angle xs r i (y + / 2 * PI)) refs) psi M - expect n (meant (with_angle xs r i (y - / 2 * PI)) refs) psi M))%R)
          (seq 0 (length (ci_angles (the_op xs r))))) refs, h).
Proof.
  intros svd n xs refs t psi m M Hs Hn OK W HC Ht Hm. destruct (built n xs refs Hn OK W) as (E1 & E2 & V). cbv zeta in *. set (cs := meant xs refs) in *.
  do 2 eexists. split; [exact E1|]. split; [exact E2|]. unfold s_cal_params_grad. cbn [s_gate sobj s_num].
  pose proof (meant_ok n xs refs OK W) as OC. fold cs in OC. pose proof (circ_recorded n cs OC) as HR. apply can_split in HC.
  change (flat_map _ refs) with (flat_map (s_local n psi M refs xs) refs).
  assert (F : forall l g, (forall k, In k l -> k < length refs) -> mfold (s_shift_gate svd t m (sobj n refs (c_params (circ n cs)) (c_num (circ n cs)))) l (map (oobj n) xs, g) =
    Ok (map (oobj n) xs, g ++ flat_map (fun k => s_local n psi M refs xs (nth k refs 0)) l)).
  { induction l as [|k l IH]; intros g Hl; cbn [mfold flat_map]; [now rewrite app_nil_r|].
    assert (Hk : nth_error refs k = Some (nth k refs 0)) by (apply nth_error_nth'; apply Hl; now left).
    rewrite (s_gate_ok svd Hs n Hn t m psi M Ht Hm refs _ _ xs W OK HC k (nth k refs 0) Hk).
    - cbn [bind]. rewrite IH by (intros j Hj; apply Hl; now right). now rewrite <- app_assoc.
    - intros NA. apply (HR k (the_op xs (nth k refs 0))); [|exact NA]. now apply meant_nth. }
  rewrite F by (intros k Hk; apply in_seq in Hk; lia). cbn [bind app]. rewrite flat_map_nth.
  assert (L : length (flat_map (s_local n psi M refs xs) refs) = c_num (circ n cs)).
  { rewrite circ_num by exact OC. unfold cs, meant, cs_angles. clear. induction refs as [|r l IH]; [reflexivity|]. cbn [flat_map map]. rewrite !app_length.
    assert (X : forall R' l', length (flat_map (s_local n psi M R' xs) l') = length (flat_map ci_angles (map (the_op xs) l'))).
    { intros R' l'. induction l' as [|r' l' IH']; [reflexivity|]. cbn [flat_map map]. rewrite !app_length, IH'. unfold s_local. now rewrite map_length, seq_length. }
    rewrite X. unfold s_local. now rewrite map_length, seq_length. }
  rewrite L. unfold assert_. now rewrite Nat.eqb_refl.
Qed.

(** ** the adjoint method *)
Section Adj.
  Variable svd : tensor -> tensor * tensor * tensor.
  Variables (im : list tensor) (sd : mid) (c : scircuit) (idx r : nat).
  Hypothesis Hidx : nth_error (s_gate c) idx = Some r.
  Definition close (h0 : heap) (v0 : circuit) (h : heap) (v : circuit) : Prop :=
    (length h = length h0 /\ forall k, k <> r -> nth_error h k = nth_error h0 k) /\
    (length (c_gate v) = length (c_gate v0) /\ forall k, k <> idx -> nth_error (c_gate v) k = nth_error (c_gate v0) k) /\
    (c_N v = c_N v0 /\ c_params v = c_params v0 /\ c_num v = c_num v0) /\
    exists o, nth_error h r = Some o /\ nth_error (c_gate v) idx = Some o.
  Lemma close_refl : forall h v, value h c = Ok v -> close h v h v.
  Proof. intros h v V. destruct (value_inv c h v V) as (_ & _ & _ & _ & G). destruct (G idx r Hidx) as (o & A & B). repeat split; auto. eauto. Qed.
  Lemma close_update : forall h0 v0 h v p v', close h0 v0 h v -> update_gate v idx p = Ok v' -> exists h', s_update_gate h c idx p = Ok h' /\ close h0 v0 h' v'.
  Proof.
    intros h0 v0 h v p v' ((L1 & F1) & (L2 & F2) & (N1 & N2 & N3) & o & A & B) E. unfold update_gate in E. rewrite B in E. apply bind_inv in E. destruct E as (o' & E & X). injection X as <-.
    unfold s_update_gate, s_update, at_ref. rewrite Hidx, A. cbn [bind]. rewrite E. cbn [bind]. eexists. split; [reflexivity|].
    assert (Lr : r < length h) by (apply nth_error_Some; congruence). assert (Li : idx < length (c_gate v)) by (apply nth_error_Some; congruence).
    unfold close. cbn [c_gate c_N c_params c_num]. rewrite !set_nth_length. repeat split; auto.
    - intros k Hk. rewrite nth_error_set. destruct (Nat.eqb_spec r k) as [D|D]; [congruence|]. cbn [andb]. auto.
    - intros k Hk. rewrite nth_error_set. destruct (Nat.eqb_spec idx k) as [D|D]; [congruence|]. cbn [andb]. auto.
    - exists o'. rewrite !nth_error_set, !Nat.eqb_refl. apply Nat.ltb_lt in Lr, Li. rewrite Lr, Li. auto.
  Qed.
  Lemma close_overlap : forall h0 v0 h v, length (c_gate v0) = length (s_gate c) -> close h0 v0 h v -> s_overlap_at svd c im sd h idx = overlap_at svd im sd v idx.
  Proof.
    intros h0 v0 h v L0 ((L1 & F1) & (L2 & F2) & _ & o & A & B). unfold s_overlap_at, overlap_at, at_ref. rewrite Hidx, A, B. cbn [bind]. now rewrite L2, L0.
  Qed.
  Lemma close_entries : forall l h0 v0 h v p g v' p' g', length (c_gate v0) = length (s_gate c) -> close h0 v0 h v ->
    mfold (grad2_entry svd im sd idx) l (v, p, g) = Ok (v', p', g') -> exists h', mfold (s_grad2_entry svd c im sd idx) l (h, p, g) = Ok (h', p', g') /\ close h0 v0 h' v'.
  Proof.
    induction l as [|i l IH]; intros h0 v0 h v p g v' p' g' L0 C E; cbn [mfold] in *.
    - injection E as <- <- <-. eauto.
    - apply bind_inv in E. destruct E as (((v1, p1), g1) & E1 & E). unfold grad2_entry in E1. apply bind_inv in E1. destruct E1 as (va & Ea & E1). apply bind_inv in E1. destruct E1 as (e & Ee & E1).
      apply bind_inv in E1. destruct E1 as (vb & Eb & E1). injection E1 as <- <- <-.
      destruct (close_update _ _ _ _ _ _ C Ea) as (ha & Ha & Ca). destruct (close_update _ _ _ _ _ _ Ca Eb) as (hb & Hb & Cb).
      unfold s_grad2_entry at 1. rewrite Ha. cbn [bind]. rewrite (close_overlap _ _ _ _ L0 Ca), Ee. cbn [bind]. rewrite Hb. cbn [bind]. eapply IH; eauto.
  Qed.
  Lemma close_gate : forall h v g v' g', value h c = Ok v -> grad2_gate svd im sd (v, g) idx = Ok (v', g') ->
    exists h', s_grad2_gate svd c im sd (h, g) idx = Ok (h', g') /\ close h v h' v'.
  Proof.
    intros h v g v' g' V E. pose proof (close_refl h v V) as C. destruct (value_inv c h v V) as (_ & HP & _ & L & _).
    pose proof C as (_ & _ & _ & o & A & B). unfold grad2_gate in E. unfold s_grad2_gate, at_ref. rewrite Hidx, A. cbn [bind]. rewrite B in E.
    destruct (o_num_params o =? 0); [injection E as <- <-; eauto|]. rewrite <- HP. apply bind_inv in E. destruct E as (p & Ep & E). rewrite Ep. cbn [bind].
    destruct p as [[x|l]|]; [| |discriminate].
    - apply bind_inv in E. destruct E as (va & Ea & E). apply bind_inv in E. destruct E as (e & Ee & E). apply bind_inv in E. destruct E as (vb & Eb & E). injection E as <- <-.
      destruct (close_update _ _ _ _ _ _ C Ea) as (ha & Ha & Ca). destruct (close_update _ _ _ _ _ _ Ca Eb) as (hb & Hb & Cb).
      rewrite Ha. cbn [bind]. rewrite (close_overlap _ _ _ _ L Ca), Ee. cbn [bind]. rewrite Hb. cbn [bind]. eauto.
    - apply bind_inv in E. destruct E as (((v1, p1), g1) & E1 & E). injection E as <- <-. destruct (close_entries _ _ _ _ _ _ _ _ _ _ L C E1) as (h1 & H1 & C1).
      rewrite H1. cbn [bind]. eauto.
  Qed.
End Adj.
Lemma nth_error_ext' : forall A (l l' : list A), (forall k, nth_error l k = nth_error l' k) -> l = l'.
Proof.
  induction l as [|a l IH]; intros [|b l'] H; [reflexivity|specialize (H 0); discriminate|specialize (H 0); discriminate|].
  f_equal; [specialize (H 0); cbn in H; congruence|]. apply IH. intros k. exact (H (S k)).
Qed.
Lemma close_off : forall svd im sd c l h v g v' g', NoDup l -> (forall k, In k l -> k < length (s_gate c)) -> value h c = Ok v -> (forall k, In k l -> nth_error (c_gate v') k = nth_error (c_gate v) k) ->
  mfold (grad2_gate svd im sd) l (v, g) = Ok (v', g') -> mfold (s_grad2_gate svd c im sd) l (h, g) = Ok (h, g').
Proof.
  intros svd im sd c l.
  assert (OFF : forall l v g v' g', (forall k, In k l -> k < length (c_gate v)) -> mfold (grad2_gate svd im sd) l (v, g) = Ok (v', g') ->
    forall k, ~ In k l -> nth_error (c_gate v') k = nth_error (c_gate v) k).
  { clear l. induction l as [|a l IH]; intros v g v' g' B E k Hk; cbn [mfold] in E; [injection E as <- _; reflexivity|].
    apply bind_inv in E. destruct E as ((v1, g1) & E1 & E).
    set (cv := mkS (c_N v) (seq 0 (length (c_gate v))) (c_params v) (c_num v)).
    assert (V : value (c_gate v) cv = Ok v).
    { apply value_intro; cbn; auto; [now rewrite seq_length|]. intros j q o Hj Ho. assert (j < length (c_gate v)) by (apply nth_error_Some; congruence).
      rewrite nth_error_nth' with (d := 0) in Hj by (now rewrite seq_length). rewrite seq_nth in Hj by assumption. injection Hj as <-. exact Ho. }
    assert (Ia : nth_error (s_gate cv) a = Some a).
    { cbn. rewrite nth_error_nth' with (d := 0) by (rewrite seq_length; apply B; now left). rewrite seq_nth by (apply B; now left). reflexivity. }
    destruct (close_gate svd im sd cv a a Ia _ _ _ _ _ V E1) as (h1 & _ & _ & (L2 & F2) & _).
    rewrite (IH v1 g1 v' g'); [apply F2; intros ->; apply Hk; now left|intros j Hj; rewrite L2; apply B; now right|exact E|intros X; apply Hk; now right]. }
  induction l as [|a l IH]; intros h v g v' g' ND B V S E; cbn [mfold] in *; [injection E as _ <-; reflexivity|].
  apply bind_inv in E. destruct E as ((v1, g1) & E1 & E). inversion ND as [|? ? Na ND']; subst.
  assert (Ia : exists r, nth_error (s_gate c) a = Some r) by (destruct (nth_error (s_gate c) a) eqn:X; [eauto|apply nth_error_None in X; specialize (B a (or_introl eq_refl)); lia]).
  destruct Ia as (r & Ia). destruct (close_gate svd im sd c a r Ia _ _ _ _ _ V E1) as (h1 & H1 & (L1 & F1) & (L2 & F2) & (N1 & N2 & N3) & o & A1 & A2).
  destruct (value_inv c h v V) as (_ & _ & _ & LV & GV).
  assert (Ga : nth_error (c_gate v1) a = nth_error (c_gate v) a).
  { rewrite <- (S a (or_introl eq_refl)). symmetry. apply (OFF l v1 g1 v' g'); auto. intros k Hk. rewrite L2, LV. apply B. now right. }
  assert (v1 = v) by (destruct v as [N gs ps kn], v1 as [N' gs' ps' kn']; cbn in *; subst; f_equal; apply nth_error_ext'; intros k; destruct (Nat.eq_dec k a) as [->|D]; auto). subst v1.
  assert (h1 = h). { apply nth_error_ext'. intros k. destruct (Nat.eq_dec k r) as [->|D]; [|auto]. destruct (GV a r Ia) as (o2 & X & Y). congruence. } subst h1.
  rewrite H1. cbn [bind]. apply (IH h v g1 v' g'); [exact ND'|intros k Hk; apply B; now right|exact V|intros k Hk; apply S; now right|exact E].
Qed.
Theorem shared_adjoint_sim : forall svd t c h v sd g, value h c = Ok v -> cal_params_grad2 svd t v sd = Ok (g, v) -> s_cal_params_grad2 svd t c h sd = Ok (g, h).
Proof.
  intros svd t c h v sd g V E. destruct (value_inv c h v V) as (HN & _ & HK & L & _). unfold cal_params_grad2 in E. unfold s_cal_params_grad2. rewrite <- HN.
  apply bind_inv in E. destruct E as (im & Ei & E). rewrite Ei. cbn [bind]. apply bind_inv in E. destruct E as ((v1, g1) & E1 & E).
  unfold assert_ in E. destruct (length g1 =? c_num v1) eqn:X; [|discriminate]. injection E as -> ->. rewrite L in E1.
  rewrite (close_off svd im sd c _ h v [] v g (seq_NoDup _ _)); auto; [|intros k Hk; apply in_seq in Hk; lia]. cbn [bind]. unfold assert_. now rewrite <- HK, X.
Qed.
Theorem shared_adjoint : forall svd n xs refs t psi mo, exact_svd svd -> 0 < n -> Forall (ci_ok n) xs -> (forall r, In r refs -> r < length xs) -> refs <> [] ->
  forallb (ci_TN n) (meant xs refs) = true -> forallb pure_rotation (meant xs refs) = true ->
  ci_ok n mo -> ci_TN n mo = true -> hermitian n (ci_op n mo) -> is_state n [1; 2 ^ n] t psi -> nonzero n psi ->
  exists h c o sd sv g, mmap (obuild n) xs = Ok h /\ mfold (s_add h) refs (s_Circuit n) = Ok c /\ obuild n mo = Ok o /\ s_save_mid_MPS svd t c h o = Ok (sd, sv) /\
    s_cal_params_grad2 svd t c h sd = Ok (g, h) /\ is_gradient n (meant xs refs) psi (ci_op n mo) g.
Proof.
  intros svd n xs refs t psi mo Hs Hn OK W NE HT HP Hm Tm HM Ht HZ. destruct (built n xs refs Hn OK W) as (E1 & E2 & V). cbv zeta in *.
  assert (NM : meant xs refs <> []) by (destruct refs; [congruence|discriminate]).
  destruct (adjoint_gradient svd n (meant xs refs) t psi mo Hs Hn (meant_ok n xs refs OK W) HT NM HP Hm Tm HM Ht HZ) as (c & o & sd & sv & g & D1 & D2 & D3 & _ & D5 & D6).
  rewrite circuit_of_ok in D1 by (now apply meant_ok). injection D1 as <-.
  do 2 eexists. exists o, sd, sv, g. split; [exact E1|]. split; [exact E2|]. split; [exact D2|]. split; [unfold s_save_mid_MPS; rewrite V; exact D3|].
  split; [eapply shared_adjoint_sim; eauto|exact D6].
Qed.
