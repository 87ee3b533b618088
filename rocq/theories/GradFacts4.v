(** Lemmas: what save_mid_MPS stores and cal_params_grad2 computes. *)
From Coq Require Import List ZArith QArith Reals Lra Lia ZifyBool Bool Arith Setoid Morphisms.
From Verif Require Import PyBase Scalar CInst BigSum Index Tensor TensorFacts Spec SpecFacts QMath QTN QOperator
  ExpandFacts ExpandFacts2 ContractFacts ContractFacts2 GateSpec QGates GateCalls GateFacts GateFacts2 GateFacts3 GateFacts4 GateFacts5 GateFacts6 GateProofs RunSpec
  MPSSpec MPSFacts1 MPSFacts2 MPSFacts4 MPSFacts5 MPSFacts6 MPSFacts8 MPSFacts9 LayerSpec QLayers LayerCalls LayerFacts1 LayerFacts2 LayerFacts3 LayerFacts4 LayerProofs
  CircuitSpec QCircuit StateFacts QGradient CircuitFacts1 CircuitProofs GradFacts1 GradFacts2 GradFacts3.
Import ListNotations.
Local Close Scope Q_scope.
Local Close Scope R_scope.
Local Open Scope nat_scope.

Lemma o_dagger_ok : forall n c, ci_ok n c -> ci_TN n c = true -> exists d, o_dagger (oobj n c) = Ok (Some (oobj n d)) /\ ci_ok n d /\ ci_TN n d = true /\
  op_eq n (ci_op n d) (adj_op (ci_op n c)).
Proof.
  intros n [g|l] H T; cbn [ci_ok ci_TN oobj o_dagger ci_op] in *.
  - exists (CG (gi_inv g)). rewrite operation_dagger_obj. cbn [bind ci_ok ci_TN oobj ci_op]. split; [reflexivity|]. split; [now apply gi_inv_ok_ok|]. split; [now destruct g|now apply gi_inv_ok].
  - rewrite layer_dagger_ok by exact H. cbn [bind]. assert (X : exists l', li_inv l = Some l') by (destruct l; cbn in *; eauto; discriminate). destruct X as (l' & E). rewrite E.
    exists (CL l'). cbn [oobj ci_ok ci_TN ci_op]. split; [reflexivity|]. split; [eapply li_inv_ok; eauto|]. split; [|now apply li_inv_op].
    destruct l; cbn in *; try discriminate; injection E as <-; exact T.
Qed.
Lemma o_TN_ok : forall svd n c l psi, exact_svd svd -> ci_ok n c -> ci_TN n c = true -> is_mps n l psi -> nonzero n psi ->
  exists l', o_TN_operation svd (oobj n c) l = Ok l' /\ is_mps n l' (act n (ci_op n c) psi).
Proof.
  intros svd n c l psi Hs H T M Z. destruct c as [g|y]; cbn [o_TN_operation oobj ci_op ci_TN ci_ok] in *.
  - destruct (TN_operation_obj svd n g l _ Hs H T M Z) as (l' & E & M' & _). eauto.
  - apply layer_TN_ok; auto.
Qed.
Lemma num_zero : forall n c, ci_ok n c -> (o_num_params (oobj n c) =? 0) = match ci_angles c with [] => true | _ => false end.
Proof. intros n c H. rewrite (proj1 (o_angles n c H)). now destruct (ci_angles c). Qed.
Lemma ci_nonzero : forall n c f, ci_ok n c -> nonzero n f -> nonzero n (act n (ci_op n c) f).
Proof. intros n c f H. apply unitary_nonzero. now apply ci_unitary. Qed.
Lemma nonzero_st : forall n (f g : qstate), st_eq n f g -> nonzero n f -> nonzero n g.
Proof. intros n f g E N. unfold nonzero in *. now rewrite <- E. Qed.

Lemma firstn_snoc_nth : forall A k (l : list A) x, nth_error l k = Some x -> firstn (S k) l = firstn k l ++ [x].
Proof. intros A k. induction k as [|k IH]; intros [|y l] x E; try discriminate; cbn in *; [congruence|]. now rewrite <- (IH l x E). Qed.
Lemma skipn_cons_nth : forall A k (l : list A) x, nth_error l k = Some x -> skipn k l = x :: skipn (S k) l.
Proof. intros A k. induction k as [|k IH]; intros [|y l] x E; try discriminate; cbn in *; [congruence|]. now apply IH. Qed.
Lemma py_nth_last : forall A (l : list A) x, py_nth (l ++ [x]) (Z.of_nat (length (l ++ [x])) - 1) = Ok x.
Proof.
  intros A l x. rewrite app_length. cbn [length]. replace (Z.of_nat (length l + 1) - 1)%Z with (Z.of_nat (length l)) by lia.
  rewrite (py_nth_nat _ _ _ x) by (rewrite app_length; cbn; lia). rewrite app_nth2, Nat.sub_diag by lia. reflexivity.
Qed.

Section Run2.
  Variable svd : tensor -> tensor * tensor * tensor.
  Hypothesis Hs : exact_svd svd.
  Variable n : nat.
  Hypothesis Hn : 0 < n.
  Variable psi : @qstate C_scalar.
  Hypothesis HZ : nonzero n psi.

  Section Save.
    Variable cs : list ci.
    Hypothesis H : Forall (ci_ok n) cs.
    Hypothesis HT : forallb (ci_TN n) cs = true.
    Variable mo : ci.
    Hypothesis Hm : ci_ok n mo.
    Hypothesis Tm : ci_TN n mo = true.
    (** the state before operation k; the state of the backward pass after operation k has been met *)
    Definition phi (k : nat) : qstate := act n (cs_op n (firstn k cs)) psi.
    Definition chi (k : nat) : qstate := act n (adj_op (cs_op n (skipn k cs))) (act n (ci_op n mo) (act n (cs_op n cs) psi)).
    Lemma cs_get : forall k x, nth_error cs k = Some x -> ci_ok n x /\ ci_TN n x = true.
    Proof.
      intros k x E. apply nth_error_In in E. rewrite Forall_forall in H. rewrite forallb_forall in HT. auto.
    Qed.
    Lemma phi_S : forall k x, nth_error cs k = Some x -> st_eq n (act n (ci_op n x) (phi k)) (phi (S k)).
    Proof.
      intros k x E. unfold phi. rewrite (firstn_snoc_nth _ k cs x E). symmetry. apply act_snoc.
    Qed.
    Lemma phi_nonzero : forall k, nonzero n (phi k).
    Proof. intros k. apply unitary_nonzero; [|exact HZ]. apply cs_unitary. rewrite <- (firstn_skipn k cs) in H. apply Forall_app in H. tauto. Qed.
    Lemma chi_nonzero : forall k, nonzero n (chi k).
    Proof.
      intros k. apply unitary_nonzero; [|apply ci_nonzero; [exact Hm|apply unitary_nonzero; [now apply cs_unitary|exact HZ]]].
      apply unitary_adj, cs_unitary. rewrite <- (firstn_skipn k cs) in H. apply Forall_app in H. tauto.
    Qed.
    Lemma chi_S : forall k x d, nth_error cs k = Some x -> op_eq n (ci_op n d) (adj_op (ci_op n x)) -> st_eq n (act n (ci_op n d) (chi (S k))) (chi k).
    Proof.
      intros k x d E D. unfold chi. rewrite (skipn_cons_nth _ k cs x E). rewrite <- act_mul. apply act_proper; [|reflexivity].
      change (x :: skipn (S k) cs) with ([x] ++ skipn (S k) cs). rewrite cs_op_app, adj_mul, D. apply mul_op_proper; [|reflexivity].
      unfold cs_op. cbn [fold_left]. rewrite mul_op_id_r. reflexivity.
    Qed.
    Definition fsaved (sd : mid) (j : nat) : Prop :=
      forall k x, k < j -> nth_error cs (S k) = Some x -> ci_angles x <> [] -> exists l, dict_get sd k = Ok l /\ is_mps n l (phi (S k)).
    Lemma forward_ok : forall d j l sd, j + d = length cs -> is_mps n l (phi j) -> fsaved sd j ->
      exists l' sd', mfold (forward_step svd (map (oobj n) cs)) (seq j d) (l, sd) = Ok (l', sd') /\ is_mps n l' (phi (length cs)) /\ fsaved sd' (length cs).
    Proof.
      induction d as [|d IH]; intros j l sd E M F; cbn [seq mfold].
      - exists l, sd. rewrite Nat.add_0_r in E. subst j. auto.
      - destruct (nth_error cs j) as [x|] eqn:X; [|apply nth_error_None in X; lia]. destruct (cs_get j x X) as [Hx Tx].
        destruct (o_TN_ok svd n x l (phi j) Hs Hx Tx M (phi_nonzero j)) as (l1 & E1 & M1).
        assert (M2 : is_mps n l1 (phi (S j))) by (eapply is_mps_st; [exact M1|now apply phi_S]).
        unfold forward_step at 1. rewrite nth_error_map, X. cbn [option_map]. rewrite ci_con_support by (now apply ci_TN_con). rewrite E1. cbn [bind].
        rewrite nth_error_map. apply IH; [lia|exact M2|]. intros k y Hk Y A. destruct (Nat.eq_dec k j) as [->|Nk].
        + rewrite Y. cbn [option_map]. destruct (cs_get (S j) y Y) as [Hy _]. rewrite num_zero by exact Hy. destruct (ci_angles y); [congruence|].
          exists l1. split; [apply dict_get_set_same|exact M2].
        + destruct (F k y) as (l2 & G & M3); [lia|exact Y|exact A|]. exists l2. split; [|exact M3].
          destruct (nth_error cs (S j)); cbn [option_map]; [destruct (_ =? 0)|]; auto. rewrite dict_get_set_other by lia. exact G.
    Qed.
    Definition bsaved (sd : mid) (j : nat) : Prop :=
      forall k x, j <= S k -> nth_error cs k = Some x -> ci_angles x <> [] -> exists l, dict_get sd (2 * length cs - k - 2) = Ok l /\ is_mps n l (chi (S k)).
    Lemma backward_ok : forall j l sd, j <= length cs -> is_mps n l (chi j) -> fsaved sd (length cs - 1) -> bsaved sd j ->
      exists l' sd', mfold (backward_step svd (map (oobj n) cs)) (rev (seq 0 j)) (l, sd) = Ok (l', sd') /\ fsaved sd' (length cs - 1) /\ bsaved sd' 0.
    Proof.
      induction j as [|j IH]; intros l sd E M F B.
      - exists l, sd. cbn [seq rev mfold]. auto.
      - rewrite seq_S, rev_app_distr. cbn [rev app Nat.add mfold].
        destruct (nth_error cs j) as [x|] eqn:X; [|apply nth_error_None in X; lia]. destruct (cs_get j x X) as [Hx Tx].
        destruct (o_dagger_ok n x Hx Tx) as (d & D1 & D2 & D3 & D4).
        destruct (o_TN_ok svd n d l (chi (S j)) Hs D2 D3 M (chi_nonzero (S j))) as (l1 & E1 & M1).
        assert (M2 : is_mps n l1 (chi j)) by (eapply is_mps_st; [exact M1|now apply (chi_S j x)]).
        unfold backward_step at 1. rewrite nth_error_map, X. cbn [option_map]. rewrite D1. cbn [bind]. rewrite ci_con_support by (now apply ci_TN_con). rewrite E1. cbn [bind].
        rewrite map_length, nth_error_map. apply IH; [lia|exact M2| |].
        + intros k y Hk Y A. destruct (F k y Hk Y A) as (l2 & G & M3). exists l2. split; [|exact M3].
          destruct (j =? 0); [exact G|]. destruct (nth_error cs (j - 1)); cbn [option_map]; [destruct (_ =? 0)|]; auto. rewrite dict_get_set_other by lia. exact G.
        + intros k y Hk Y A. destruct (Nat.eq_dec (S k) j) as [<-|Nk].
          * cbn [Nat.eqb Nat.sub]. rewrite Nat.sub_0_r, Y. cbn [option_map]. destruct (cs_get k y Y) as [Hy _]. rewrite num_zero by exact Hy.
            destruct (ci_angles y); [congruence|]. exists l1. split; [|exact M2].
            replace (2 * length cs - k - 2) with (2 * length cs - S k - 1) by lia. apply dict_get_set_same.
          * destruct (B k y) as (l2 & G & M3); [lia|exact Y|exact A|]. exists l2. split; [|exact M3].
            destruct (j =? 0) eqn:J0; [exact G|]. apply Nat.eqb_neq in J0. destruct (nth_error cs (j - 1)); cbn [option_map]; [destruct (_ =? 0)|]; auto.
            rewrite dict_get_set_other; [exact G|]. assert (k < length cs) by (apply nth_error_Some; congruence). lia.
    Qed.
    Lemma save_ok : forall t ps k, cs <> [] -> is_state n [1; 2 ^ n] t psi -> exists sd sv, save_mid_MPS svd t (cobj n cs ps k) (oobj n mo) = Ok (sd, sv) /\
      is_state n [1; 2 ^ n] sv (act n (cs_op n cs) psi) /\ fsaved sd (length cs - 1) /\ bsaved sd 0.
    Proof.
      intros t ps k NE Ht. destruct (round_trip svd n t psi Hs Hn Ht HZ) as (l0 & _ & E0 & M0 & _). unfold save_mid_MPS. cbn [c_N cobj c_gate]. rewrite E0. cbn [bind].
      assert (L0 : length l0 = n) by apply M0. rewrite L0, Nat.eqb_refl. cbn [negb raise_if]. rewrite map_length.
      destruct (forward_ok (length cs) 0 l0 []) as (l1 & sd1 & E1 & M1 & F1); [lia|eapply is_mps_st; [exact M0|unfold phi; cbn [firstn]; symmetry; apply act_id]|intros ? ? ?; lia|].
      match goal with |- context [mfold (forward_step svd (map (oobj n) cs)) ?l ?s] => replace (mfold (forward_step svd (map (oobj n) cs)) l s) with (@Ok (list tensor * mid) (l1, sd1)) by (symmetry; exact E1) end. cbn [bind]. destruct (mps_amplitudes n l1 _ Hn M1) as (sv & _ & V1 & V2 & _). rewrite V1. cbn [bind].
      destruct (o_TN_ok svd n mo l1 _ Hs Hm Tm M1 (phi_nonzero _)) as (l2 & E2 & M2). rewrite E2. cbn [bind].
      assert (X : exists xs x, cs = xs ++ [x]) by (destruct (exists_last NE) as (xs & x & ->); eauto). destruct X as (xs & x & X).
      assert (NX : nth_error cs (length cs - 1) = Some x) by (rewrite X, app_length; cbn [length]; replace (length xs + 1 - 1) with (length xs) by lia; apply nth_error_mid).
      assert (P : py_nth (map (oobj n) cs) (Z.of_nat (length cs) - 1) = Ok (oobj n x)).
      { rewrite X, map_app, <- (map_length (oobj n) (xs ++ [x])), map_app. apply (py_nth_last _ (map (oobj n) xs)). }
      rewrite P. cbn [bind]. destruct (cs_get _ _ NX) as [Hx _]. rewrite num_zero by exact Hx.
      assert (LC : length cs = S (length cs - 1)) by (rewrite X, app_length; cbn [length]; lia).
      assert (Mc : is_mps n l2 (chi (length cs))).
      { eapply is_mps_st; [exact M2|]. unfold chi, phi. rewrite firstn_all, skipn_all. cbn [cs_op fold_left]. rewrite adj_id, act_id. reflexivity. }
      set (sd2 := if match ci_angles x with [] => true | _ => false end then sd1 else dict_set sd1 (length cs - 1) l2).
      destruct (backward_ok (length cs) l2 sd2) as (l3 & sd3 & E3 & F3 & B3); [lia|exact Mc| | |].
      - intros i y Hi Y A. destruct (F1 i y) as (l & G & M); [lia|exact Y|exact A|]. exists l. split; [|exact M]. unfold sd2. destruct (ci_angles x); [exact G|].
        rewrite dict_get_set_other by lia. exact G.
      - intros i y Hi Y A. assert (i < length cs) by (apply nth_error_Some; congruence). assert (i = length cs - 1) by lia. subst i. rewrite NX in Y. injection Y as <-.
        exists l2. split; [|now rewrite <- LC]. unfold sd2. destruct (ci_angles x); [congruence|]. replace (2 * length cs - (length cs - 1) - 2) with (length cs - 1) by lia. apply dict_get_set_same.
      - match goal with |- context [mfold (backward_step svd (map (oobj n) cs)) ?l ?s] => replace (mfold (backward_step svd (map (oobj n) cs)) l s) with (@Ok (list tensor * mid) (l3, sd3)) by (symmetry; exact E3) end. cbn [bind snd]. exists sd3, sv. split; [reflexivity|]. split; [|split; assumption].
        unfold phi in V2. now rewrite firstn_all in V2.
    Qed.
  End Save.

  (** reading the saved states *)
  Lemma minus_overlap_ok : forall f g t1 t2, is_state n [1; 2 ^ n] t1 f -> is_state n [1; 2 ^ n] t2 g -> minus_overlap t2 t1 = Ok (- Re (inner n g f))%R.
  Proof.
    intros f g t1 t2 H1 H2. assert (W : wf t1) by (unfold wf; destruct H1 as (S & L & _); rewrite S; cbn [prodn]; lia). unfold minus_overlap.
    rewrite (view_col n _ t1 f H1 W). cbn [bind]. apply state_row in H2. subst t2. fold (row n g). rewrite conj_row, row_col. cbn [bind data]. reflexivity.
  Qed.

  Variable t : tensor.
  Hypothesis Ht : is_state n [1; 2 ^ n] t psi.
  (** the saved states: [ph k] the state before operation k, [ch k] the state it is compared with *)
  Variables (ph ch : nat -> @qstate C_scalar) (num : nat) (sd : mid).
  Hypothesis Zp : forall k, nonzero n (ph k).
  Hypothesis P0 : st_eq n psi (ph 0).
  Definition saved (cs0 : list ci) : Prop := forall k x, nth_error cs0 k = Some x -> ci_angles x <> [] ->
    (0 < k -> exists l, dict_get sd (k - 1) = Ok l /\ is_mps n l (ph k)) /\ exists l, dict_get sd (2 * num - k - 2) = Ok l /\ is_mps n l (ch k).
  Definition term2 (k : nat) (x0 : ci) (i : nat) : R :=
    (- Re (inner n (ch k) (act n (ci_op n (ci_with x0 (set_at i (nth i (ci_angles x0) 0 - PI)%R (ci_angles x0)))) (ph k))))%R.
  Definition local2 (k : nat) (x0 : ci) : list R := map (term2 k x0) (seq 0 (length (ci_angles x0))).

  Lemma overlap_ok : forall im pre x post ps kn, is_mps n im psi -> length (pre ++ x :: post) = num -> ci_ok n x -> ci_TN n x = true ->
    (0 < length pre -> exists l, dict_get sd (length pre - 1) = Ok l /\ is_mps n l (ph (length pre))) ->
    (exists l, dict_get sd (2 * num - length pre - 2) = Ok l /\ is_mps n l (ch (length pre))) ->
    overlap_at svd im sd (cobj n (pre ++ x :: post) ps kn) (length pre) = Ok (- Re (inner n (ch (length pre)) (act n (ci_op n x) (ph (length pre)))))%R.
  Proof.
    intros im pre x post ps kn IM L Hx Tx HF (l2 & G2 & M2). unfold overlap_at. cbn [c_gate cobj]. rewrite map_length, L, map_app. cbn [map].
    rewrite <- (map_length (oobj n) pre), nth_error_mid, map_length.
    assert (X : exists l1, (if length pre =? 0 then o_TN_operation svd (oobj n x) im else do m <- dict_get sd (length pre - 1); o_TN_operation svd (oobj n x) m) = Ok l1
      /\ is_mps n l1 (act n (ci_op n x) (ph (length pre)))).
    { destruct (length pre =? 0) eqn:E0.
      - apply Nat.eqb_eq in E0. rewrite E0. apply o_TN_ok; auto. eapply is_mps_st; [exact IM|exact P0].
      - apply Nat.eqb_neq in E0. destruct HF as (l & G & M); [lia|]. rewrite G. cbn [bind]. apply o_TN_ok; auto. }
    destruct X as (l1 & E1 & M1). rewrite E1. cbn [bind].
    destruct (mps_amplitudes n l1 _ Hn M1) as (t1 & _ & A1 & B1 & _). rewrite A1. cbn [bind]. rewrite G2. cbn [bind].
    destruct (mps_amplitudes n l2 _ Hn M2) as (t2 & _ & A2 & B2 & _). rewrite A2. cbn [bind]. now apply minus_overlap_ok.
  Qed.

  Lemma grad2_gate_ok : forall im pre post x0 x ps kn gr, is_mps n im psi -> length (pre ++ x :: post) = num -> form x x0 ->
    (ci_angles x0 <> [] -> dict_get ps (length pre) = Ok (Some (pv_of x0))) -> ci_ok n x -> ci_TN n x = true ->
    (ci_angles x0 <> [] -> (0 < length pre -> exists l, dict_get sd (length pre - 1) = Ok l /\ is_mps n l (ph (length pre))) /\
      exists l, dict_get sd (2 * num - length pre - 2) = Ok l /\ is_mps n l (ch (length pre))) ->
    grad2_gate svd im sd (cobj n (pre ++ x :: post) ps kn, gr) (length pre) = Ok (cobj n (pre ++ x0 :: post) ps kn, gr ++ local2 (length pre) x0).
  Proof.
    intros im pre post x0 x ps kn gr IM L Fx HD Ox Tx HSV. unfold grad2_gate. cbn [c_gate cobj c_params].
    rewrite map_app. cbn [map]. rewrite <- (map_length (oobj n) pre), nth_error_mid, map_length. rewrite (form_num n x x0 Ox Fx).
    destruct (length (ci_angles x0) =? 0) eqn:E0.
    - apply Nat.eqb_eq in E0. destruct (ci_angles x0) as [|] eqn:EA; [|discriminate]. unfold local2. rewrite EA. cbn [length seq map]. rewrite app_nil_r.
      f_equal. f_equal. unfold cobj. f_equal. destruct Fx as (v & Lv & ->). rewrite EA in Lv. destruct v; [|discriminate].
      rewrite !map_app. cbn [map]. do 3 f_equal. transitivity (ci_with x0 (ci_angles x0)); [now rewrite EA|apply ci_with_self].
    - assert (NA : ci_angles x0 <> []) by (intros X; rewrite X in E0; discriminate). rewrite (HD NA). cbn [bind]. destruct (HSV NA) as [S1 S2].
      set (a := ci_angles x0) in *.
      assert (FO : forall v u, length v = length a -> ci_ok n (ci_with x0 v) -> length u = length a -> ci_ok n (ci_with x0 u)).
      { intros v u Lv O Lu. assert (O' : ci_ok n (ci_with (ci_with x0 v) u)) by (apply ci_with_ok; [exact O|rewrite ci_with_angles; fold a; congruence]). now rewrite ci_with_with in O'. }
      assert (NE : forall u : list R, length u = length a -> u <> []) by (intros u Lu ->; destruct a; [congruence|discriminate]).
      assert (LL : forall y : ci, length (pre ++ y :: post) = num) by (intros y; rewrite app_length in *; exact L).
      assert (TT : forall u, ci_TN n (ci_with x0 u) = true) by (intros u; destruct Fx as (v & _ & ->); rewrite ci_with_TN in *; exact Tx).
      destruct (pv_cases x0 NA) as [V|[L1 V]]; rewrite V.
      + fold a in V |- *.
        assert (P : forall u, length u = length a -> pv_of (ci_with x0 u) = PV u).
        { intros u Lu. unfold pv_of in *. destruct x0 as [[]|l]; cbn [ci_with gi_with ci_angles gi_angles] in *; try discriminate;
            cbn in Lu; try (destruct u as [|u1 [|u2 [|u3 [|]]]]; try discriminate; reflexivity).
          f_equal. apply (ci_with_angles (CL l)). exact Lu. }
        assert (Step : forall x i g, form x x0 -> ci_ok n x -> i < length a ->
          grad2_entry svd im sd (length pre) (cobj n (pre ++ x :: post) ps kn, a, g) i = Ok (cobj n (pre ++ x0 :: post) ps kn, a, g ++ [term2 (length pre) x0 i])).
        { clear x Fx Ox Tx L. intros x i g (v & Lv & ->) Ox Hi. fold a in Lv. unfold grad2_entry.
          assert (P1 : padd a i (- PI) = set_at i (nth i a 0 - PI)%R a) by (unfold padd; now rewrite set_nth_at).
          rewrite P1. assert (La : length (set_at i (nth i a 0 - PI)%R a) = length a) by (now apply set_at_length).
          assert (P2 : padd (set_at i (nth i a 0 - PI)%R a) i PI = a).
          { unfold padd. rewrite set_nth_at, nth_set_at, set_at_twice by lia. replace (nth i a 0 - PI + PI)%R with (nth i a 0%R) by lra. now apply set_at_nth. }
          rewrite P2. assert (O1 : ci_ok n (ci_with x0 (set_at i (nth i a 0 - PI)%R a))) by (apply (FO v); auto).
          rewrite (update_gate_ok n pre _ x0 post (set_at i (nth i a 0 - PI)%R a)); [|exact Ox|now exists v|exact La|now apply NE|now rewrite P]. cbn [bind].
          rewrite overlap_ok by auto. cbn [bind].
          rewrite (update_gate_ok n pre _ x0 post a); [|exact O1|now exists (set_at i (nth i a 0 - PI)%R a)|reflexivity|now apply NE|now rewrite P].
          cbn [bind]. unfold a at 2. rewrite ci_with_self. reflexivity. }
        assert (O0 : ci_ok n x0) by (destruct Fx as (v & Lv & ->); rewrite <- (ci_with_self x0); apply (FO v); auto).
        assert (Rest : forall l g, (forall i, In i l -> i < length a) ->
          mfold (grad2_entry svd im sd (length pre)) l (cobj n (pre ++ x0 :: post) ps kn, a, g) = Ok (cobj n (pre ++ x0 :: post) ps kn, a, g ++ map (term2 (length pre) x0) l)).
        { induction l as [|i l IH]; intros g Hl; cbn [mfold map]; [now rewrite app_nil_r|].
          rewrite Step by (auto using form_refl; apply Hl; now left). cbn [bind]. rewrite IH by (intros j Hj; apply Hl; now right). now rewrite <- app_assoc. }
        unfold local2. fold a. destruct (length a) as [|d] eqn:La; [discriminate|]. cbn [seq mfold map].
        rewrite Step by (auto; lia). cbn [bind]. rewrite Rest by (intros i Hi; apply in_seq in Hi; lia). cbn [bind]. now rewrite <- app_assoc.
      + fold a in L1, V |- *. set (y := nth 0 a 0%R).
        assert (P : forall y, PS y = pv_of (ci_with x0 [y])).
        { intros z. unfold pv_of in *. destruct x0 as [[]|l]; cbn [ci_with gi_with ci_angles gi_angles] in *; try discriminate; reflexivity. }
        assert (S : forall y, set_at 0 y a = [y]) by (intros z; destruct a as [|b [|]]; try discriminate; reflexivity).
        assert (A : ci_with x0 [y] = x0) by (rewrite <- (S y); unfold y; rewrite set_at_nth by lia; apply ci_with_self).
        replace (y - PI + PI)%R with y by lra. destruct Fx as (v & Lv & ->). fold a in Lv.
        assert (O1 : ci_ok n (ci_with x0 [(y - PI)%R])) by (apply (FO v); auto).
        rewrite (update_gate_ok n pre _ x0 post [(y - PI)%R]); [|exact Ox|now exists v|cbn; now rewrite <- L1|discriminate|apply P]. cbn [bind].
        rewrite overlap_ok by auto. cbn [bind].
        rewrite (update_gate_ok n pre _ x0 post [y]); [|exact O1|now exists [(y - PI)%R]|cbn; now rewrite <- L1|discriminate|apply P]. cbn [bind].
        rewrite A. unfold local2, term2. fold a. rewrite L1. cbn [seq map]. fold y. now rewrite S.
  Qed.
  Fixpoint all2 (k : nat) (rest0 : list ci) : list R := match rest0 with [] => [] | x0 :: r => local2 k x0 ++ all2 (S k) r end.
  Lemma grad2_gates_ok : forall im rest0 rest done ps kn gr, is_mps n im psi -> Forall2 form rest rest0 -> recorded ps (done ++ rest0) -> saved (done ++ rest0) ->
    length (done ++ rest) = num -> Forall (ci_ok n) rest -> forallb (ci_TN n) rest = true ->
    mfold (grad2_gate svd im sd) (seq (length done) (length rest)) (cobj n (done ++ rest) ps kn, gr)
    = Ok (cobj n (done ++ rest0) ps kn, gr ++ all2 (length done) rest0).
  Proof.
    intros im rest0. induction rest0 as [|x0 r0 IH]; intros rest done ps kn gr IM HF HR HV HL HO HT; inversion HF as [|x ? r ? Fx HF']; subst; cbn [length seq mfold all2].
    - rewrite !app_nil_r; reflexivity.
    - inversion HO as [|? ? Ox Or]; subst. cbn [forallb] in HT. apply andb_true_iff in HT. destruct HT as [Tx Tr].
      rewrite (grad2_gate_ok im done r x0 x); auto; [|intros NA; apply (HR (length done) x0); [apply nth_error_mid|exact NA]|intros NA; apply (HV (length done) x0); [apply nth_error_mid|exact NA]].
      cbn [bind]. replace (S (length done)) with (length (done ++ [x0])) by (rewrite app_length; cbn; lia).
      replace (done ++ x0 :: r) with ((done ++ [x0]) ++ r) by (now rewrite <- app_assoc).
      rewrite IH; auto; rewrite <- ?app_assoc; auto. rewrite <- HL, !app_length. reflexivity.
  Qed.
  Lemma all2_length : forall rest0 k, length (all2 k rest0) = length (cs_angles rest0).
  Proof. induction rest0 as [|x r IH]; intros k; [reflexivity|]. cbn [all2 cs_angles flat_map]. fold (cs_angles r). rewrite !app_length, IH. unfold local2. now rewrite map_length, seq_length. Qed.
  Lemma grad2_run : forall cs0 cs ps kn, Forall2 form cs cs0 -> recorded ps cs0 -> saved cs0 -> length cs = num -> Forall (ci_ok n) cs -> forallb (ci_TN n) cs = true ->
    cal_params_grad2 svd t (cobj n cs ps kn) sd = if length (cs_angles cs0) =? kn then Ok (all2 0 cs0, cobj n cs0 ps kn) else Err AssertionError.
  Proof.
    intros cs0 cs ps kn HF HR HV HL HO HT. destruct (round_trip svd n t psi Hs Hn Ht HZ) as (l0 & _ & E0 & M0 & _).
    unfold cal_params_grad2. cbn [c_N c_gate cobj]. rewrite E0. cbn [bind]. rewrite map_length.
    pose proof (grad2_gates_ok l0 cs0 cs [] ps kn [] M0 HF HR HV HL HO HT) as E. cbn [app length] in E. rewrite E. cbn [bind].
    rewrite all2_length. reflexivity.
  Qed.
  Lemma all2_nth : forall cs1 x cs2 k i, i < length (ci_angles x) -> nth (length (cs_angles cs1) + i) (all2 k (cs1 ++ x :: cs2)) 0%R = term2 (k + length cs1) x i.
  Proof.
    induction cs1 as [|c cs1 IH]; intros x cs2 k i Hi; cbn [app all2].
    - cbn [cs_angles flat_map length Nat.add]. rewrite Nat.add_0_r, app_nth1; [|unfold local2; now rewrite map_length, seq_length].
      unfold local2. now rewrite nth_map_seq0.
    - cbn [cs_angles flat_map]. fold (cs_angles cs1). assert (LL : length (local2 k c) = length (ci_angles c)) by (unfold local2; now rewrite map_length, seq_length).
      rewrite app_length, app_nth2; rewrite LL; [|lia].
      replace (length (ci_angles c) + length (cs_angles cs1) + i - length (ci_angles c)) with (length (cs_angles cs1) + i) by lia.
      rewrite IH by exact Hi. f_equal. cbn [length]. lia.
  Qed.
End Run2.
