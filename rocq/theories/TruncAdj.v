(** Lemmas: the second gradient method (save_mid_MPS, cal_params_grad2) on truncated matrix product states. *)
From Coq Require Import List ZArith QArith Reals Lra Lia ZifyBool Bool Arith Setoid Morphisms.
From Verif Require Import PyBase Scalar CInst BigSum Index Tensor TensorFacts Spec SpecFacts QMath QTN QOperator
  GateSpec QGates GateCalls GateFacts GateFacts2 GateFacts4 GateFacts5 GateFacts6 GateProofs RunSpec
  MPSSpec MPSFacts6 MPSFacts9 LayerSpec QLayers LayerCalls LayerFacts1 LayerFacts4 LayerProofs
  CircuitSpec QCircuit StateFacts QGradient CircuitFacts1 CircuitProofs GradSpec GradFacts1 GradFacts2 GradFacts3 GradFacts4 GradProofs GradProofs2
  MeasSpec MeasFacts QuanvFacts TruncSpec TruncRunSpec SVDExist2 TruncFacts2 TruncRun1 TruncRun6 TruncRun7 TruncRun8 TruncRun10 TruncGrad.
Import ListNotations.
Local Close Scope Q_scope.
Local Close Scope R_scope.
Local Open Scope nat_scope.

Definition cost (c : ci) : nat := moves (ci_gates c).
Lemma ci_moves_1 : forall c, ci_moves [c] = cost c.
Proof. intros c. unfold ci_moves, cost. cbn [flat_map]. now rewrite app_nil_r. Qed.
Lemma ci_moves_cons : forall c cs, ci_moves (c :: cs) = cost c + ci_moves cs.
Proof. intros c cs. change (c :: cs) with ([c] ++ cs). now rewrite ci_moves_app, ci_moves_1. Qed.
Lemma dagger_cost : forall n c, ci_ok n c -> ci_TN n c = true -> exists d, o_dagger (oobj n c) = Ok (Some (oobj n d)) /\ ci_ok n d /\ ci_TN n d = true /\
  op_eq n (ci_op n d) (adj_op (ci_op n c)) /\ cost d = cost c.
Proof.
  intros n [g|l] H T; cbn [ci_ok ci_TN oobj o_dagger ci_op] in *.
  - exists (CG (gi_inv g)). rewrite operation_dagger_obj. cbn [bind ci_ok ci_TN oobj ci_op]. split; [reflexivity|]. split; [now apply gi_inv_ok_ok|]. split; [now destruct g|]. split; [now apply gi_inv_ok|].
    now destruct g.
  - rewrite layer_dagger_ok by exact H. cbn [bind]. assert (X : exists l', li_inv l = Some l') by (destruct l; cbn in *; eauto; discriminate). destruct X as (l' & E). rewrite E.
    exists (CL l'). cbn [oobj ci_ok ci_TN ci_op]. split; [reflexivity|]. split; [eapply li_inv_ok; eauto|]. split; [|split; [now apply li_inv_op|]].
    + destruct l; cbn in *; try discriminate; injection E as <-; exact T.
    + unfold cost. cbn [ci_gates]. destruct l; cbn in E; try discriminate; injection E as <-; cbn [li_gates]; rewrite ?rot_moves, ?moves_rev; reflexivity.
Qed.

Section Save.
  Variable svd : @tensor C_scalar -> @tensor C_scalar * @tensor C_scalar * @tensor C_scalar.
  Variables n T : nat.
  Variable Rel : nat -> list (@tensor C_scalar) -> @qstate C_scalar -> Prop.
  Hypothesis Rel_st : forall t l f g, Rel t l f -> st_eq n f g -> Rel t l g.
  Hypothesis Rel_op : forall t l f c, ci_ok n c -> ci_TN n c = true -> Rel t l f -> t + cost c <= T ->
    exists l', o_TN_operation svd (oobj n c) l = Ok l' /\ Rel (t + cost c) l' (act n (ci_op n c) f).
  Variables (psi : @qstate C_scalar) (cs : list ci) (mo : ci).
  Hypothesis H : Forall (ci_ok n) cs.
  Hypothesis HT : forallb (ci_TN n) cs = true.
  Hypothesis Hm : ci_ok n mo.
  Hypothesis Tm : ci_TN n mo = true.
  Hypothesis HTT : ci_moves cs + (cost mo + ci_moves cs) <= T.
  Notation phi := (phi n psi cs).
  Notation chi := (chi n psi cs mo).
  Definition tf (k : nat) : nat := ci_moves (firstn k cs).
  Definition tb (k : nat) : nat := ci_moves cs + (cost mo + ci_moves (skipn k cs)).
  Lemma tf_S : forall k x, nth_error cs k = Some x -> tf (S k) = tf k + cost x.
  Proof. intros k x E. unfold tf. rewrite (firstn_snoc_nth _ k cs x E), ci_moves_app, ci_moves_1. reflexivity. Qed.
  Lemma tf_le : forall k, tf k <= ci_moves cs.
  Proof. intros k. unfold tf. rewrite <- (firstn_skipn k cs) at 2. rewrite ci_moves_app. lia. Qed.
  Lemma tb_S : forall k x, nth_error cs k = Some x -> tb k = tb (S k) + cost x.
  Proof. intros k x E. unfold tb. rewrite (skipn_cons_nth _ k cs x E), ci_moves_cons. lia. Qed.
  Lemma tb_le : forall k, tb k <= T.
  Proof. intros k. unfold tb. rewrite <- (firstn_skipn k cs) in HTT at 2. rewrite ci_moves_app in HTT. lia. Qed.
  Definition fsav (sd : mid) (j : nat) : Prop :=
    forall k x, k < j -> nth_error cs (S k) = Some x -> ci_angles x <> [] -> exists l, dict_get sd k = Ok l /\ Rel (tf (S k)) l (phi (S k)).
  Lemma forward_rel : forall d j l sd, j + d = length cs -> Rel (tf j) l (phi j) -> fsav sd j ->
    exists l' sd', mfold (forward_step svd (map (oobj n) cs)) (seq j d) (l, sd) = Ok (l', sd') /\ Rel (tf (length cs)) l' (phi (length cs)) /\ fsav sd' (length cs).
  Proof.
    induction d as [|d IH]; intros j l sd E M F; cbn [seq mfold].
    - exists l, sd. rewrite Nat.add_0_r in E. subst j. auto.
    - destruct (nth_error cs j) as [x|] eqn:X; [|apply nth_error_None in X; lia]. destruct (cs_get n cs H HT j x X) as [Hx Tx].
      pose proof (tf_S j x X) as TS. pose proof (tf_le (S j)) as TL.
      destruct (Rel_op (tf j) l (phi j) x Hx Tx M ltac:(lia)) as (l1 & E1 & M1).
      assert (M2 : Rel (tf (S j)) l1 (phi (S j))) by (rewrite TS; eapply Rel_st; [exact M1|now apply phi_S]).
      unfold forward_step at 1. rewrite nth_error_map, X. cbn [option_map]. rewrite ci_con_support by (now apply ci_TN_con). rewrite E1. cbn [bind].
      rewrite nth_error_map. apply IH; [lia|exact M2|]. intros k y Hk Y A. destruct (Nat.eq_dec k j) as [->|Nk].
      + rewrite Y. cbn [option_map]. destruct (cs_get n cs H HT (S j) y Y) as [Hy _]. rewrite num_zero by exact Hy. destruct (ci_angles y); [congruence|].
        exists l1. split; [apply dict_get_set_same|exact M2].
      + destruct (F k y) as (l2 & G & M3); [lia|exact Y|exact A|]. exists l2. split; [|exact M3].
        destruct (nth_error cs (S j)); cbn [option_map]; [destruct (_ =? 0)|]; auto. rewrite dict_get_set_other by lia. exact G.
  Qed.
  Definition bsav (sd : mid) (j : nat) : Prop :=
    forall k x, j <= S k -> nth_error cs k = Some x -> ci_angles x <> [] -> exists l, dict_get sd (2 * length cs - k - 2) = Ok l /\ Rel (tb (S k)) l (chi (S k)).
  Lemma backward_rel : forall j l sd, j <= length cs -> Rel (tb j) l (chi j) -> fsav sd (length cs - 1) -> bsav sd j ->
    exists l' sd', mfold (backward_step svd (map (oobj n) cs)) (rev (seq 0 j)) (l, sd) = Ok (l', sd') /\ fsav sd' (length cs - 1) /\ bsav sd' 0.
  Proof.
    induction j as [|j IH]; intros l sd E M F B.
    - exists l, sd. cbn [seq rev mfold]. auto.
    - rewrite seq_S, rev_app_distr. cbn [rev app Nat.add mfold].
      destruct (nth_error cs j) as [x|] eqn:X; [|apply nth_error_None in X; lia]. destruct (cs_get n cs H HT j x X) as [Hx Tx].
      destruct (dagger_cost n x Hx Tx) as (d & D1 & D2 & D3 & D4 & D5).
      pose proof (tb_S j x X) as TS. pose proof (tb_le j) as TL.
      destruct (Rel_op (tb (S j)) l (chi (S j)) d D2 D3 M ltac:(lia)) as (l1 & E1 & M1).
      assert (M2 : Rel (tb j) l1 (chi j)) by (rewrite TS, <- D5; eapply Rel_st; [exact M1|now apply (chi_S n psi cs mo j x)]).
      unfold backward_step at 1. rewrite nth_error_map, X. cbn [option_map]. rewrite D1. cbn [bind]. rewrite ci_con_support by (now apply ci_TN_con). rewrite E1. cbn [bind].
      rewrite map_length, nth_error_map. apply IH; [lia|exact M2| |].
      + intros k y Hk Y A. destruct (F k y Hk Y A) as (l2 & G & M3). exists l2. split; [|exact M3].
        destruct (j =? 0); [exact G|]. destruct (nth_error cs (j - 1)); cbn [option_map]; [destruct (_ =? 0)|]; auto. rewrite dict_get_set_other by lia. exact G.
      + intros k y Hk Y A. destruct (Nat.eq_dec (S k) j) as [<-|Nk].
        * cbn [Nat.eqb Nat.sub]. rewrite Nat.sub_0_r, Y. cbn [option_map]. destruct (cs_get n cs H HT k y Y) as [Hy _]. rewrite num_zero by exact Hy.
          destruct (ci_angles y); [congruence|]. exists l1. split; [|exact M2].
          replace (2 * length cs - k - 2) with (2 * length cs - S k - 1) by lia. apply dict_get_set_same.
        * destruct (B k y) as (l2 & G & M3); [lia|exact Y|exact A|]. exists l2. split; [|exact M3].
          destruct (j =? 0) eqn:J0; [exact G|]. apply Nat.eqb_neq in J0. destruct (nth_error cs (j - 1)); cbn [option_map]; [destruct (_ =? 0)|]; auto.
          rewrite dict_get_set_other; [exact G|]. assert (k < length cs) by (apply nth_error_Some; congruence). lia.
  Qed.
  Lemma save_rel : forall t l0 ps k, cs <> [] -> StateVec2MPS svd t n = Ok l0 -> length l0 = n -> Rel 0 l0 psi ->
    (forall l f, Rel (ci_moves cs) l f -> exists sv, MPS2StateVec l = Ok sv) ->
    exists l1 sd sv, save_mid_MPS svd t (cobj n cs ps k) (oobj n mo) = Ok (sd, sv) /\
      Rel (ci_moves cs) l1 (act n (cs_op n cs) psi) /\ MPS2StateVec l1 = Ok sv /\ fsav sd (length cs - 1) /\ bsav sd 0.
  Proof.
    intros t l0 ps k NE E0 L0 M0 OUT. unfold save_mid_MPS. cbn [c_N cobj c_gate]. rewrite E0. cbn [bind].
    rewrite L0, Nat.eqb_refl. cbn [negb raise_if]. rewrite map_length.
    destruct (forward_rel (length cs) 0 l0 []) as (l1 & sd1 & E1 & M1 & F1); [lia|eapply Rel_st; [exact M0|unfold GradFacts4.phi; cbn [firstn]; symmetry; apply act_id]|intros ? ? ?; lia|].
    match goal with |- context [mfold (forward_step svd (map (oobj n) cs)) ?l ?s] => replace (mfold (forward_step svd (map (oobj n) cs)) l s) with (@Ok (list tensor * mid) (l1, sd1)) by (symmetry; exact E1) end. cbn [bind].
    assert (TF : tf (length cs) = ci_moves cs) by (unfold tf; now rewrite firstn_all). rewrite TF in M1.
    destruct (OUT l1 _ M1) as (sv & V1). rewrite V1. cbn [bind].
    destruct (Rel_op _ l1 _ mo Hm Tm M1 ltac:(lia)) as (l2 & E2 & M2). rewrite E2. cbn [bind].
    assert (X : exists xs x, cs = xs ++ [x]) by (destruct (exists_last NE) as (xs & x & ->); eauto). destruct X as (xs & x & X).
    assert (NX : nth_error cs (length cs - 1) = Some x) by (rewrite X, app_length; cbn [length]; replace (length xs + 1 - 1) with (length xs) by lia; apply nth_error_mid).
    assert (P : py_nth (map (oobj n) cs) (Z.of_nat (length cs) - 1) = Ok (oobj n x)).
    { rewrite X, map_app, <- (map_length (oobj n) (xs ++ [x])), map_app. apply (py_nth_last _ (map (oobj n) xs)). }
    rewrite P. cbn [bind]. destruct (cs_get n cs H HT _ _ NX) as [Hx _]. rewrite num_zero by exact Hx.
    assert (LC : length cs = S (length cs - 1)) by (rewrite X, app_length; cbn [length]; lia).
    assert (Mc : Rel (tb (length cs)) l2 (chi (length cs))).
    { unfold tb. rewrite skipn_all. change (ci_moves []) with 0. rewrite Nat.add_0_r.
      eapply Rel_st; [exact M2|]. unfold GradFacts4.chi, GradFacts4.phi. rewrite firstn_all, skipn_all. cbn [cs_op fold_left]. rewrite adj_id, act_id. reflexivity. }
    set (sd2 := if match ci_angles x with [] => true | _ => false end then sd1 else dict_set sd1 (length cs - 1) l2).
    destruct (backward_rel (length cs) l2 sd2) as (l3 & sd3 & E3 & F3 & B3); [lia|exact Mc| | |].
    - intros i y Hi Y A. destruct (F1 i y) as (l & G & M); [lia|exact Y|exact A|]. exists l. split; [|exact M]. unfold sd2. destruct (ci_angles x); [exact G|].
      rewrite dict_get_set_other by lia. exact G.
    - intros i y Hi Y A. assert (i < length cs) by (apply nth_error_Some; congruence). assert (i = length cs - 1) by lia. subst i. rewrite NX in Y. injection Y as <-.
      exists l2. split; [|now rewrite <- LC]. unfold sd2. destruct (ci_angles x); [congruence|]. replace (2 * length cs - (length cs - 1) - 2) with (length cs - 1) by lia. apply dict_get_set_same.
    - match goal with |- context [mfold (backward_step svd (map (oobj n) cs)) ?l ?s] => replace (mfold (backward_step svd (map (oobj n) cs)) l s) with (@Ok (list tensor * mid) (l3, sd3)) by (symmetry; exact E3) end. cbn [bind snd].
      exists l1, sd3, sv. split; [reflexivity|]. split; [|split; [exact V1|split; assumption]].
      unfold GradFacts4.phi in M1. now rewrite firstn_all in M1.
  Qed.
End Save.

(** ** reading the saved states: what is computed, whatever was saved *)
Section Read.
  Variable svd : @tensor C_scalar -> @tensor C_scalar * @tensor C_scalar * @tensor C_scalar.
  Variable n : nat.
  Variables (im : list (@tensor C_scalar)) (sd : mid) (num : nat).
  Definition ov (k : nat) (x : ci) : res R :=
    do MPS <- (if k =? 0 then o_TN_operation svd (oobj n x) im else do m <- dict_get sd (k - 1); o_TN_operation svd (oobj n x) m);
    do psi1 <- MPS2StateVec MPS; do m2 <- dict_get sd (2 * num - k - 2); do psi2 <- MPS2StateVec m2; minus_overlap psi2 psi1.
  Lemma overlap_ov : forall pre x post ps kn, length (pre ++ x :: post) = num -> overlap_at svd im sd (cobj n (pre ++ x :: post) ps kn) (length pre) = ov (length pre) x.
  Proof.
    intros pre x post ps kn L. unfold overlap_at, ov. cbn [c_gate cobj]. rewrite map_length, L, map_app. cbn [map].
    rewrite <- (map_length (oobj n) pre) at 1. rewrite nth_error_mid. reflexivity.
  Qed.
  Definition shifted (x0 : ci) (i : nat) : ci := ci_with x0 (set_at i (nth i (ci_angles x0) 0 - PI)%R (ci_angles x0)).
  Variable val : nat -> ci -> R.
  Definition vlocal (k : nat) (x0 : ci) : list R := map (fun i => val k (shifted x0 i)) (seq 0 (length (ci_angles x0))).
  Lemma vgate : forall pre post x0 ps kn gr, length (pre ++ x0 :: post) = num ->
    (ci_angles x0 <> [] -> dict_get ps (length pre) = Ok (Some (pv_of x0))) -> ci_ok n x0 ->
    (forall i, i < length (ci_angles x0) -> ov (length pre) (shifted x0 i) = Ok (val (length pre) (shifted x0 i))) ->
    grad2_gate svd im sd (cobj n (pre ++ x0 :: post) ps kn, gr) (length pre) = Ok (cobj n (pre ++ x0 :: post) ps kn, gr ++ vlocal (length pre) x0).
  Proof.
    intros pre post x0 ps kn gr L HD Ox HV. unfold grad2_gate. cbn [c_gate cobj c_params].
    rewrite map_app. cbn [map]. rewrite <- (map_length (oobj n) pre) at 1. rewrite nth_error_mid. rewrite (form_num n x0 x0 Ox (form_refl x0)).
    destruct (length (ci_angles x0) =? 0) eqn:E0.
    - apply Nat.eqb_eq in E0. unfold vlocal. rewrite E0. cbn [seq map]. rewrite app_nil_r. reflexivity.
    - assert (NA : ci_angles x0 <> []) by (intros X; rewrite X in E0; discriminate). rewrite (HD NA). cbn [bind].
      set (a := ci_angles x0) in *.
      assert (FO : forall u, length u = length a -> ci_ok n (ci_with x0 u)) by (intros u Lu; now apply ci_with_ok).
      assert (NE : forall u : list R, length u = length a -> u <> []) by (intros u Lu ->; destruct a; [congruence|discriminate]).
      assert (LL : forall y : ci, length (pre ++ y :: post) = num) by (intros y; rewrite app_length in *; exact L).
      destruct (pv_cases x0 NA) as [V|[L1 V]]; rewrite V.
      + fold a in V |- *.
        assert (P : forall u, length u = length a -> pv_of (ci_with x0 u) = PV u).
        { intros u Lu. unfold pv_of in *. destruct x0 as [[]|l]; cbn [ci_with gi_with ci_angles gi_angles] in *; try discriminate;
            cbn in Lu; try (destruct u as [|u1 [|u2 [|u3 [|]]]]; try discriminate; reflexivity).
          f_equal. apply (ci_with_angles (CL l)). exact Lu. }
        assert (Step : forall i g, i < length a ->
          grad2_entry svd im sd (length pre) (cobj n (pre ++ x0 :: post) ps kn, a, g) i = Ok (cobj n (pre ++ x0 :: post) ps kn, a, g ++ [val (length pre) (shifted x0 i)])).
        { intros i g Hi. unfold grad2_entry.
          assert (P1 : padd a i (- PI) = set_at i (nth i a 0 - PI)%R a) by (unfold padd; now rewrite set_nth_at).
          rewrite P1. assert (La : length (set_at i (nth i a 0 - PI)%R a) = length a) by (now apply set_at_length).
          assert (P2 : padd (set_at i (nth i a 0 - PI)%R a) i PI = a).
          { unfold padd. rewrite set_nth_at, nth_set_at, set_at_twice by lia. replace (nth i a 0 - PI + PI)%R with (nth i a 0%R) by lra. now apply set_at_nth. }
          rewrite P2.
          rewrite (update_gate_ok n pre _ x0 post (set_at i (nth i a 0 - PI)%R a)); [|exact Ox|apply form_refl|exact La|now apply NE|now rewrite P]. cbn [bind].
          rewrite overlap_ov by apply LL. fold (shifted x0 i). change (ci_with x0 (set_at i (nth i a 0 - PI)%R a)) with (shifted x0 i). rewrite HV by exact Hi. cbn [bind].
          rewrite (update_gate_ok n pre _ x0 post a); [|apply FO; exact La|now exists (set_at i (nth i a 0 - PI)%R a)|reflexivity|now apply NE|now rewrite P].
          cbn [bind]. unfold a at 2. rewrite ci_with_self. reflexivity. }
        assert (Rest : forall l g, (forall i, In i l -> i < length a) ->
          mfold (grad2_entry svd im sd (length pre)) l (cobj n (pre ++ x0 :: post) ps kn, a, g) = Ok (cobj n (pre ++ x0 :: post) ps kn, a, g ++ map (fun i => val (length pre) (shifted x0 i)) l)).
        { induction l as [|i l IH]; intros g Hl; cbn [mfold map]; [now rewrite app_nil_r|].
          rewrite Step by (apply Hl; now left). cbn [bind]. rewrite IH by (intros j Hj; apply Hl; now right). now rewrite <- app_assoc. }
        unfold vlocal. fold a.
        rewrite Rest by (intros i Hi; apply in_seq in Hi; lia). reflexivity.
      + fold a in L1, V |- *. set (y := nth 0 a 0%R).
        assert (P : forall y, PS y = pv_of (ci_with x0 [y])).
        { intros z. unfold pv_of in *. destruct x0 as [[]|l]; cbn [ci_with gi_with ci_angles gi_angles] in *; try discriminate; reflexivity. }
        assert (S : forall y, set_at 0 y a = [y]) by (intros z; destruct a as [|b [|]]; try discriminate; reflexivity).
        assert (A : ci_with x0 [y] = x0) by (rewrite <- (S y); unfold y; rewrite set_at_nth by lia; apply ci_with_self).
        assert (Y : ci_with x0 [(y - PI)%R] = shifted x0 0) by (unfold shifted; fold a; now rewrite S).
        replace (y - PI + PI)%R with y by lra.
        rewrite (update_gate_ok n pre _ x0 post [(y - PI)%R]); [|exact Ox|apply form_refl|cbn; now rewrite <- L1|discriminate|apply P]. cbn [bind].
        rewrite overlap_ov by apply LL. rewrite Y, HV by lia. cbn [bind]. rewrite <- Y.
        rewrite (update_gate_ok n pre _ x0 post [y]); [|apply FO; cbn; now rewrite <- L1|now exists [(y - PI)%R]|cbn; now rewrite <- L1|discriminate|apply P]. cbn [bind].
        rewrite A. unfold vlocal. fold a. rewrite L1. cbn [seq map]. now rewrite <- Y.
  Qed.
  Fixpoint vall (k : nat) (rest0 : list ci) : list R := match rest0 with [] => [] | x0 :: r => vlocal k x0 ++ vall (S k) r end.
  Lemma vgates : forall rest done ps kn gr, recorded ps (done ++ rest) -> length (done ++ rest) = num -> Forall (ci_ok n) rest ->
    (forall k x i, nth_error (done ++ rest) k = Some x -> i < length (ci_angles x) -> ov k (shifted x i) = Ok (val k (shifted x i))) ->
    mfold (grad2_gate svd im sd) (seq (length done) (length rest)) (cobj n (done ++ rest) ps kn, gr)
    = Ok (cobj n (done ++ rest) ps kn, gr ++ vall (length done) rest).
  Proof.
    induction rest as [|x0 r IH]; intros done ps kn gr HR HL HO HV; cbn [length seq mfold vall].
    - now rewrite !app_nil_r.
    - inversion_clear HO as [|? ? Ox Or].
      rewrite (vgate done r x0); auto; [|intros NA; apply (HR (length done) x0); [apply nth_error_mid|exact NA]|intros i Hi; apply HV; [apply nth_error_mid|exact Hi]].
      cbn [bind]. replace (S (length done)) with (length (done ++ [x0])) by (rewrite app_length; cbn; lia).
      replace (done ++ x0 :: r) with ((done ++ [x0]) ++ r) in * by (now rewrite <- app_assoc).
      rewrite IH by auto. now rewrite <- (app_assoc gr).
  Qed.
  Lemma vall_length : forall rest0 k, length (vall k rest0) = length (cs_angles rest0).
  Proof. induction rest0 as [|x r IH]; intros k; [reflexivity|]. cbn [vall cs_angles flat_map]. fold (cs_angles r). rewrite !app_length, IH. unfold vlocal. now rewrite map_length, seq_length. Qed.
  Lemma vall_nth : forall cs1 x cs2 k i, i < length (ci_angles x) -> nth (length (cs_angles cs1) + i) (vall k (cs1 ++ x :: cs2)) 0%R = val (k + length cs1) (shifted x i).
  Proof.
    induction cs1 as [|c cs1 IH]; intros x cs2 k i Hi; cbn [app vall].
    - cbn [cs_angles flat_map length Nat.add]. rewrite Nat.add_0_r, app_nth1; [|unfold vlocal; now rewrite map_length, seq_length].
      unfold vlocal. now rewrite nth_map_seq0.
    - cbn [cs_angles flat_map]. fold (cs_angles cs1). assert (LL : length (vlocal k c) = length (ci_angles c)) by (unfold vlocal; now rewrite map_length, seq_length).
      rewrite app_length, app_nth2; rewrite LL; [|lia].
      replace (length (ci_angles c) + length (cs_angles cs1) + i - length (ci_angles c)) with (length (cs_angles cs1) + i) by lia.
      rewrite IH by exact Hi. f_equal. cbn [length]. lia.
  Qed.
  Lemma vrun : forall t cs ps kn, StateVec2MPS svd t n = Ok im -> recorded ps cs -> length cs = num -> Forall (ci_ok n) cs ->
    (forall k x i, nth_error cs k = Some x -> i < length (ci_angles x) -> ov k (shifted x i) = Ok (val k (shifted x i))) ->
    cal_params_grad2 svd t (cobj n cs ps kn) sd = if length (cs_angles cs) =? kn then Ok (vall 0 cs, cobj n cs ps kn) else Err AssertionError.
  Proof.
    intros t cs ps kn E0 HR HL HO HV. unfold cal_params_grad2. cbn [c_N c_gate cobj]. rewrite E0. cbn [bind]. rewrite map_length.
    pose proof (vgates cs [] ps kn [] HR HL HO HV) as E. cbn [app length] in E. rewrite E. cbn [bind].
    rewrite vall_length. reflexivity.
  Qed.
End Read.
