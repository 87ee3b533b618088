(** The functions with memory layouts agree with those without: TN_operation, TN_contract, MPS2StateVec, density matrices. *)
From Coq Require Import List ZArith QArith Lia Bool Arith.
From Verif Require Import PyBase Scalar BigSum Index Tensor QTN QOperator QStride StrideFacts StrideProofs.
Import ListNotations.
Local Close Scope Q_scope.
Local Open Scope nat_scope.

Section Agree2.
  Context {SC : Scalar}.
  Variable svd : tensor -> tensor * tensor * tensor.
  Variable svd_lay : stensor -> list nat * list nat * list nat.
  Variable mmT : stensor -> stensor -> bool.
  Variable ein_lay : stensor -> stensor -> list nat.
  Hypothesis Hsvd : svd_ranks svd.
  Hypothesis Hlay : lay_ranks svd_lay ein_lay.

  Ltac step L := eapply rbind; [apply L|].

  Lemma permute_ranks : forall t p r, permute t p = Ok r -> length (shape t) = length p /\ length (shape r) = length p.
  Proof.
    intros t p r H. unfold permute in H. destruct (mmap (dim_index (rank t)) p) as [q|e] eqn:E; [|discriminate].
    cbn [bind] in H. destruct (is_perm q (rank t)) eqn:P; [|discriminate]. injection H as <-. cbn. rewrite map_length.
    apply mmap_length in E. unfold is_perm in P. apply andb_true_iff in P as [P _]. apply Nat.eqb_eq in P. unfold rank in P. lia.
  Qed.

  Lemma matmul_last : forall a b r l x, matmul a b = Ok r -> shape b = l ++ [x] -> exists bs m, shape r = bs ++ [m; x].
  Proof.
    intros a b r l x H Hb. unfold matmul in H. rewrite Hb, rev_app_distr in H. cbn [rev app] in H.
    destruct (rev (shape a)) as [|k [|m ra]]; try discriminate. destruct (rev l) as [|k' rb]; [discriminate|].
    destruct (k =? k'); [|discriminate]. destruct (bcast (rev ra) (rev rb)) as [bs|]; [|discriminate].
    injection H as <-. exists bs, m. reflexivity.
  Qed.

  (** a matrix applied to columns: any view of the result *)
  Lemma rview_column : forall x t bs m dims, MM x t -> shape t = bs ++ [m; 1] -> rres SR (s_view x dims) (view t dims).
  Proof.
    intros x t bs m dims HM Hs. apply rview; [apply MM_SR; exact HM|]. intros s _ Hp _.
    destruct HM as [_ [b ->]]. rewrite Hs in *. apply view_column. exact Hp.
  Qed.

  (** *** two and three neighbouring sites *)
  Lemma view_pair : forall p q l w (b : bool) x t1, MM x t1 -> shape t1 = [p; q; l; w] ->
    view_strides [l; w; p; q] (map (fun d => nth d (strd x) 0) [2; 3; 0; 1]) [l; w; p * q; 1] <> None.
  Proof.
    intros p q l w _ x t1 [_ [b Hb]] Hs. rewrite Hb, Hs. clear Hb.
    apply view_fits; [reflexivity|cbn; ring|].
    assert (E : rev (combine [l; w; p; q] (map (fun d => nth d (if b then swap_last (cstrides (swap_last [p; q; l; w])) else cstrides [p; q; l; w]) 0) [2; 3; 0; 1]))
      = if b then [(q, w * (l * 1)); (p, q * (w * (l * 1))); (w, l * 1); (l, 1)] else [(q, l * (w * 1)); (p, q * (l * (w * 1))); (w, 1); (l, w * 1)])
      by (destruct b; reflexivity).
    rewrite E. cbn [rev app].
    destruct b; (apply fits_join; [reflexivity|]; apply (fits_cut _ _ _ [1; p * q]); [cbn; ring|];
      apply (fits_cut _ _ _ [w]); [cbn; ring|]; apply (fits_cut _ _ [] [l] []); [cbn; ring|]; now constructor).
  Qed.
  Lemma view_triple : forall p q u l w x t1, MM x t1 -> shape t1 = [p; q; u; l; w] ->
    view_strides [l; w; p; q; u] (map (fun d => nth d (strd x) 0) [3; 4; 0; 1; 2]) [l; w; p * q * u; 1] <> None.
  Proof.
    intros p q u l w x t1 [_ [b Hb]] Hs. rewrite Hb, Hs. clear Hb.
    apply view_fits; [reflexivity|cbn; ring|].
    assert (E : rev (combine [l; w; p; q; u] (map (fun d => nth d (if b then swap_last (cstrides (swap_last [p; q; u; l; w])) else cstrides [p; q; u; l; w]) 0) [3; 4; 0; 1; 2]))
      = if b then [(u, w * (l * 1)); (q, u * (w * (l * 1))); (p, q * (u * (w * (l * 1)))); (w, l * 1); (l, 1)]
        else [(u, l * (w * 1)); (q, u * (l * (w * 1))); (p, q * (u * (l * (w * 1)))); (w, 1); (l, w * 1)])
      by (destruct b; reflexivity).
    rewrite E. cbn [rev app].
    destruct b; (apply fits_join; [reflexivity|]; apply fits_join; [ring|]; apply (fits_cut _ _ _ [1; p * q * u]); [cbn; ring|];
      apply (fits_cut _ _ _ [w]); [cbn; ring|]; apply (fits_cut _ _ [] [l] []); [cbn; ring|]; now constructor).
  Qed.

  Lemma infer_exact : forall n l s, infer_shape n (map Z.of_nat l) = Some s -> s = l.
  Proof.
    intros n l s H. apply infer_sound in H as [_ H]. revert s H.
    induction l as [|a l IH]; intros s H; inversion H as [|? ? ? ? Hh Ht]; subst; [reflexivity|].
    f_equal; [destruct Hh; [lia|]; subst; apply Nat2Z.id|]. apply IH. exact Ht.
  Qed.

  Lemma rtwo_site : forall M M' l l' i j, SR M M' -> Forall2 SR l l' ->
    rres (Forall2 SR) (s_two_site svd svd_lay mmT M l i j) (two_site svd M' l' i j).
  Proof.
    intros M M' l l' i j HM F. unfold s_two_site, two_site.
    step rnth; [exact F|]. intros a a' _ _ Ha. step rnth; [exact F|]. intros b b' _ _ Hb.
    step runsqueeze; [exact Ha|]. intros a1 a1' _ _ Ha1. step runsqueeze; [exact Hb|]. intros b1 b1' _ _ Hb1.
    step rmatmul; [exact Ha1|exact Hb1|]. intros t t' _ Et Ht.
    step rpermute; [apply MM_SR; exact Ht|]. intros u u' Eu Eu' Hu.
    destruct (permute_ranks _ _ _ Eu') as [R1 _].
    destruct (shape t') as [|p [|q [|c [|w [|? ?]]]]] eqn:St; try discriminate.
    assert (Su : shape u' = [c; w; p; q] /\ strd u = map (fun d => nth d (strd t) 0) [2; 3; 0; 1]).
    { destruct Ht as [Hv _]. unfold s_permute in Eu. unfold permute in Eu, Eu'. rewrite Hv in Eu.
      unfold rank in Eu, Eu'. rewrite St in Eu, Eu'. cbn in Eu, Eu'. injection Eu as <-. injection Eu' as <-. split; reflexivity. }
    destruct Su as [Su Du]. rewrite (proj1 Hu), Su.
    change (map Z.of_nat [c; w; p; q]) with [Z.of_nat c; Z.of_nat w; Z.of_nat p; Z.of_nat q].
    cbn [py_nth py_index length Z.of_nat Z.leb Z.ltb Z.compare andb Z.to_nat Pos.to_nat nth_error bind Pos.compare Pos.compare_cont Pos.of_succ_nat Pos.succ Pos.iter_op Nat.add].
    eapply (rbind _ _ _ _ (fun x t => SR x t /\ shape t = [c; w; p * q; 1])).
    { assert (V : rres SR (s_view u [Z.of_nat c; Z.of_nat w; (Z.of_nat p * Z.of_nat q)%Z; 1%Z]) (view u' [Z.of_nat c; Z.of_nat w; (Z.of_nat p * Z.of_nat q)%Z; 1%Z])).
      { apply rview; [exact Hu|]. intros s Es _ _. rewrite <- Nat2Z.inj_mul in Es.
        apply (infer_exact _ [c; w; p * q; 1]) in Es. subst s. rewrite Su, Du. eapply view_pair; [exact true|exact Ht|exact St]. }
      unfold rres in *. destruct (s_view u _) as [x|e]; [|exact V].
      destruct (view u' _) as [y|e] eqn:Ey; [|exact V]. split; [exact V|].
      unfold view in Ey. rewrite <- Nat2Z.inj_mul in Ey.
      destruct (infer_shape _ _) as [s|] eqn:Es; [|discriminate]. injection Ey as <-.
      apply (infer_exact _ [c; w; p * q; 1]) in Es. exact Es. }
    intros v v' _ _ [Hv Sv].
    step rmatmul; [exact HM|exact Hv|]. intros z z' _ Ez Hz.
    destruct (matmul_last _ _ _ [c; w; p * q] 1 Ez Sv) as (bs & m & Sz).
    eapply rbind; [eapply rview_column; [exact Hz|exact Sz]|]. intros y y' _ _ Hy.
    step rpermute; [exact Hy|]. intros y2 y2' _ _ Hy2.
    eapply rbind; [eapply rdecomp2; [exact Hsvd|exact Hlay|exact Hy2]|]. intros rs rs' _ _ [H1 H2].
    step rset; [exact F|exact H1|]. intros m1 m1' _ _ F1. apply rset; assumption.
  Qed.

  Lemma rthree_site : forall G G' l l' m, rres SR G G' -> Forall2 SR l l' ->
    rres (Forall2 SR) (s_three_site svd svd_lay mmT G l m) (three_site svd G' l' m).
  Proof.
    intros G G' l l' m HG F. unfold s_three_site, three_site.
    step rnth; [exact F|]. intros a a' _ _ Ha. step rnth; [exact F|]. intros b b' _ _ Hb. step rnth; [exact F|]. intros c c' _ _ Hc.
    step runsqueeze; [exact Ha|]. intros a1 a1' _ _ Ha1. step runsqueeze; [exact Ha1|]. intros a2 a2' _ _ Ha2.
    step runsqueeze; [exact Hb|]. intros b1 b1' _ _ Hb1. step runsqueeze; [exact Hb1|]. intros b2 b2' _ _ Hb2.
    step rmatmul; [exact Ha2|exact Hb2|]. intros ab ab' _ _ Hab.
    step runsqueeze; [exact Hc|]. intros c1 c1' _ _ Hc1. step runsqueeze; [exact Hc1|]. intros c2 c2' _ _ Hc2.
    step rmatmul; [apply MM_SR; exact Hab|exact Hc2|]. intros t t' _ Et Ht.
    step rpermute; [apply MM_SR; exact Ht|]. intros u u' Eu Eu' Hu.
    destruct (permute_ranks _ _ _ Eu') as [R1 _].
    destruct (shape t') as [|p [|q [|r [|x [|w [|? ?]]]]]] eqn:St; try discriminate.
    assert (Su : shape u' = [x; w; p; q; r] /\ strd u = map (fun d => nth d (strd t) 0) [3; 4; 0; 1; 2]).
    { destruct Ht as [Hv _]. unfold s_permute in Eu. unfold permute in Eu, Eu'. rewrite Hv in Eu.
      unfold rank in Eu, Eu'. rewrite St in Eu, Eu'. cbn in Eu, Eu'. injection Eu as <-. injection Eu' as <-. split; reflexivity. }
    destruct Su as [Su Du]. rewrite (proj1 Hu), Su.
    change (map Z.of_nat [x; w; p; q; r]) with [Z.of_nat x; Z.of_nat w; Z.of_nat p; Z.of_nat q; Z.of_nat r].
    cbn [py_nth py_index length Z.of_nat Z.leb Z.ltb Z.compare andb Z.to_nat Pos.to_nat nth_error bind Pos.compare Pos.compare_cont Pos.of_succ_nat Pos.succ Pos.iter_op Nat.add].
    eapply (rbind _ _ _ _ (fun y t => SR y t /\ shape t = [x; w; p * q * r; 1])).
    { assert (V : rres SR (s_view u [Z.of_nat x; Z.of_nat w; (Z.of_nat p * Z.of_nat q * Z.of_nat r)%Z; 1%Z]) (view u' [Z.of_nat x; Z.of_nat w; (Z.of_nat p * Z.of_nat q * Z.of_nat r)%Z; 1%Z])).
      { apply rview; [exact Hu|]. intros s Es _ _. rewrite <- !Nat2Z.inj_mul in Es.
        apply (infer_exact _ [x; w; p * q * r; 1]) in Es. subst s. rewrite Su, Du. eapply view_triple; [exact Ht|exact St]. }
      unfold rres in *. destruct (s_view u _) as [y|e]; [|exact V].
      destruct (view u' _) as [y'|e] eqn:Ey; [|exact V]. split; [exact V|].
      unfold view in Ey. rewrite <- !Nat2Z.inj_mul in Ey.
      destruct (infer_shape _ _) as [s|] eqn:Es; [|discriminate]. injection Ey as <-.
      apply (infer_exact _ [x; w; p * q * r; 1]) in Es. exact Es. }
    intros v v' _ _ [Hv Sv].
    eapply rbind; [exact HG|]. intros g g' _ _ Hg.
    step rmatmul; [exact Hg|exact Hv|]. intros z z' _ Ez Hz.
    destruct (matmul_last _ _ _ [x; w; p * q * r] 1 Ez Sv) as (bs & k & Sz).
    eapply rbind; [eapply rview_column; [exact Hz|exact Sz]|]. intros y y' _ _ Hy.
    step rpermute; [exact Hy|]. intros y2 y2' _ _ Hy2.
    eapply rbind; [eapply rdecomp3; [exact Hsvd|exact Hlay|exact Hy2]|].
    intros [[r0 r1] r2] [[r0' r1'] r2'] _ _ (H0 & H1 & H2). cbn [fst snd] in *.
    step rset; [exact F|exact H0|]. intros m1 m1' _ _ F1. step rset; [exact F1|exact H1|]. intros m2 m2' _ _ F2.
    apply rset; assumption.
  Qed.

  (** *** TN_operation *)
  Lemma rsingle_op : forall M M' N w l l', SR M M' -> Forall2 SR l l' ->
    rres (Forall2 SR) (s_single_TN_operation ein_lay M N w l) (single_TN_operation M' N w l').
  Proof.
    intros M M' N w l l' HM F. unfold s_single_TN_operation, single_TN_operation. apply rraise. apply rbind_eq. intros k _.
    step rnth; [exact F|]. intros s s' _ _ Hs.
    eapply (rbind _ _ _ _ SR).
    - unfold s_einsum_ab_bcd. rewrite (proj1 HM), (proj1 Hs). destruct (einsum_ab_bcd M' s') as [r|e] eqn:E; [|reflexivity].
      cbn. split; [reflexivity|]. cbn. rewrite (proj2 Hlay). unfold einsum_ab_bcd in E.
      destruct (shape M') as [|? [|? [|? ?]]]; try discriminate. destruct (shape s') as [|? [|? [|? [|? ?]]]]; try discriminate.
      destruct (_ =? _); [|discriminate]. injection E as <-. reflexivity.
    - intros x x' _ _ Hx. apply rset; assumption.
  Qed.

  Lemma rswap_op : forall N w l l', Forall2 SR l l' ->
    rres (Forall2 SR) (s_swap_TN_operation svd svd_lay mmT N w l) (swap_TN_operation svd N w l').
  Proof.
    intros N w l l' F. unfold s_swap_TN_operation, swap_TN_operation. apply rraise. apply rbind_eq. intros ws _.
    apply rraise. apply rbind_eq. intros up _. apply rbind_eq. intros down _.
    eapply rbind; [apply rfold; [|exact F]; intros; apply rtwo_site; [apply SR_fresh|assumption]|].
    intros m m' _ _ Fm. apply rfold; [|exact Fm]. intros; apply rtwo_site; [apply SR_fresh|assumption].
  Qed.
  Lemma rswap_step : forall N l l' i j, Forall2 SR l l' ->
    rres (Forall2 SR) (s_swap_step svd svd_lay mmT N l i j) (swap_step svd N l' i j).
  Proof. intros. now apply rswap_op. Qed.

  Lemma rctrl_op : forall M M' R R' N w l l', SR M M' -> rres SR R R' -> Forall2 SR l l' ->
    rres (Forall2 SR) (s_ctrl_TN_operation svd svd_lay mmT M R N w l) (ctrl_TN_operation svd M' R' N w l').
  Proof.
    intros M M' R R' N w l l' HM HR F. unfold s_ctrl_TN_operation, ctrl_TN_operation. apply rraise. apply rbind_eq. intros ws _.
    apply rraise. apply rbind_eq. intros up _. apply rbind_eq. intros down _.
    eapply rbind; [apply rfold; [|exact F]; intros; apply rswap_step; assumption|]. intros m m' _ _ Fm.
    apply rbind_eq. intros w0 _. eapply (rbind _ _ _ _ SR); [destruct (w0 =? up)%Z; [exact HM|exact HR]|]. intros G G' _ _ HG.
    eapply rbind; [apply rtwo_site; [exact HG|exact Fm]|]. intros m2 m2' _ _ Fm2.
    apply rfold; [|exact Fm2]. intros; apply rswap_step; assumption.
  Qed.

  Lemma rcnot_op : forall M M' R R' N w l l', SR M M' -> rres SR R R' -> Forall2 SR l l' ->
    rres (Forall2 SR) (s_cnot_TN_operation svd svd_lay mmT M R N w l) (cnot_TN_operation svd M' R' N w l').
  Proof.
    intros M M' R R' N w l l' HM HR F. unfold s_cnot_TN_operation, cnot_TN_operation. apply rraise. apply rbind_eq. intros ws _.
    apply rbind_eq. intros up _. apply rbind_eq. intros down _. destruct (up + 1 =? down)%Z.
    - apply rbind_eq. intros w0 _. eapply (rbind _ _ _ _ SR); [destruct (w0 =? up)%Z; [exact HM|exact HR]|]. intros G G' _ _ HG.
      apply rtwo_site; assumption.
    - eapply rbind; [apply rfold; [|exact F]; intros; apply rswap_step; assumption|]. intros m m' _ _ Fm.
      apply rbind_eq. intros w0 _. eapply (rbind _ _ _ _ SR); [destruct (w0 =? up)%Z; [exact HM|exact HR]|]. intros G G' _ _ HG.
      eapply rbind; [apply rtwo_site; [exact HG|exact Fm]|]. intros m2 m2' _ _ Fm2.
      apply rfold; [|exact Fm2]. intros; apply rswap_step; assumption.
  Qed.

  Lemma rtoffoli_op : forall M M' A A' B B' N w l l', SR M M' -> rres SR A A' -> rres SR B B' -> Forall2 SR l l' ->
    rres (Forall2 SR) (s_toffoli_TN_operation svd svd_lay mmT M A B N w l) (toffoli_TN_operation svd M' A' B' N w l').
  Proof.
    intros M M' A A' B B' N w l l' HM HA HB F. unfold s_toffoli_TN_operation, toffoli_TN_operation. apply rraise. apply rbind_eq. intros ws _.
    apply rbind_eq. intros up _. apply rbind_eq. intros mid _. apply rbind_eq. intros down _.
    eapply rbind; [apply rfold; [|exact F]; intros; apply rswap_step; assumption|]. intros m m' _ _ Fm.
    eapply rbind; [apply rfold; [|exact Fm]; intros; apply rswap_step; assumption|]. intros m2 m2' _ _ Fm2.
    apply rbind_eq. intros w2 _.
    eapply rbind; [apply rthree_site; [|exact Fm2]; destruct (down =? w2)%Z; [exact HM|destruct (mid =? w2)%Z; [exact HA|exact HB]]|].
    intros m3 m3' _ _ Fm3.
    eapply rbind; [apply rfold; [|exact Fm3]; intros; apply rswap_step; assumption|]. intros m4 m4' _ _ Fm4.
    apply rfold; [|exact Fm4]. intros; apply rswap_step; assumption.
  Qed.

  (** *** TN_contract *)
  Lemma rcontract1 : forall M M' n w x t, SR M M' -> SR x t -> rres SR (s_contract1_at mmT M n w x) (contract1_at M' n w t).
  Proof.
    intros M M' n w x t HM Hx. unfold s_contract1_at, contract1_at. apply rbind_eq. intros p _. apply rbind_eq. intros p2 _.
    step rpermute; [exact Hx|]. intros a a' _ _ Ha. step runsqueeze; [exact Ha|]. intros b b' _ _ Hb.
    step rmatmul; [exact HM|exact Hb|]. intros c c' _ _ Hc. step rsqueeze_dim; [apply MM_SR; exact Hc|]. intros d d' _ _ Hd.
    apply rpermute. exact Hd.
  Qed.
  Lemma rsingle_ct : forall M M' N w x t b, SR M M' -> SR x t -> rres SR (s_single_TN_contract mmT M N w x b) (single_TN_contract M' N w t b).
  Proof.
    intros M M' N w x t b HM Hx. unfold s_single_TN_contract, single_TN_contract. apply rraise. apply rbind_eq. intros k _.
    destruct b; now apply rcontract1.
  Qed.

  Lemma set_last : forall (s r : list Z) x, py_set s (-1) x = Ok r -> exists l, r = l ++ [x].
  Proof.
    intros s r x H. unfold py_set in H. destruct (py_index (length s) (-1)) as [k|e] eqn:E; [|discriminate]. cbn in H. injection H as <-.
    destruct s as [|a s _] using rev_ind; [discriminate|]. unfold py_index in E. rewrite app_length in E. cbn [length] in E.
    change (0 <=? -1)%Z with false in E. cbn [andb] in E.
    replace (- Z.of_nat (length s + 1) <=? -1)%Z with true in E by (symmetry; apply Z.leb_le; lia).
    change (-1 <? 0)%Z with true in E. cbn [andb] in E. match type of E with Ok ?z = _ => assert (Ek : z = k) by congruence; rewrite <- Ek in *; clear E Ek end.
    replace (Z.to_nat (-1 + Z.of_nat (length s + 1))) with (length s + 0) by lia. rewrite set_nth_app2. exists s. reflexivity.
  Qed.
  Lemma set_last2 : forall (s r r2 : list Z) x y, py_set s (-2) x = Ok r -> py_set r (-1) y = Ok r2 -> exists l, r2 = l ++ [x; y].
  Proof.
    intros s r r2 x y H H2. unfold py_set in H. destruct (py_index (length s) (-2)) as [k|e] eqn:E; [|discriminate]. cbn in H. injection H as <-.
    destruct s as [|a s _] using rev_ind; [discriminate|]. destruct s as [|b s _] using rev_ind; [discriminate|].
    unfold py_index in E. rewrite !app_length in E. cbn [length] in E.
    change (0 <=? -2)%Z with false in E. cbn [andb] in E.
    replace (- Z.of_nat (length s + 1 + 1) <=? -2)%Z with true in E by (symmetry; apply Z.leb_le; lia).
    change (-2 <? 0)%Z with true in E. cbn [andb] in E. match type of E with Ok ?z = _ => assert (Ek : z = k) by congruence; rewrite <- Ek in *; clear E Ek end.
    replace (Z.to_nat (-2 + Z.of_nat (length s + 1 + 1))) with (length s + 0) in H2 by lia.
    rewrite <- app_assoc, set_nth_app2 in H2. cbn [set_nth app] in H2.
    unfold py_set in H2. unfold py_index in H2. rewrite app_length in H2. cbn [length] in H2.
    change (0 <=? -1)%Z with false in H2. cbn [andb] in H2.
    replace (- Z.of_nat (length s + 2) <=? -1)%Z with true in H2 by (symmetry; apply Z.leb_le; lia).
    change (-1 <? 0)%Z with true in H2. cbn [andb bind] in H2. match type of H2 with Ok ?z = _ => assert (Ek : z = r2) by congruence; rewrite <- Ek; clear H2 Ek end.
    replace (Z.to_nat (-1 + Z.of_nat (length s + 2))) with (length s + 1) by lia. rewrite set_nth_app2. exists s. reflexivity.
  Qed.

  Lemma view_shape : forall t l l2 r, view t (l ++ map Z.of_nat l2) = Ok r -> exists s, shape r = s ++ l2.
  Proof.
    intros t l l2 r H. unfold view in H. destruct (infer_shape _ _) as [s|] eqn:E; [|discriminate]. injection H as <-. cbn.
    apply infer_sound in E as [_ E]. apply Forall2_app_inv_l in E as (s1 & s2 & _ & E & ->). exists s1. f_equal.
    clear -E. revert s2 E. induction l2 as [|a l2 IH]; intros s2 E; inversion E as [|? ? ? ? Hh Ht]; subst; [reflexivity|].
    f_equal; [destruct Hh; [lia|]; subst; apply Nat2Z.id|]. apply IH. exact Ht.
  Qed.

  Lemma rcontract2 : forall M M' n c w vs x t, SR M M' -> SR x t ->
    rres SR (s_contract2_at mmT M n c w vs x) (contract2_at M' n c w vs t).
  Proof.
    intros M M' n c w vs x t HM Hx. unfold s_contract2_at, contract2_at. apply rbind_eq. intros p _. apply rbind_eq. intros p2 _.
    step rpermute; [exact Hx|]. intros T T' _ _ HT. rewrite (proj1 HT).
    apply rbind_eq. intros a _. apply rbind_eq. intros b _. apply rbind_eq. intros s _. apply rbind_eq. intros s2 Es2.
    step rreshape; [exact HT|]. intros T1 T1' _ ET1 HT1.
    step rmatmul; [exact HM|exact HT1|]. intros T2 T2' _ ET2 HT2.
    destruct (set_last _ _ _ Es2) as [l ->]. destruct (view_shape _ _ [1] _ ET1) as [l2 Sl2].
    destruct (matmul_last _ _ _ _ _ ET2 Sl2) as (bs & m & Sm). rewrite (proj1 HT1).
    eapply rbind; [eapply rview_column; [exact HT2|exact Sm]|]. intros T3 T3' _ _ HT3.
    apply rbind_eq. intros q _. apply rbind_eq. intros q2 _. apply rpermute. exact HT3.
  Qed.
  Lemma rdouble_ct : forall M M' N w x t b, SR M M' -> SR x t -> rres SR (s_double_TN_contract mmT M N w x b) (double_TN_contract M' N w t b).
  Proof.
    intros M M' N w x t b HM Hx. unfold s_double_TN_contract, double_TN_contract. apply rraise. apply rbind_eq. intros k _.
    apply rbind_eq. intros k2 _. rewrite (proj1 Hx). apply rassert. destruct b; apply rassert; now apply rcontract2.
  Qed.
  Lemma rswap_ct : forall N w x t b, SR x t -> rres SR (s_swap_TN_contract N w x b) (swap_TN_contract N w t b).
  Proof.
    intros N w x t b Hx. unfold s_swap_TN_contract, swap_TN_contract. apply rraise. apply rbind_eq. intros k _.
    apply rbind_eq. intros k2 _. rewrite (proj1 Hx). apply rassert.
    destruct b; apply rassert; unfold s_swap_contract_at, swap_contract_at; apply rbind_eq; intros p _; apply rbind_eq; intros p2 _;
      now apply rpermute.
  Qed.

  Lemma squeeze_last : forall t r s, squeeze_dim t (-1) = Ok r -> shape t = s ++ [1; 1] -> shape r = s ++ [1].
  Proof.
    intros t r s H Hs. unfold squeeze_dim, dim_index, py_index, rank in H. rewrite Hs, app_length in H. cbn [length] in H.
    change (0 <=? -1)%Z with false in H. cbn [andb] in H.
    replace (- Z.of_nat (length s + 2) <=? -1)%Z with true in H by (symmetry; apply Z.leb_le; lia).
    change (-1 <? 0)%Z with true in H. cbn [andb bind] in H.
    replace (Z.to_nat (-1 + Z.of_nat (length s + 2))) with (length s + 1) in H by lia.
    rewrite app_nth2_plus in H. cbn [nth Nat.eqb] in H. match type of H with Ok ?z = _ => assert (Ek : z = r) by congruence; rewrite <- Ek; clear H Ek end. cbn [shape].
    rewrite firstn_app_2. cbn [firstn]. replace (S (length s + 1)) with (length (s ++ [1; 1])) by (rewrite app_length; cbn; lia).
    rewrite skipn_all. now rewrite app_nil_r.
  Qed.

  Lemma rcontract3 : forall M M' n c1 c2 w vs x t, SR M M' -> SR x t ->
    rres SR (s_contract3_at mmT M n c1 c2 w vs x) (contract3_at M' n c1 c2 w vs t).
  Proof.
    intros M M' n c1 c2 w vs x t HM Hx. unfold s_contract3_at, contract3_at. do 3 (apply rbind_eq; intros ? _).
    step rpermute; [exact Hx|]. intros T T' _ _ HT. rewrite (proj1 HT).
    do 4 (apply rbind_eq; intros ? _). apply rbind_eq. intros s1 Es1. apply rbind_eq. intros s2 Es2.
    step rreshape; [exact HT|]. intros T1 T1' _ ET1 HT1.
    step rsqueeze_dim; [exact HT1|]. intros Tq Tq' _ ETq HTq.
    step rmatmul; [exact HM|exact HTq|]. intros T2 T2' _ ET2 HT2.
    destruct (set_last2 _ _ _ _ _ Es1 Es2) as [l ->]. destruct (view_shape _ _ [1; 1] _ ET1) as [l2 Sl2].
    pose proof (squeeze_last _ _ _ ETq Sl2) as Sq.
    destruct (matmul_last _ _ _ _ _ ET2 Sq) as (bs & m & Sm). rewrite (proj1 HT1).
    eapply rbind; [eapply rview_column; [exact HT2|exact Sm]|]. intros T3 T3' _ _ HT3.
    do 3 (apply rbind_eq; intros ? _). apply rpermute. exact HT3.
  Qed.
  Lemma rtriple_ct : forall M M' N w x t b, SR M M' -> SR x t -> rres SR (s_triple_TN_contract mmT M N w x b) (triple_TN_contract M' N w t b).
  Proof.
    intros M M' N w x t b HM Hx. unfold s_triple_TN_contract, triple_TN_contract. apply rraise. do 3 (apply rbind_eq; intros ? _).
    rewrite (proj1 Hx). apply rassert. destruct b; apply rassert; now apply rcontract3.
  Qed.
End Agree2.
