(** The functions with memory layouts agree with those without: state vectors and density matrices. *)
From Coq Require Import List ZArith QArith Lia Bool Arith.
From Verif Require Import PyBase Scalar BigSum Index Tensor Spec MPSSpec MPDOSpec QTN QOperator QStride StrideFacts StrideProofs StrideProofs2.
Import ListNotations.
Local Close Scope Q_scope.
Local Open Scope nat_scope.

Section Agree3.
  Context {SC : Scalar}.
  Variable svd : tensor -> tensor * tensor * tensor.
  Variable svd_lay : stensor -> list nat * list nat * list nat.
  Variable mmT : stensor -> stensor -> bool.
  Variable ein_lay : stensor -> stensor -> list nat.
  Hypothesis Hsvd : svd_ranks svd.
  Hypothesis Hlay : lay_ranks svd_lay ein_lay.

  Ltac step L := eapply rbind; [apply L|].

  Lemma view_merge : forall p q l w x t1, MM x t1 -> shape t1 = [p; q; l; w] ->
    view_strides [p; q; l; w] (strd x) [p * q; l; w] <> None.
  Proof.
    intros p q l w x t1 [_ [b Hb]] Hs. rewrite Hb, Hs. clear Hb.
    apply view_fits; [destruct b; reflexivity|cbn; ring|].
    assert (E : rev (combine [p; q; l; w] (if b then swap_last (cstrides (swap_last [p; q; l; w])) else cstrides [p; q; l; w]))
      = if b then [(w, l * 1); (l, 1); (q, w * (l * 1)); (p, q * (w * (l * 1)))] else [(w, 1); (l, w * 1); (q, l * (w * 1)); (p, q * (l * (w * 1)))])
      by (destruct b; reflexivity).
    rewrite E. cbn [rev app].
    destruct b; (apply (fits_cut _ _ _ [w]); [cbn; ring|]; apply (fits_cut _ _ _ [l]); [cbn; ring|];
      apply fits_join; [reflexivity|]; apply (fits_cut _ _ [] [p * q] []); [cbn; ring|]; now constructor).
  Qed.
  Lemma view_merge2 : forall p q r u l w x t1, MM x t1 -> shape t1 = [p; q; r; u; l; w] ->
    view_strides [p; q; r; u; l; w] (strd x) [p * q; r * u; l; w] <> None.
  Proof.
    intros p q r u l w x t1 [_ [b Hb]] Hs. rewrite Hb, Hs. clear Hb.
    apply view_fits; [destruct b; reflexivity|cbn; ring|].
    assert (E : rev (combine [p; q; r; u; l; w] (if b then swap_last (cstrides (swap_last [p; q; r; u; l; w])) else cstrides [p; q; r; u; l; w]))
      = if b then [(w, l * 1); (l, 1); (u, w * (l * 1)); (r, u * (w * (l * 1))); (q, r * (u * (w * (l * 1)))); (p, q * (r * (u * (w * (l * 1)))))]
        else [(w, 1); (l, w * 1); (u, l * (w * 1)); (r, u * (l * (w * 1))); (q, r * (u * (l * (w * 1)))); (p, q * (r * (u * (l * (w * 1)))))])
      by (destruct b; reflexivity).
    rewrite E. cbn [rev app].
    destruct b; (apply (fits_cut _ _ _ [w]); [cbn; ring|]; apply (fits_cut _ _ _ [l]); [cbn; ring|];
      apply fits_join; [reflexivity|]; apply (fits_cut _ _ _ [r * u]); [cbn; ring|];
      apply fits_join; [reflexivity|]; apply (fits_cut _ _ [] [p * q] []); [cbn; ring|]; now constructor).
  Qed.

  (** all dimensions but one have size 1: any strides *)
  Lemma view_line1 : forall n a s, prodn s = n * 1 -> view_strides [n] [a] s <> None.
  Proof.
    intros n a s H. apply view_fits; [reflexivity|cbn; lia|]. cbn [combine rev app].
    rewrite <- (app_nil_r (rev s)). apply fits_cut; [rewrite prodn_rev; lia|]. now constructor.
  Qed.
  Lemma view_row : forall n a b s, prodn s = n -> view_strides [1; n] [a; b] s <> None.
  Proof.
    intros n a b s H. apply view_fits; [reflexivity|cbn; lia|]. cbn [combine rev app].
    rewrite <- (app_nil_r (rev s)). apply fits_cut; [rewrite prodn_rev; lia|].
    apply (fits_cut 1 a [] [] []); [reflexivity|]. now constructor.
  Qed.
  Lemma view_line3 : forall n a b c s, prodn s = n -> view_strides [n; 1; 1] [a; b; c] s <> None.
  Proof.
    intros n a b c s H. apply view_fits; [reflexivity|cbn; lia|]. cbn [combine rev app].
    apply (fits_cut 1 c _ [] (rev s)); [reflexivity|]. apply (fits_cut 1 b _ [] (rev s)); [reflexivity|].
    rewrite <- (app_nil_r (rev s)). apply fits_cut; [rewrite prodn_rev; lia|]. now constructor.
  Qed.

  Lemma view_exact : forall t l r, view t (map Z.of_nat l) = Ok r -> shape r = l.
  Proof.
    intros t l r H. unfold view in H. destruct (infer_shape _ _) as [s|] eqn:E; [|discriminate]. injection H as <-. cbn.
    eapply infer_exact. exact E.
  Qed.

  Lemma unsq0 : forall t r, unsqueeze t 0 = Ok r -> shape r = 1 :: shape t.
  Proof. intros t r H. cbn in H. injection H as <-. reflexivity. Qed.

  Lemma bcast1 : forall x, bcast [x; 1] [1; 2] = Some [x; 2].
  Proof. intros x. unfold bcast. cbn. destruct (Nat.eqb_spec x 1) as [->|]; [reflexivity|]. destruct x; reflexivity. Qed.

  Lemma matmul_sites : forall c t r x D D', matmul c t = Ok r -> shape c = [x; 1; 1; D] -> shape t = [1; 2; D; D'] -> shape r = [x; 2; 1; D'].
  Proof.
    intros c t r x D D' H Hc Ht. unfold matmul in H. rewrite Hc, Ht in H. cbn [rev app] in H. rewrite Nat.eqb_refl, bcast1 in H.
    injection H as <-. reflexivity.
  Qed.

  Lemma fold_sites : forall ts ts' c c' D x, Forall2 SR ts ts' -> SR c c' -> shape c' = [x; 1; D] -> chain D ts' 1 ->
    rres (fun c c' => SR c c' /\ exists y, shape c' = [y; 1; 1])
      (mfold (fun c t =>
            do temp <- s_unsqueeze t 0;
            do c1 <- s_unsqueeze c 1;
            do c2 <- s_matmul mmT c1 temp;
            let s := shape (val c2) in
            s_view c2 [Z.of_nat (nth 0 s 0 * nth 1 s 0); zdim (val c2) 2; zdim (val c2) 3]) ts c)
      (mfold (fun c t =>
            do temp <- unsqueeze t 0;
            do c1 <- unsqueeze c 1;
            do c2 <- matmul c1 temp;
            view c2 [Z.of_nat (nth 0 (shape c2) 0 * nth 1 (shape c2) 0); zdim c2 2; zdim c2 3]) ts' c').
  Proof.
    intros ts ts' c c' D x F. revert c c' D x. induction F as [|t t' ts ts' Ht F IH]; intros c c' D x Hc Sc Hch.
    - cbn in *. subst D. split; [exact Hc|]. exists x. exact Sc.
    - destruct Hch as (D' & HD' & St & _ & Hch). cbn [mfold].
      eapply (rbind _ _ _ _ (fun c c' => SR c c' /\ shape c' = [x * 2; 1; D'])).
      + step runsqueeze; [exact Ht|]. intros u u' _ Eu Hu. step runsqueeze; [exact Hc|]. intros c1 c1' _ Ec1 Hc1.
        step rmatmul; [exact Hc1|exact Hu|]. intros c2 c2' _ Ec2 Hc2. cbv zeta. rewrite (proj1 Hc2).
        apply unsq0 in Eu. rewrite St in Eu.
        assert (Sc1 : shape c1' = [x; 1; 1; D]).
        { unfold unsqueeze, rank in Ec1. rewrite Sc in Ec1. cbn in Ec1. injection Ec1 as <-. reflexivity. }
        pose proof (matmul_sites _ _ _ _ _ _ Ec2 Sc1 Eu) as S2. unfold zdim. rewrite S2. cbn [nth].
        change [Z.of_nat (x * 2); Z.of_nat 1; Z.of_nat D'] with (map Z.of_nat [x * 2; 1; D']).
        assert (V : rres SR (s_view c2 (map Z.of_nat [x * 2; 1; D'])) (view c2' (map Z.of_nat [x * 2; 1; D']))).
        { apply rview; [apply MM_SR; exact Hc2|]. intros s Es _ _. apply infer_exact in Es. subst s. rewrite S2.
          eapply view_merge; [exact Hc2|exact S2]. }
        unfold rres in *. destruct (s_view c2 _) as [y|e]; [|exact V]. destruct (view c2' _) as [y'|e] eqn:E; [|exact V].
        split; [exact V|]. eapply view_exact. exact E.
      + intros d d' _ _ [Hd Sd]. eapply IH; eassumption.
  Qed.

  Lemma rMPS2StateVec : forall n l l', Forall2 SR l l' -> mps_shape n l' ->
    rres SR (s_MPS2StateVec mmT l) (MPS2StateVec l').
  Proof.
    intros n l l' F [_ Hch]. destruct F as [|t t' ts ts' Ht F]; [reflexivity|].
    destruct Hch as (D & HD & St & _ & Hch). unfold s_MPS2StateVec, MPS2StateVec.
    eapply rbind; [eapply fold_sites; eassumption|]. intros c c' _ _ [[Hv Hl] [y Sy]].
    eapply rbind; [apply rview; [split; [exact Hv|exact Hl]|]|].
    { intros s _ Hp _. rewrite Sy in *. destruct (strd c) as [|a [|b [|d [|? ?]]]]; try discriminate.
      apply view_line3. cbn in Hp. lia. }
    intros c1 c1' _ E1 [Hv1 Hl1]. apply rview; [split; [exact Hv1|exact Hl1]|]. intros s _ Hp _.
    assert (S1 : exists k, shape c1' = [k]).
    { unfold view in E1. destruct (infer_shape _ _) as [s1|] eqn:Ei; [|discriminate]. injection E1 as <-. cbn.
      apply infer_sound in Ei as [_ Ei]. inversion Ei as [|? ? ? ? _ Ht']; subst. inversion Ht'; subst. eexists; reflexivity. }
    destruct S1 as [k S1]. rewrite S1 in *. destruct (strd c1) as [|a [|? ?]]; try discriminate.
    apply view_line1. exact Hp.
  Qed.

  Lemma rMatrixProductState : forall x t N, SR x t -> rres SR (s_MatrixProductState x N) (MatrixProductState t N).
  Proof.
    intros x t N [<- Hl]. unfold s_MatrixProductState, MatrixProductState, raise_if.
    destruct (negb (length (shape (val x)) =? 2)) eqn:E1; [reflexivity|].
    destruct (negb (nth 0 (shape (val x)) 0 =? 1) || negb (nth 1 (shape (val x)) 0 =? 2 ^ N)) eqn:E2; [reflexivity|].
    apply negb_false_iff, Nat.eqb_eq in E1. apply orb_false_iff in E2 as [E2 E3].
    apply negb_false_iff, Nat.eqb_eq in E2. apply negb_false_iff, Nat.eqb_eq in E3.
    apply rview; [split; [reflexivity|exact Hl]|]. intros s _ Hp _. rewrite E1 in Hl.
    destruct (shape (val x)) as [|m [|k [|? ?]]]; try discriminate. cbn [nth] in *. subst m k.
    destruct (strd x) as [|a [|b [|? ?]]]; try discriminate. apply view_row. rewrite Hp. unfold prodn. lia.
  Qed.

  Lemma rMPDO : forall x t N, SR x t -> rres SR (s_MatrixProductDensityOperator x N) (MatrixProductDensityOperator t N).
  Proof.
    intros x t N [<- Hl]. unfold s_MatrixProductDensityOperator, MatrixProductDensityOperator, raise_if.
    destruct (negb (length (shape (val x)) =? 2)) eqn:E1; [reflexivity|].
    destruct (negb (nth 0 (shape (val x)) 0 =? 2 ^ N) || negb (nth 1 (shape (val x)) 0 =? 2 ^ N)) eqn:E2; [reflexivity|].
    apply negb_false_iff, Nat.eqb_eq in E1. apply orb_false_iff in E2 as [E2 E3].
    apply negb_false_iff, Nat.eqb_eq in E2. apply negb_false_iff, Nat.eqb_eq in E3.
    eapply rbind; [apply rview; [split; [reflexivity|exact Hl]|]|].
    - intros s Es Hp _. rewrite E1 in Hl.
      destruct (shape (val x)) as [|m [|k [|? ?]]]; try discriminate. cbn [nth] in *. subst m k.
      destruct (strd x) as [|a [|b [|? ?]]]; try discriminate.
      assert (Ss : s = repeat 2 N ++ repeat 2 N).
      { rewrite <- repeat_app. replace (N + N) with (2 * N) by lia.
        replace (repeat 2%Z (2 * N)) with (map Z.of_nat (repeat 2 (2 * N))) in Es by (generalize (2 * N); intros k; induction k; cbn [repeat map]; [reflexivity|]; now f_equal).
        eapply infer_exact. exact Es. }
      subst s. apply view_fits; [reflexivity|exact Hp|]. cbn [combine rev app]. rewrite rev_app_distr.
      apply fits_cut; [rewrite prodn_rev, prodn_repeat; reflexivity|].
      rewrite <- (app_nil_r (rev (repeat 2 N))). apply fits_cut; [rewrite prodn_rev, prodn_repeat; reflexivity|]. now constructor.
    - intros r r' _ _ Hr. rewrite (proj1 Hr). apply rassert. exact Hr.
  Qed.

  Lemma F2_evens : forall A B (P : A -> B -> Prop) l l', Forall2 P l l' -> Forall2 P (evens l) (evens l') /\ Forall2 P (odds l) (odds l').
  Proof.
    intros A B P l. induction l as [l IH] using (induction_ltof1 _ (@length A)). unfold ltof in IH. intros l' F.
    assert (G : forall l l', Forall2 P l l' -> (forall y, length y < length l -> forall l', Forall2 P y l' -> Forall2 P (evens y) (evens l')) -> Forall2 P (evens l) (evens l')).
    { intros m m' Fm K. destruct Fm as [|a b m m' Hab Fm]; [constructor|]. destruct Fm as [|a2 b2 m m' Hab2 Fm]; [cbn; auto|].
      cbn [evens]. constructor; [exact Hab|]. apply K; [cbn; lia|exact Fm]. }
    split.
    - apply G; [exact F|]. intros y Hy l2 F2. now apply IH.
    - destruct F as [|a b m m' Hab Fm]; [constructor|]. cbn [odds]. apply IH; [cbn; lia|exact Fm].
  Qed.

  (** Rho2MPS: the density matrix has to be contiguous *)
  Lemma rRho2MPS : forall t N, rres (Forall2 SR) (s_Rho2MPS svd svd_lay mmT (fresh t) N) (Rho2MPS svd t N).
  Proof.
    intros t N. unfold s_Rho2MPS, Rho2MPS, Rho2MPS_full. cbn [val fresh].
    unfold raise_if. destruct (negb (length (shape t) =? 2)); [reflexivity|].
    destruct (negb (nth 0 (shape t) 0 =? 2 ^ N) || negb (nth 1 (shape t) 0 =? 2 ^ N)); [reflexivity|].
    assert (A : forall A B C (x : res A) (k : A -> res B) (g : B -> res C), bind (bind x k) g = bind x (fun a => bind (k a) g)) by (intros ? ? ? [?|?] ? ?; reflexivity).
    rewrite A. eapply rbind; [apply rview_fresh|]. intros r0 r0' _ _ Hr0.
    apply (rbind _ _ _ _ (fun p q => SR (fst p) (fst q) /\ Forall2 SR (snd p) (snd q))); [|intros a b _ _ [_ H]; exact H].
    apply rfold; [|split; [exact Hr0|constructor]].
    intros [c l] [c' l'] i [Hc F]. cbn [fst snd] in *.
    step rchunk; [exact Hc|]. intros ch ch' _ _ Fch. step rcat; [exact Fch|]. intros r r' _ _ ->.
    step rmap.
    { intros j. cbn [val fresh]. step rchunk; [apply SR_slice; apply SR_fresh|]. intros bl bl' _ _ Fbl.
      destruct (F2_evens _ _ _ _ _ Fbl) as [Fe Fo].
      step rcat; [exact Fe|]. intros e e' _ _ ->. step rcat; [exact Fo|]. intros o o' _ _ ->.
      eapply rres_weaken; [|apply rcat; auto using SR_fresh]. intros a b Hab; apply fresh_SR; exact Hab. }
    intros ls ls' _ _ Fls. step rcat; [exact Fls|]. intros q q' _ _ ->.
    eapply rbind; [eapply rsvd_cut; [exact Hsvd|exact Hlay|apply SR_fresh]|]. intros uc uc' _ _ [[H1 H2] H3].
    step rview_matrix2; [exact H1|exact H2|]. intros s s' _ _ Hs. cbn. split; [apply MM_SR; exact H3|]. apply Forall2_app; auto.
  Qed.

  (** *** MPS2Rho *)
  Lemma bcast2 : forall x y, bcast [x; 1; y; 1] [1; 2; 1; 2] = Some [x; 2; y; 2].
  Proof.
    intros x y. unfold bcast. cbn. destruct (Nat.eqb_spec x 1) as [->|]; destruct (Nat.eqb_spec y 1) as [->|]; cbn;
      repeat match goal with |- context [if ?c then _ else _] => destruct c eqn:?; cbn end; try reflexivity;
      repeat match goal with H : (_ =? _) = true |- _ => apply Nat.eqb_eq in H; subst end; congruence.
  Qed.
  Lemma matmul_sites2 : forall c t r x y D D', matmul c t = Ok r -> shape c = [x; 1; y; 1; 1; D] -> shape t = [1; 2; 1; 2; D; D'] ->
    shape r = [x; 2; y; 2; 1; D'].
  Proof.
    intros c t r x y D D' H Hc Ht. unfold matmul in H. rewrite Hc, Ht in H. cbn [rev app] in H. rewrite Nat.eqb_refl, bcast2 in H.
    injection H as <-. reflexivity.
  Qed.
  Lemma rMPS2Rho_raw : forall l l', Forall2 SR l l' -> chain4 1 l' 1 -> rres SR (s_MPS2Rho_raw mmT l) (MPS2Rho_raw l').
  Proof.
    intros l l' F Hch. destruct F as [|t t' ts ts' Ht F]; [reflexivity|].
    destruct Hch as (D & HD & St & _ & Hch). unfold s_MPS2Rho_raw, MPS2Rho_raw.
    eapply (rbind _ _ _ _ SR); [|intros a b _ _ H; apply SR_squeeze; exact H].
    assert (Sx : exists x y, shape t' = [x; y; 1; D]) by (exists 2, 2; exact St). clear St HD.
    revert t t' D Ht Hch Sx. induction F as [|u u' ts ts' Hu F IH]; intros c c' D Hc Hch (x & y & Sc).
    - exact Hc.
    - destruct Hch as (D' & HD' & Su & _ & Hch). cbn [mfold].
      eapply (rbind _ _ _ _ (fun c c' => SR c c' /\ shape c' = [x * 2; y * 2; 1; D'])).
      + step runsqueeze; [exact Hc|]. intros a1 a1' _ Ea1 Ha1. step runsqueeze; [exact Ha1|]. intros a2 a2' _ Ea2 Ha2.
        step runsqueeze; [exact Hu|]. intros b1 b1' _ Eb1 Hb1. step runsqueeze; [exact Hb1|]. intros b2 b2' _ Eb2 Hb2.
        step rmatmul; [exact Ha2|exact Hb2|]. intros r r' _ Er Hr. cbv zeta. rewrite (proj1 Hr).
        assert (S1 : shape a2' = [x; 1; y; 1; 1; D]).
        { unfold unsqueeze, rank in Ea1. rewrite Sc in Ea1. cbn in Ea1. injection Ea1 as <-.
          unfold unsqueeze, rank in Ea2. cbn in Ea2. injection Ea2 as <-. reflexivity. }
        assert (S2 : shape b2' = [1; 2; 1; 2; D; D']).
        { unfold unsqueeze, rank in Eb1. rewrite Su in Eb1. cbn in Eb1. injection Eb1 as <-.
          unfold unsqueeze, rank in Eb2. cbn in Eb2. injection Eb2 as <-. reflexivity. }
        pose proof (matmul_sites2 _ _ _ _ _ _ _ Er S1 S2) as S3. unfold zdim. rewrite S3. cbn [nth].
        change [Z.of_nat (x * 2); Z.of_nat (y * 2); Z.of_nat 1; Z.of_nat D'] with (map Z.of_nat [x * 2; y * 2; 1; D']).
        assert (V : rres SR (s_view r (map Z.of_nat [x * 2; y * 2; 1; D'])) (view r' (map Z.of_nat [x * 2; y * 2; 1; D']))).
        { apply rview; [apply MM_SR; exact Hr|]. intros s Es _ _. apply infer_exact in Es. subst s. rewrite S3.
          eapply view_merge2; [exact Hr|exact S3]. }
        unfold rres in *. destruct (s_view r _) as [z|e]; [|exact V]. destruct (view r' _) as [z'|e] eqn:E; [|exact V].
        split; [exact V|]. eapply view_exact. exact E.
      + intros d d' _ _ [Hd Sd]. eapply IH; [exact Hd|exact Hch|]. exists (x * 2), (y * 2). exact Sd.
  Qed.
End Agree3.
