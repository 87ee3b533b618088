(** torch's rule for [view]: when it succeeds. *)
From Coq Require Import List ZArith QArith Lia Bool Arith.
From Verif Require Import PyBase Scalar BigSum Index Tensor QTN QOperator QStride.
Import ListNotations.
Local Close Scope Q_scope.
Local Open Scope nat_scope.

Definition allpos (l : list nat) : Prop := Forall (fun n => 0 < n) l.

(** dimensions of the tensor, from the last on, over which the new dimensions can be laid: a dimension is cut off with
    the new dimensions that split it, or two neighbouring dimensions are first joined, if their strides allow it *)
Inductive fits : list (nat * nat) -> list nat -> Prop :=
| fits_nil : forall l, prodn l = 1 -> fits [] l
| fits_cut : forall s st old seg new, prodn seg = s -> fits old new -> fits ((s, st) :: old) (seg ++ new)
| fits_join : forall s st s' st' old new,
    st' = s * st -> fits ((s * s', st) :: old) new -> fits ((s, st) :: (s', st') :: old) new.

Lemma allpos_prodn : forall l, allpos l -> 0 < prodn l.
Proof. induction 1 as [|a l Ha Hl IH]; cbn; nia. Qed.

Lemma allpos_app : forall l1 l2, allpos (l1 ++ l2) <-> allpos l1 /\ allpos l2.
Proof. intros. apply Forall_app. Qed.

Lemma fits_strip : forall old new, fits old (1 :: new) -> fits old new.
Proof.
  intros old new H. remember (1 :: new) as l eqn:E. revert new E.
  induction H as [l Hl | s st old seg nw Hs H IH | s st s' st' old nw Hst H IH]; intros new E; subst.
  - constructor. cbn in Hl. lia.
  - destruct seg as [|a seg].
    + cbn in E. apply (fits_cut (prodn []) st old []); [reflexivity|]. apply IH. exact E.
    + cbn in E. injection E as -> <-. apply (fits_cut _ st old seg); [cbn; lia|exact H].
  - apply fits_join; [reflexivity|]. apply IH. reflexivity.
Qed.

(** new dimensions whose sizes multiply to the size of the block are consumed, with the ones of size 1 that follow *)
Lemma fill_exact : forall base tn pre rest vn, 0 < vn -> allpos pre -> vn * prodn pre = tn ->
  exists st r ones, fill base tn vn (pre ++ rest) = (st, tn, r) /\ rest = repeat 1 ones ++ r.
Proof.
  intros base tn pre rest. induction pre as [|a pre IH]; intros vn Hv Hp Hn.
  - cbn in Hn. assert (vn = tn) by lia. subst vn. clear Hn. cbn [app].
    assert (F : forall rest, exists st r ones, fill base tn tn rest = (st, tn, r) /\ rest = repeat 1 ones ++ r).
    { clear rest. induction rest as [|s rest IH].
      - exists [], [], 0. split; reflexivity.
      - cbn [fill]. rewrite Nat.ltb_irrefl. cbn [orb]. destruct (Nat.eqb_spec s 1) as [->|Hs].
        + destruct IH as (st & r & ones & Hf & Hr). rewrite Nat.mul_1_r, Hf.
          exists (tn * base :: st), r, (S ones). split; [reflexivity|]. cbn. now rewrite Hr at 1.
        + exists [], (s :: rest), 0. split; reflexivity. }
    apply F.
  - inversion Hp as [|? ? Ha Hp']; subst. cbn [prodn] in *.
    cbn [app fill].
    assert (Hc : (vn <? vn * (a * prodn pre)) || (a =? 1) = true).
    { destruct (Nat.eqb_spec a 1) as [->|Hne]; [now rewrite orb_true_r|].
      rewrite orb_false_r. apply Nat.ltb_lt. cbn. pose proof (allpos_prodn pre Hp'). assert (2 <= a * prodn pre) by nia. nia. }
    rewrite Hc.
    destruct (IH (vn * a) ltac:(nia) Hp' ltac:(cbn; ring)) as (st & r & ones & Hf & Hr).
    rewrite Hf. exists (vn * base :: st), r, ones. split; [reflexivity|exact Hr].
Qed.

Lemma lay_out_head : forall s st s' st' old base tn new,
  lay_out ((s', st') :: old) base (tn * s) new = lay_out ((s * s', st) :: old) base tn new.
Proof. intros. cbn [lay_out]. now rewrite Nat.mul_assoc. Qed.

Lemma fits_ones : forall n old new, fits old (repeat 1 n ++ new) -> fits old new.
Proof. induction n as [|n IH]; intros old new H; [exact H|]. apply IH. apply fits_strip. exact H. Qed.

(** no dimension of size 1 is left at the front *)
Lemma fill_rest : forall base tn new vn st v r, fill base tn vn new = (st, v, r) ->
  match r with [] => True | a :: _ => a <> 1 end.
Proof.
  intros base tn. induction new as [|s new IH]; intros vn st v r H; cbn [fill] in H.
  - injection H as <- <- <-. exact I.
  - destruct ((vn <? tn) || (s =? 1)) eqn:E.
    + destruct (fill base tn (vn * s) new) as [[st1 v1] r1] eqn:F. injection H as <- <- <-. eapply IH. exact F.
    + injection H as <- <- <-. apply orb_false_iff in E. destruct E as [_ E]. now apply Nat.eqb_neq in E.
Qed.

Lemma allpos_split : forall pre rest n r, allpos (pre ++ rest) -> rest = repeat 1 n ++ r -> allpos r.
Proof. intros pre rest n r H ->. apply allpos_app in H as [_ H]. now apply allpos_app in H as [_ H]. Qed.

Lemma lay_out_fits : forall n old new base tn pre, length old = n -> old <> [] ->
  allpos (map fst old) -> allpos (pre ++ new) -> 0 < tn ->
  fits old new -> prodn pre = tn -> (fst (hd (0, 0) old) = 1 \/ snd (hd (0, 0) old) = tn * base) ->
  lay_out old base tn (pre ++ new) <> None.
Proof.
  induction n as [n IHn] using lt_wf_ind. intros old new base tn pre Hlen Hne Hpo Hpn Htn Hf Hpre Hch.
  destruct Hf as [l Hl | s st old seg new Hs Hf | s st s' st' old new Hst Hf]; [congruence| |].
  - (* cut *)
    cbn [fst snd hd] in Hch. cbn [map fst] in Hpo. inversion Hpo as [|? ? Hs0 Hpo']; subst.
    set (s := prodn seg) in *. set (tn := prodn pre) in *.
    assert (Hfill : forall rest, exists st r ones,
      fill base (tn * s) 1 ((pre ++ seg) ++ rest) = (st, tn * s, r) /\ rest = repeat 1 ones ++ r).
    { intros rest. apply fill_exact; [lia| |].
      - rewrite app_assoc in Hpn. now apply allpos_app in Hpn as [Hpn _].
      - rewrite prodn_app. fold tn s. lia. }
    cbn [lay_out]. destruct old as [|[s' st'] old].
    + destruct (Hfill new) as (stn & r & ones & Hff & Hr). rewrite app_assoc, Hff, Nat.eqb_refl.
      pose proof (fill_rest _ _ _ _ _ _ _ Hff) as Hh.
      inversion Hf; subst. destruct r as [|a r]; [discriminate|]. exfalso. apply Hh.
      rewrite prodn_app in H. cbn [prodn] in H.
      apply Nat.eq_mul_1 in H as [_ H]. now apply Nat.eq_mul_1 in H as [H _].
    + destruct (negb (s' =? 1) && negb (st' =? tn * s * base)) eqn:E.
      * destruct (Hfill new) as (stn & r & ones & Hff & Hr). rewrite app_assoc, Hff, Nat.eqb_refl.
        assert (L : lay_out ((s', st') :: old) st' 1 ([] ++ r) <> None).
        { apply (IHn (length ((s', st') :: old))); try reflexivity.
          - cbn. lia.
          - discriminate.
          - exact Hpo'.
          - cbn. rewrite app_assoc in Hpn. eapply allpos_split; eassumption.
          - lia.
          - eapply fits_ones. rewrite <- Hr. exact Hf.
          - right. cbn. lia. }
        cbn [app] in L.
        destruct (lay_out ((s', st') :: old) st' 1 r); [discriminate|congruence].
      * rewrite app_assoc.
        apply (IHn (length ((s', st') :: old))); try reflexivity.
        -- cbn. lia.
        -- discriminate.
        -- exact Hpo'.
        -- rewrite <- app_assoc. exact Hpn.
        -- nia.
        -- exact Hf.
        -- rewrite prodn_app. reflexivity.
        -- apply andb_false_iff in E. cbn. destruct E as [E|E]; apply negb_false_iff, Nat.eqb_eq in E; auto.
  - (* join *)
    cbn [fst snd hd] in Hch. cbn [map fst] in Hpo.
    inversion Hpo as [|? ? Hs0 Hpo']; subst. inversion Hpo' as [|? ? Hs1 Hpo'']; subst.
    set (tn := prodn pre) in *.
    assert (Hgo : (s * s' = 1 \/ st = tn * base) ->
              lay_out ((s', s * st) :: old) base (tn * s) (pre ++ new) <> None).
    { intros Hc. rewrite (lay_out_head s st).
      apply (IHn (length ((s * s', st) :: old))); try reflexivity; try assumption.
      - cbn. lia.
      - discriminate.
      - cbn [map fst]. constructor; [nia|exact Hpo'']. }
    change (lay_out ((s, st) :: (s', s * st) :: old) base tn (pre ++ new)) with
      (if negb (s' =? 1) && negb (s * st =? tn * s * base)
       then let '(stn, v, r) := fill base (tn * s) 1 (pre ++ new) in
            if v =? tn * s
            then match lay_out ((s', s * st) :: old) (s * st) 1 r with Some st2 => Some (stn ++ st2) | None => None end
            else None
       else lay_out ((s', s * st) :: old) base (tn * s) (pre ++ new)).
    destruct (negb (s' =? 1) && negb (s * st =? tn * s * base)) eqn:E.
    + apply andb_true_iff in E as [E1 E2]. apply negb_true_iff, Nat.eqb_neq in E1. apply negb_true_iff, Nat.eqb_neq in E2.
      assert (s = 1). { destruct Hch as [H|H]; [exact H|]. exfalso. apply E2. subst st. lia. }
      subst s. rewrite Nat.mul_1_r in *. rewrite Nat.mul_1_l in *.
      destruct (fill_exact base tn pre new 1 ltac:(lia)) as (stn & r & ones & Hff & Hr);
        [now apply allpos_app in Hpn as [Hpn _]|unfold tn; lia|].
      rewrite Hff, Nat.eqb_refl.
      assert (L : lay_out ((s', st) :: old) st 1 ([] ++ r) <> None).
      { apply (IHn (length ((s', st) :: old))); try reflexivity.
        - cbn. lia.
        - discriminate.
        - exact Hpo'.
        - cbn. eapply allpos_split; eassumption.
        - lia.
        - eapply fits_ones. rewrite <- Hr. exact Hf.
        - right. cbn. lia. }
      cbn [app] in L. destruct (lay_out ((s', st) :: old) st 1 r); [discriminate|congruence].
    + apply Hgo. apply andb_false_iff in E. destruct Hch as [->|Hch]; [|now right].
      destruct E as [E|E]; apply negb_false_iff, Nat.eqb_eq in E; [left; lia|right; lia].
Qed.

Lemma fst_combine : forall (s st : list nat), length st = length s -> map fst (combine s st) = s.
Proof. induction s as [|a s IH]; intros [|b st] H; try discriminate; [reflexivity|]. cbn. f_equal. apply IH. now injection H. Qed.

(** [view] succeeds when the dimensions fit *)
Lemma view_fits : forall s st new, length st = length s -> prodn new = prodn s ->
  fits (rev (combine s st)) (rev new) -> view_strides s st new <> None.
Proof.
  intros s st new Hl Hp Hf. unfold view_strides.
  destruct ((prodn s =? 0) || (length s =? 0)) eqn:E; [discriminate|].
  apply orb_false_iff in E as [E1 E2]. apply Nat.eqb_neq in E1. apply Nat.eqb_neq in E2.
  assert (P : forall l, prodn l <> 0 -> allpos l).
  { induction l as [|a l IH]; intros H; constructor; cbn in H; [nia|apply IH; nia]. }
  pose proof (lay_out_fits (length (rev (combine s st))) (rev (combine s st)) (rev new)
                (snd (hd (0, 0) (rev (combine s st)))) 1 []) as L.
  cbn [app] in L.
  assert (N : lay_out (rev (combine s st)) (snd (hd (0, 0) (rev (combine s st)))) 1 (rev new) <> None).
  { apply L; auto.
    - intros Hn. apply (f_equal (@length _)) in Hn. rewrite rev_length, combine_length in Hn. cbn in Hn. lia.
    - rewrite map_rev. apply Forall_rev. rewrite fst_combine; [apply P; exact E1|lia].
    - apply Forall_rev. apply P. lia.
    - right. lia. }
  destruct (lay_out _ _ _ _); [discriminate|congruence].
Qed.
