(** torch's rule for [view]: a view that is granted reads the same memory in the same row-major order. *)
From Coq Require Import List ZArith QArith Lia Bool Arith.
From Verif Require Import PyBase Scalar BigSum Index Tensor QTN QOperator QStride StrideFacts StrideProofs.
Import ListNotations.
Local Close Scope Q_scope.
Local Open Scope nat_scope.

(** the position in memory of the element at an index *)
Fixpoint address (st idx : list nat) : nat :=
  match st, idx with
  | a :: st', i :: idx' => i * a + address st' idx'
  | _, _ => 0
  end.

(** the position of the k-th element, dimensions given last first *)
Fixpoint raddr (old : list (nat * nat)) (k : nat) : nat :=
  match old with
  | [] => 0
  | (s, st) :: old' => (k mod s) * st + raddr old' (k / s)
  end.

Lemma raddr_app : forall l1 l2 k, allpos (map fst l1) -> raddr (l1 ++ l2) k = raddr l1 k + raddr l2 (k / prodn (map fst l1)).
Proof.
  induction l1 as [|[s st] l1 IH]; intros l2 k H.
  - cbn [app map prodn raddr]. now rewrite Nat.div_1_r.
  - cbn [map fst] in H. inversion H as [|? ? Hs Hl]; subst. cbn [app map fst prodn raddr]. rewrite IH by exact Hl.
    pose proof (allpos_prodn _ Hl). rewrite Nat.div_div by lia. lia.
Qed.
Lemma raddr_mod : forall l k, allpos (map fst l) -> raddr l (k mod prodn (map fst l)) = raddr l k.
Proof.
  induction l as [|[s st] l IH]; intros k H; [reflexivity|]. cbn [map fst] in H. inversion H as [|? ? Hs Hl]; subst.
  cbn [map fst prodn raddr]. pose proof (allpos_prodn _ Hl) as Hp. rewrite Nat.mod_mul_r by lia.
  replace (k mod s + s * ((k / s) mod prodn (map fst l))) with (k mod s + ((k / s) mod prodn (map fst l)) * s) by ring.
  rewrite Nat.mod_add by lia. rewrite Nat.mod_mod by lia. rewrite Nat.div_add by lia.
  rewrite (Nat.div_small (k mod s) s) by (apply Nat.mod_upper_bound; lia). cbn [Nat.add]. now rewrite IH.
Qed.

Lemma address_raddr : forall s st k, length st = length s -> allpos s -> k < prodn s ->
  address st (unflat s k) = raddr (rev (combine s st)) k.
Proof.
  induction s as [|n s IH]; intros [|a st] k Hl Hp Hk; try discriminate; [reflexivity|].
  inversion Hp as [|? ? Hn Hs]; subst. cbn [combine rev unflat address]. pose proof (allpos_prodn _ Hs) as Pp.
  injection Hl as Hl. cbn [prodn] in Hk.
  assert (Hm : map fst (rev (combine s st)) = rev s) by (rewrite map_rev, fst_combine by exact Hl; reflexivity).
  rewrite raddr_app by (rewrite Hm; apply Forall_rev; exact Hs). rewrite Hm, prodn_rev. cbn [raddr].
  rewrite IH by (auto; apply Nat.mod_upper_bound; lia).
  rewrite (Nat.mod_small (k / prodn s) n) by (apply Nat.div_lt_upper_bound; lia).
  assert (R : raddr (rev (combine s st)) (k mod prodn s) = raddr (rev (combine s st)) k).
  { rewrite <- (prodn_rev s), <- Hm. apply raddr_mod. rewrite Hm. apply Forall_rev. exact Hs. }
  rewrite R. lia.
Qed.

Lemma fill_addr : forall base tn new vn st v r, fill base tn vn new = (st, v, r) -> allpos new ->
  exists pre, new = pre ++ r /\ length pre = length st /\ v = vn * prodn pre /\
    forall k, raddr (combine pre st) k = vn * base * (k mod prodn pre).
Proof.
  intros base tn. induction new as [|s new IH]; intros vn st v r H Hp; cbn [fill] in H.
  - injection H as <- <- <-. exists []. repeat split; cbn; lia.
  - inversion Hp as [|? ? Hs Hn]; subst. destruct ((vn <? tn) || (s =? 1)).
    + destruct (fill base tn (vn * s) new) as [[st1 v1] r1] eqn:F. injection H as <- <- <-.
      destruct (IH _ _ _ _ F Hn) as (pre & -> & Hl & Hv & Ha). exists (s :: pre).
      apply allpos_app in Hn as [Hpre _]. pose proof (allpos_prodn _ Hpre).
      repeat split; [cbn; lia|subst v1; cbn; ring|].
      intros k. cbn [combine raddr prodn]. rewrite Ha, Nat.mod_mul_r by lia. ring.
    + injection H as <- <- <-. exists []. repeat split; cbn; lia.
Qed.

Lemma lay_out_addr : forall old base tn new l, lay_out old base tn new = Some l ->
  allpos (map fst old) -> allpos new -> 0 < tn ->
  (fst (hd (0, 0) old) = 1 \/ snd (hd (0, 0) old) = tn * base) ->
  forall k, raddr (combine new l) k = base * (k mod tn) + raddr old (k / tn).
Proof.
  induction old as [|[s st] old IH]; intros base tn new l H Hpo Hpn Htn Hch k; [discriminate|].
  cbn [map fst] in Hpo. inversion Hpo as [|? ? Hs Hpo']; subst. cbn [fst snd hd] in Hch. cbn [lay_out] in H.
  assert (B : base * (k mod (tn * s)) = base * (k mod tn) + (k / tn) mod s * st).
  { rewrite Nat.mod_mul_r by lia. destruct Hch as [->| ->]; [rewrite Nat.mod_1_r; lia|ring]. }
  assert (D : k / tn / s = k / (tn * s)) by (apply Nat.div_div; lia).
  cbn [raddr]. rewrite D, Nat.add_assoc, <- B. clear B D.
  assert (F : (let '(st0, v, r) := fill base (tn * s) 1 new in
        if v =? tn * s
        then match old with
             | [] => match r with [] => Some st0 | _ => None end
             | (_, st') :: _ =>
                 match lay_out old st' 1 r with Some st2 => Some (st0 ++ st2) | None => None end
             end
        else None) = Some l -> raddr (combine new l) k = base * (k mod (tn * s)) + raddr old (k / (tn * s))).
  { clear H. intros H. destruct (fill base (tn * s) 1 new) as [[st0 v] r] eqn:E.
    destruct (fill_addr _ _ _ _ _ _ _ E Hpn) as (pre & -> & Hl & Hv & Ha).
    destruct (Nat.eqb_spec v (tn * s)) as [Hvt|]; [|discriminate].
    assert (Hprod : prodn pre = tn * s) by lia.
    apply allpos_app in Hpn as [Hp1 Hp2].
    assert (C : forall st2, length st2 = length r -> raddr (combine (pre ++ r) (st0 ++ st2)) k = base * (k mod (tn * s)) + raddr (combine r st2) (k / (tn * s))).
    { intros st2 Hl2. assert (Cc : combine (pre ++ r) (st0 ++ st2) = combine pre st0 ++ combine r st2).
      { clear -Hl. revert st0 Hl. induction pre as [|a pre IHp]; intros [|b st0] Hl; try discriminate; [reflexivity|]. cbn. f_equal. apply IHp. now injection Hl. }
      assert (Hm : map fst (combine pre st0) = pre) by (apply fst_combine; lia).
      rewrite Cc, raddr_app by (rewrite Hm; exact Hp1). rewrite Hm, Ha, Hprod. lia. }
    destruct old as [|[s' st'] old].
    - destruct r; [|discriminate]. injection H as <-. rewrite <- (app_nil_r st0). rewrite C by reflexivity. reflexivity.
    - destruct (lay_out ((s', st') :: old) st' 1 r) as [st2|] eqn:L; [|discriminate]. injection H as <-.
      rewrite C by (eapply lay_out_length; exact L). f_equal.
      rewrite (IH _ _ _ _ L); [|exact Hpo'|exact Hp2|lia|right; cbn; lia].
      rewrite Nat.mod_1_r, Nat.div_1_r. lia. }
  destruct old as [|[s' st'] old]; [apply F; exact H|].
  destruct (negb (s' =? 1) && negb (st' =? tn * s * base)) eqn:E; [apply F; exact H|].
  apply (IH _ _ _ _ H); [exact Hpo'|exact Hpn|nia|].
  apply andb_false_iff in E. cbn [fst snd hd]. destruct E as [E|E]; apply negb_false_iff, Nat.eqb_eq in E; auto.
Qed.

Lemma nonzero_allpos : forall l, prodn l <> 0 -> allpos l.
Proof. induction l as [|a l IH]; intros H; constructor; cbn in H; [nia|apply IH; nia]. Qed.

Lemma view_same_memory : forall s st new st' k, length st = length s -> prodn new = prodn s ->
  view_strides s st new = Some st' -> k < prodn s -> address st' (unflat new k) = address st (unflat s k).
Proof.
  intros s st new st' k Hl Hp H Hk. pose proof (view_strides_length _ _ _ _ H) as Hl'. unfold view_strides in H.
  destruct (Nat.eqb_spec (prodn s) 0) as [|Hs]; [lia|]. cbn [orb] in H.
  destruct (Nat.eqb_spec (length s) 0) as [H0|H0].
  - destruct s; [|discriminate]. destruct st; [|discriminate]. injection H as <-. cbn in Hk, Hp. assert (k = 0) by lia. subst k.
    cbn. clear -Hp. induction new as [|a new IH]; [reflexivity|]. cbn [cstrides unflat address].
    cbn [prodn] in Hp. apply Nat.eq_mul_1 in Hp as [_ H]. rewrite H, Nat.div_1_r, Nat.mod_1_r. cbn. apply IH. exact H.
  - destruct (lay_out _ _ _ _) as [l|] eqn:L; [|discriminate]. injection H as <-.
    assert (P1 : allpos s) by (apply nonzero_allpos; exact Hs). assert (P2 : allpos new) by (apply nonzero_allpos; lia).
    rewrite (address_raddr s st) by assumption. rewrite (address_raddr new) by (auto; lia).
    assert (Hr : rev (combine new (rev l)) = combine (rev new) l).
    { rewrite rev_length in Hl'. clear -Hl'. revert l Hl'. induction new as [|a new IH] using rev_ind; intros l Hl.
      - destruct l; [reflexivity|discriminate].
      - destruct l as [|b l]; [rewrite app_length in Hl; cbn in Hl; lia|]. rewrite rev_app_distr. cbn [rev app combine].
        rewrite app_length in Hl. cbn in Hl. rewrite combine_snoc by (rewrite rev_length; lia).
        rewrite rev_app_distr. cbn [rev app]. f_equal. apply IH. lia. }
    rewrite Hr. rewrite (lay_out_addr _ _ _ _ _ L).
    + rewrite Nat.mod_1_r, Nat.div_1_r. lia.
    + rewrite map_rev, fst_combine by exact Hl. apply Forall_rev. exact P1.
    + apply Forall_rev. exact P2.
    + lia.
    + right. lia.
Qed.
