(** The functions with memory layouts (QStride.v) give the same results as those without (QTN.v, QOperator.v). *)
From Coq Require Import List ZArith QArith Lia Bool Arith.
From Verif Require Import PyBase Scalar BigSum Index Tensor QTN QOperator QStride StrideFacts.
Import ListNotations.
Local Close Scope Q_scope.
Local Open Scope nat_scope.

(** ** the shape a view gets *)
Lemma filter_length_le : forall A (f : A -> bool) l, length (filter f l) <= length l.
Proof. intros A f. induction l as [|a l IH]; cbn; [lia|]. destruct (f a); cbn; lia. Qed.

Lemma infer_known : forall q (dims : list Z),
  length dims - length (filter (fun d => negb (d =? -1)%Z) dims) = 1 ->
  prodn (map (fun d => if (d =? -1)%Z then q else Z.to_nat d) dims) =
  q * prodn (map Z.to_nat (filter (fun d => negb (d =? -1)%Z) dims)).
Proof.
  intros q dims. assert (A : forall dims, length dims - length (filter (fun d => negb (d =? -1)%Z) dims) = 0 ->
    prodn (map (fun d => if (d =? -1)%Z then q else Z.to_nat d) dims) =
    prodn (map Z.to_nat (filter (fun d => negb (d =? -1)%Z) dims))).
  { clear dims. induction dims as [|d dims IH]; intros H; [reflexivity|]. cbn [filter length map prodn] in *.
    pose proof (filter_length_le Z (fun d => negb (d =? -1)%Z) dims).
    destruct (d =? -1)%Z; cbn [negb filter length map prodn] in *; [lia|]. rewrite IH by lia. reflexivity. }
  induction dims as [|d dims IH]; intros H; [discriminate|]. cbn [filter length map prodn] in *.
  pose proof (filter_length_le Z (fun d => negb (d =? -1)%Z) dims).
  destruct (d =? -1)%Z; cbn [negb filter length map prodn] in *.
  - rewrite A by lia. reflexivity.
  - rewrite IH by lia. ring.
Qed.

Lemma infer_sound : forall n dims s, infer_shape n dims = Some s ->
  prodn s = n /\ Forall2 (fun z k => z = (-1)%Z \/ k = Z.to_nat z) dims s.
Proof.
  intros n dims s H. unfold infer_shape in H.
  destruct (existsb (fun d => (d <? -1)%Z) dims); [discriminate|].
  destruct (length dims - length (filter (fun d => negb (d =? -1)%Z) dims)) as [|[|k]] eqn:E; [| |discriminate].
  - destruct (Nat.eqb_spec (prodn (map Z.to_nat (filter (fun d => negb (d =? -1)%Z) dims))) n) as [Hp|]; [|discriminate].
    injection H as <-. split.
    + rewrite <- Hp. f_equal. f_equal. clear Hp. induction dims as [|d dims IH]; [reflexivity|]. cbn [filter length map prodn] in *.
      pose proof (filter_length_le Z (fun d => negb (d =? -1)%Z) dims).
      destruct (d =? -1)%Z; cbn [negb filter length map prodn] in *; [lia|]. f_equal. apply IH. lia.
    + clear. induction dims; constructor; auto.
  - destruct (Nat.eqb_spec (prodn (map Z.to_nat (filter (fun d => negb (d =? -1)%Z) dims))) 0) as [|Hp]; [discriminate|].
    match type of H with (if ?c then _ else _) = _ => destruct c eqn:Hm; [|discriminate] end.
    apply Nat.eqb_eq in Hm. injection H as <-. split.
    + rewrite infer_known by exact E. rewrite Nat.mul_comm. symmetry. apply Nat.div_exact; assumption.
    + clear. match goal with |- context [?a / ?b] => generalize (a / b) end. intros q.
      induction dims as [|d dims IH]; cbn [map]; constructor; auto. destruct (Z.eqb_spec d (-1)); auto.
Qed.

Lemma fill_length : forall base tn new vn st v r, fill base tn vn new = (st, v, r) -> length st + length r = length new.
Proof.
  intros base tn. induction new as [|s new IH]; intros vn st v r H; cbn [fill] in H.
  - injection H as <- <- <-. reflexivity.
  - destruct ((vn <? tn) || (s =? 1)).
    + destruct (fill base tn (vn * s) new) as [[st1 v1] r1] eqn:F. injection H as <- <- <-. cbn.
      rewrite (IH _ _ _ _ F). reflexivity.
    + injection H as <- <- <-. reflexivity.
Qed.

Lemma lay_out_length : forall old base tn new l, lay_out old base tn new = Some l -> length l = length new.
Proof.
  induction old as [|[s st] old IH]; intros base tn new l H; [discriminate|]. cbn [lay_out] in H.
  assert (F : forall l, (let '(st0, v, r) := fill base (tn * s) 1 new in
        if v =? tn * s
        then match old with
             | [] => match r with [] => Some st0 | _ => None end
             | (_, st') :: _ =>
                 match lay_out old st' 1 r with Some st2 => Some (st0 ++ st2) | None => None end
             end
        else None) = Some l -> length l = length new).
  { clear H l. intros l H. destruct (fill base (tn * s) 1 new) as [[st0 v] r] eqn:E.
    apply fill_length in E. destruct (v =? tn * s); [|discriminate]. destruct old as [|[s' st'] old].
    - destruct r; [|discriminate]. injection H as <-. cbn in E. lia.
    - destruct (lay_out ((s', st') :: old) st' 1 r) as [st2|] eqn:L; [|discriminate]. injection H as <-.
      apply IH in L. rewrite app_length. lia. }
  destruct old as [|[s' st'] old]; [apply F; exact H|].
  destruct (negb (s' =? 1) && negb (st' =? tn * s * base)); [apply F; exact H|].
  eapply IH. exact H.
Qed.

Lemma cstrides_length : forall s, length (cstrides s) = length s.
Proof. induction s; cbn; auto. Qed.

Lemma view_strides_length : forall s st new l, view_strides s st new = Some l -> length l = length new.
Proof.
  intros s st new l H. unfold view_strides in H. destruct ((prodn s =? 0) || (length s =? 0)).
  - injection H as <-. apply cstrides_length.
  - match type of H with match ?x with _ => _ end = _ => destruct x eqn:L; [|discriminate] end.
    injection H as <-. apply lay_out_length in L. rewrite rev_length in *. exact L.
Qed.

Lemma swap_last_length : forall l, length (swap_last l) = length l.
Proof.
  intros l. unfold swap_last. destruct (rev l) as [|a [|b r]] eqn:E; try reflexivity.
  apply (f_equal (@length _)) in E. rewrite rev_length in *. cbn in *. lia.
Qed.

(** ** contiguous tensors, and tensors with exchanged last dimensions *)
Lemma cstrides_app : forall s a, cstrides (s ++ [a]) = map (Nat.mul a) (cstrides s) ++ [1].
Proof.
  induction s as [|x s IH]; intros a; [reflexivity|]. cbn [app cstrides map]. rewrite IH, prodn_app. cbn [prodn].
  f_equal. lia.
Qed.

Lemma combine_snoc : forall (l1 l2 : list nat) a b, length l1 = length l2 ->
  combine (l1 ++ [a]) (l2 ++ [b]) = combine l1 l2 ++ [(a, b)].
Proof.
  induction l1 as [|x l1 IH]; intros [|y l2] a b H; try discriminate; [reflexivity|]. cbn. f_equal. apply IH. now injection H.
Qed.

Lemma fits_whole : forall s q new, prodn new = prodn s * q ->
  fits ((q, 1) :: rev (combine s (map (Nat.mul q) (cstrides s)))) new.
Proof.
  induction s as [|a s IH] using rev_ind; intros q new H.
  - cbn. rewrite <- (app_nil_r new). apply fits_cut; [cbn in H; lia|]. now constructor.
  - rewrite cstrides_app, map_app. cbn [map]. rewrite combine_snoc by now rewrite !map_length, cstrides_length.
    rewrite rev_app_distr. cbn [rev app]. rewrite Nat.mul_1_r. apply fits_join; [lia|].
    rewrite map_map. rewrite (map_ext (fun x => q * (a * x)) (Nat.mul (q * a))) by (intros; ring).
    apply IH. rewrite prodn_app in H. cbn in H. rewrite H. ring.
Qed.

Lemma fits_contiguous : forall s new, prodn new = prodn s -> fits (rev (combine s (cstrides s))) new.
Proof.
  intros s new H. destruct s as [|a s] using rev_ind.
  - cbn. constructor. exact H.
  - rewrite cstrides_app, combine_snoc by now rewrite map_length, cstrides_length.
    rewrite rev_app_distr. cbn [rev app]. apply fits_whole. rewrite H, prodn_app. cbn. ring.
Qed.

Lemma prodn_rev : forall l, prodn (rev l) = prodn l.
Proof. induction l as [|a l IH]; [reflexivity|]. cbn. rewrite prodn_app, IH. cbn. ring. Qed.

Lemma view_contiguous : forall s new, prodn new = prodn s -> view_strides s (cstrides s) new <> None.
Proof.
  intros s new H. apply view_fits; [apply cstrides_length|exact H|]. apply fits_contiguous. now rewrite prodn_rev.
Qed.

(** the two layouts of a matrix product whose last dimension is 1 *)
Lemma view_column : forall bs m (b : bool) new, prodn new = prodn (bs ++ [m; 1]) ->
  view_strides (bs ++ [m; 1]) (if b then swap_last (cstrides (swap_last (bs ++ [m; 1]))) else cstrides (bs ++ [m; 1])) new <> None.
Proof.
  intros bs m [|] new H; [|now apply view_contiguous].
  assert (S1 : swap_last (bs ++ [m; 1]) = (bs ++ [1]) ++ [m]).
  { unfold swap_last. rewrite rev_app_distr. cbn [rev app]. rewrite rev_involutive, <- app_assoc. reflexivity. }
  rewrite S1, !cstrides_app, map_app, map_map. cbn [map].
  assert (S2 : forall l, swap_last ((l ++ [m * 1]) ++ [1]) = (l ++ [1]) ++ [m]).
  { intros l. unfold swap_last. rewrite !rev_app_distr. cbn [rev app]. rewrite rev_involutive. now rewrite Nat.mul_1_r. }
  rewrite S2. replace (bs ++ [m; 1]) with ((bs ++ [m]) ++ [1]) in * by now rewrite <- app_assoc.
  apply view_fits.
  - rewrite !app_length, map_length, cstrides_length. reflexivity.
  - exact H.
  - rewrite !combine_snoc by (rewrite ?app_length, ?map_length, ?cstrides_length; reflexivity).
    rewrite !rev_app_distr. cbn [rev app]. apply (fits_cut 1 m _ []); [reflexivity|].
    rewrite (map_ext (fun x => m * (1 * x)) (Nat.mul m)) by (intros; ring).
    apply fits_whole. rewrite prodn_rev, H, !prodn_app. cbn. ring.
Qed.

(** ** results that agree *)
Definition rres {A B} (P : A -> B -> Prop) (x : res A) (y : res B) : Prop :=
  match x, y with Ok a, Ok b => P a b | Err e, Err f => e = f | _, _ => False end.

Lemma rbind : forall A B A' B' (P : A -> B -> Prop) (Q : A' -> B' -> Prop) x y f g,
  rres P x y -> (forall a b, x = Ok a -> y = Ok b -> P a b -> rres Q (f a) (g b)) -> rres Q (bind x f) (bind y g).
Proof.
  intros A B A' B' P Q [a|e] [b|e'] f g H K; cbn in *; try contradiction; auto.
Qed.
Lemma rbind_eq : forall A A' B' (Q : A' -> B' -> Prop) (x : res A) f g,
  (forall a, x = Ok a -> rres Q (f a) (g a)) -> rres Q (bind x f) (bind x g).
Proof. intros A A' B' Q [a|e] f g H; cbn; auto. Qed.
Lemma rraise : forall A B (P : A -> B -> Prop) c e x y, rres P x y -> rres P (raise_if c e x) (raise_if c e y).
Proof. intros A B P [|] e x y H; [reflexivity|exact H]. Qed.
Lemma rassert : forall A B (P : A -> B -> Prop) c x y, rres P x y -> rres P (assert_ c x) (assert_ c y).
Proof. intros A B P [|] x y H; [exact H|reflexivity]. Qed.
Lemma rfold : forall A B I (P : A -> B -> Prop) f g (l : list I) a b,
  (forall a b i, P a b -> rres P (f a i) (g b i)) -> P a b -> rres P (mfold f l a) (mfold g l b).
Proof.
  intros A B I P f g l. induction l as [|i l IH]; intros a b H K; [exact K|].
  cbn [mfold]. eapply rbind; [apply H; exact K|]. intros a' b' _ _ K'. apply IH; auto.
Qed.
Lemma rfold2 : forall A B I J (P : A -> B -> Prop) (R : I -> J -> Prop) f g l l' a b,
  (forall a b i j, P a b -> R i j -> rres P (f a i) (g b j)) -> Forall2 R l l' -> P a b -> rres P (mfold f l a) (mfold g l' b).
Proof.
  intros A B I J P R f g l l' a b H F. revert a b. induction F as [|i j l l' Hij F IH]; intros a b K; [exact K|].
  cbn [mfold]. eapply rbind; [apply H; [exact K|exact Hij]|]. intros a' b' _ _ K'. apply IH; auto.
Qed.
Lemma rmap : forall A B I (P : A -> B -> Prop) f g (l : list I),
  (forall i, rres P (f i) (g i)) -> rres (Forall2 P) (mmap f l) (mmap g l).
Proof.
  intros A B I P f g l H. induction l as [|i l IH]; [constructor|]. cbn [mmap].
  eapply rbind; [apply H|]. intros a b _ _ K. eapply rbind; [exact IH|]. intros la lb _ _ L. now constructor.
Qed.
Lemma F2_length : forall A B (P : A -> B -> Prop) l l', Forall2 P l l' -> length l = length l'.
Proof. induction 1; cbn; auto. Qed.
Lemma rnth : forall A B (P : A -> B -> Prop) l l' i, Forall2 P l l' -> rres P (py_nth l i) (py_nth l' i).
Proof.
  intros A B P l l' i F. unfold py_nth. rewrite (F2_length _ _ _ _ _ F). apply rbind_eq. intros k _.
  revert k. induction F as [|a b l l' H F IH]; intros [|k]; cbn; auto.
Qed.
Lemma rset : forall A B (P : A -> B -> Prop) l l' i a b, Forall2 P l l' -> P a b ->
  rres (Forall2 P) (py_set l i a) (py_set l' i b).
Proof.
  intros A B P l l' i a b F K. unfold py_set. rewrite (F2_length _ _ _ _ _ F). apply rbind_eq. intros k _. cbn.
  revert k. induction F as [|x y l l' H F IH]; intros [|k]; cbn; auto.
Qed.

Section Agree.
  Context {SC : Scalar}.

  Definition SR (x : stensor) (t : tensor) : Prop := val x = t /\ length (strd x) = length (shape t).

  Lemma SR_fresh : forall t, SR (fresh t) t.
  Proof. intros t. split; [reflexivity|]. apply cstrides_length. Qed.

  Lemma rview : forall x t dims, SR x t ->
    (forall s, infer_shape (prodn (shape t)) dims = Some s -> prodn s = prodn (shape t) ->
       Forall2 (fun z k => z = (-1)%Z \/ k = Z.to_nat z) dims s -> view_strides (shape t) (strd x) s <> None) ->
    rres SR (s_view x dims) (view t dims).
  Proof.
    intros x t dims [<- Hl] H. unfold s_view, view.
    destruct (infer_shape (prodn (shape (val x))) dims) as [s|] eqn:E; [|reflexivity].
    destruct (infer_sound _ _ _ E) as [Hp Hd]. specialize (H s eq_refl Hp Hd).
    destruct (view_strides (shape (val x)) (strd x) s) as [st|] eqn:V; [|congruence].
    split; [reflexivity|]. cbn. eapply view_strides_length. exact V.
  Qed.
  Lemma rreshape : forall x t dims, SR x t -> rres SR (s_reshape x dims) (view t dims).
  Proof.
    intros x t dims [<- Hl]. unfold s_reshape, view.
    destruct (infer_shape (prodn (shape (val x))) dims) as [s|] eqn:E; [|reflexivity].
    destruct (view_strides (shape (val x)) (strd x) s) as [st|] eqn:V; [|apply SR_fresh].
    split; [reflexivity|]. cbn. eapply view_strides_length. exact V.
  Qed.
  Lemma rpermute : forall x t dims, SR x t -> rres SR (s_permute x dims) (permute t dims).
  Proof.
    intros x t dims [<- Hl]. unfold s_permute, permute. destruct (mmap (dim_index (rank (val x))) dims) as [p|e]; [|reflexivity].
    cbn [bind]. destruct (is_perm p (rank (val x))); [|reflexivity]. cbn. split; [reflexivity|]. cbn. now rewrite !map_length.
  Qed.
  Lemma runsqueeze : forall x t d, SR x t -> rres SR (s_unsqueeze x d) (unsqueeze t d).
  Proof.
    intros x t d [<- Hl]. unfold s_unsqueeze, unsqueeze. destruct (dim_index (S (rank (val x))) d) as [k|e]; [|reflexivity].
    cbn. split; [reflexivity|]. cbn. rewrite !app_length. cbn. rewrite !firstn_length, !skipn_length, Hl. reflexivity.
  Qed.
  Lemma rsqueeze_dim : forall x t d, SR x t -> rres SR (s_squeeze_dim x d) (squeeze_dim t d).
  Proof.
    intros x t d [<- Hl]. unfold s_squeeze_dim, squeeze_dim. destruct (dim_index (rank (val x)) d) as [k|e]; [|reflexivity].
    cbn [bind]. destruct (nth k (shape (val x)) 0 =? 1); cbn [bind]; (split; [reflexivity|]); cbn [strd shape]; [|exact Hl].
    rewrite !app_length, !firstn_length, !skipn_length, Hl. reflexivity.
  Qed.
  Lemma SR_squeeze : forall x t, SR x t -> SR (s_squeeze x) (squeeze t).
  Proof.
    intros x t [<- Hl]. split; [reflexivity|]. cbn. rewrite map_length. revert Hl. generalize (strd x).
    induction (shape (val x)) as [|a s IH]; intros [|b st] H; try discriminate; [reflexivity|]. cbn in *.
    injection H as H. destruct (a =? 1); cbn; rewrite (IH st H); reflexivity.
  Qed.
  Lemma SR_conj : forall x t, SR x t -> SR (s_conj x) (tconj t).
  Proof. intros x t [<- Hl]. split; [reflexivity|]. exact Hl. Qed.
  Lemma rselect : forall x t i, SR x t -> rres SR (s_select x i) (tselect t i).
  Proof.
    intros x t i [<- Hl]. unfold s_select, tselect. destruct (shape (val x)) as [|n s]; [reflexivity|].
    destruct (py_index n i); [|reflexivity]. cbn. split; [reflexivity|]. cbn. destruct (strd x); [discriminate|]. now injection Hl.
  Qed.
  Lemma set_len : forall A (l : list A) d x, length (set_nth d x l) = length l.
  Proof. intros. apply set_nth_length. Qed.
  Lemma SR_slice : forall x t d a n, SR x t -> SR (s_slice x d a n) (tslice t d a n).
  Proof. intros x t d a n [<- Hl]. split; [reflexivity|]. cbn. now rewrite set_nth_length. Qed.
  Lemma rchunk : forall x t k d, SR x t -> rres (Forall2 SR) (s_chunk x k d) (chunk t k d).
  Proof.
    intros x t k d [<- Hl]. unfold s_chunk. destruct (chunk (val x) k d) as [l|e] eqn:E; [|reflexivity]. cbn.
    assert (F : Forall (fun t => length (shape t) = length (shape (val x))) l).
    { unfold chunk in E. destruct (nth_error (shape (val x)) d) as [n|]; [|discriminate].
      destruct (k =? 0); [discriminate|]. destruct (n =? 0).
      - injection E as <-. apply Forall_forall. intros t Ht. apply repeat_spec in Ht. now subst.
      - injection E as <-. apply Forall_forall. intros t Ht. apply in_map_iff in Ht as (i & <- & _). cbn.
        apply set_nth_length. }
    clear E. induction F as [|t l Ht F IH]; constructor; [|exact IH]. split; [reflexivity|]. cbn. now rewrite Hl, Ht.
  Qed.
  Lemma vals : forall l l', Forall2 SR l l' -> map val l = l'.
  Proof. induction 1 as [|x t l l' [Hv _] F IH]; [reflexivity|]. cbn. now rewrite Hv, IH. Qed.
  Lemma rcat : forall d l l', Forall2 SR l l' -> rres (fun x t => x = fresh t) (s_cat d l) (cat d l').
  Proof. intros d l l' F. unfold s_cat. rewrite (vals _ _ F). destruct (cat d l'); reflexivity. Qed.
  Lemma rindex_select : forall x t d l, SR x t -> rres (fun x t => x = fresh t) (s_index_select x d l) (index_select t d l).
  Proof. intros x t d l [<- _]. unfold s_index_select. destruct (index_select (val x) d l); reflexivity. Qed.
  Lemma rdiag : forall x t, SR x t -> rres (fun x t => x = fresh t) (s_diag x) (diag t).
  Proof. intros x t [<- _]. unfold s_diag. destruct (diag (val x)); reflexivity. Qed.

  Variable svd : tensor -> tensor * tensor * tensor.
  Variable svd_lay : stensor -> list nat * list nat * list nat.
  Variable mmT : stensor -> stensor -> bool.
  Variable ein_lay : stensor -> stensor -> list nat.

  (** torch.svd returns two matrices and a vector, torch.einsum a tensor of rank 3 *)
  Definition svd_ranks : Prop := forall c U S V, svd c = (U, S, V) -> length (shape U) = 2 /\ length (shape S) = 1 /\ length (shape V) = 2.
  Definition lay_ranks : Prop :=
    (forall x lu ls lv, svd_lay x = (lu, ls, lv) -> length lu = 2 /\ length ls = 1 /\ length lv = 2) /\
    (forall a b, length (ein_lay a b) = 3).
  Hypothesis Hsvd : svd_ranks.
  Hypothesis Hlay : lay_ranks.

  (** a matrix product has one of two layouts *)
  Definition MM (x : stensor) (t : tensor) : Prop :=
    val x = t /\ exists b : bool, strd x = if b then swap_last (cstrides (swap_last (shape t))) else cstrides (shape t).
  Lemma MM_SR : forall x t, MM x t -> SR x t.
  Proof.
    intros x t [Hv [b Hb]]. split; [exact Hv|]. rewrite Hb.
    destruct b; now rewrite ?swap_last_length, cstrides_length, ?swap_last_length.
  Qed.
  Lemma rmatmul : forall a b t u, SR a t -> SR b u -> rres MM (s_matmul mmT a b) (matmul t u).
  Proof.
    intros a b t u [<- _] [<- _]. unfold s_matmul. destruct (matmul (val a) (val b)) as [r|e]; [|reflexivity].
    cbn. split; [reflexivity|]. exists (mmT a b). reflexivity.
  Qed.

  Lemma rres_weaken : forall A B (P Q : A -> B -> Prop) x y, (forall a b, P a b -> Q a b) -> rres P x y -> rres Q x y.
  Proof. intros A B P Q [a|e] [b|f] H K; cbn in *; auto. Qed.
  Lemma fresh_SR : forall x t, x = fresh t -> SR x t.
  Proof. intros x t ->. apply SR_fresh. Qed.

  (** the left factor has rank 2, or is a new tensor *)
  Definition site_ready (x : stensor) (t : tensor) : Prop := SR x t /\ (length (shape t) = 2 \/ x = fresh t).

  Lemma index_select_rank : forall t d l r, index_select t d l = Ok r -> length (shape r) = length (shape t).
  Proof.
    intros t d l r H. unfold index_select in H. destruct (nth_error (shape t) d); [|discriminate].
    destruct ((length l =? 0) || existsb (fun i => n <=? i) l); [discriminate|]. injection H as <-. cbn. apply set_nth_length.
  Qed.

  Lemma rsvd_cut : forall x t, SR x t ->
    rres (fun p q => (SR (fst p) (fst q) /\ length (shape (fst q)) = 2) /\ MM (snd p) (snd q))
         (s_svd_cut svd svd_lay mmT x) (svd_cut svd t).
  Proof.
    intros x t [<- Hl]. unfold s_svd_cut, svd_cut, s_svd.
    destruct (svd (val x)) as [[U Sg] V] eqn:E. destruct (svd_lay x) as [[lu ls] lv] eqn:L.
    destruct (Hsvd _ _ _ _ E) as (HU & HS & HV). destruct (proj1 Hlay _ _ _ _ L) as (KU & KS & KV).
    assert (RU : SR (mkS U lu) U) by (split; cbn; congruence).
    assert (RS : SR (mkS Sg ls) Sg) by (split; cbn; congruence).
    assert (RV : SR (mkS V lv) V) by (split; cbn; congruence).
    eapply rbind; [apply rpermute; exact RV|]. intros Vp Vp' _ _ HVp.
    eapply rbind; [apply rdiag; exact RS|]. intros Sd Sd' _ _ ->.
    eapply (rbind _ _ _ _ (fun p q => (SR (fst p) (fst q) /\ length (shape (fst q)) = 2) /\ SR (snd p) (snd q))).
    - cbn [val data fresh]. match goal with |- context [if ?c then _ else _] => destruct c end.
      + eapply rbind; [apply rindex_select; exact RU|]. intros U1 U1' _ HI ->.
        eapply rbind; [apply rindex_select; apply SR_fresh|]. intros S1 S1' _ _ ->. cbn.
        split; [split; [apply SR_fresh|]|apply SR_fresh]. rewrite (index_select_rank _ _ _ _ HI). exact HU.
      + cbn. split; [split; [exact RU|exact HU]|apply SR_fresh].
    - intros p q _ _ [[Hp1 Hr] Hp2].
      eapply rbind; [apply rmatmul; [exact Hp2|apply SR_conj; exact HVp]|]. intros c c' _ _ HM. cbn. auto.
  Qed.

  (** splitting the first dimension of a matrix: any strides *)
  Lemma view_matrix_site : forall m D a b s, prodn s = m * (D * 1) ->
    Forall2 (fun z k => z = (-1)%Z \/ k = Z.to_nat z) [2%Z; (-1)%Z; Z.of_nat D] s ->
    view_strides [m; D] [a; b] s <> None.
  Proof.
    intros m D a b s Hp H. inversion H as [|? s1 ? l1 H1 F1]; subst. inversion F1 as [|? s2 ? l2 H2 F2]; subst.
    inversion F2 as [|? s3 ? l3 H3 F3]; subst. inversion F3; subst.
    destruct H1 as [H1| ->]; [discriminate|]. destruct H3 as [H3| ->]; [lia|]. rewrite Nat2Z.id in *.
    change (Z.to_nat 2) with 2 in *. destruct (Nat.eq_dec D 0) as [->|HD].
    { unfold view_strides. cbn. rewrite Nat.mul_0_r. discriminate. }
    assert (m = s2 * 2) by (cbn in Hp; nia). subst m.
    apply view_fits; [reflexivity|cbn; ring|]. cbn [combine rev app].
    apply (fits_cut D b _ [D]); [cbn; lia|]. apply (fits_cut (s2 * 2) a [] [s2; 2] []); [cbn; lia|]. now constructor.
  Qed.
  Lemma view_matrix_site2 : forall m D a b s, prodn s = m * (D * 1) ->
    Forall2 (fun z k => z = (-1)%Z \/ k = Z.to_nat z) [2%Z; 2%Z; (-1)%Z; Z.of_nat D] s ->
    view_strides [m; D] [a; b] s <> None.
  Proof.
    intros m D a b s Hp H. inversion H as [|? s0 ? l0 H0 F0]; subst.
    inversion F0 as [|? s1 ? l1 H1 F1]; subst. inversion F1 as [|? s2 ? l2 H2 F2]; subst.
    inversion F2 as [|? s3 ? l3 H3 F3]; subst. inversion F3; subst.
    destruct H0 as [H0| ->]; [discriminate|].
    destruct H1 as [H1| ->]; [discriminate|]. destruct H3 as [H3| ->]; [lia|]. rewrite Nat2Z.id in *.
    change (Z.to_nat 2) with 2 in *. destruct (Nat.eq_dec D 0) as [->|HD].
    { unfold view_strides. cbn. rewrite Nat.mul_0_r. discriminate. }
    assert (m = s2 * 4) by (cbn in Hp; nia). subst m.
    apply view_fits; [reflexivity|cbn; ring|]. cbn [combine rev app].
    apply (fits_cut D b _ [D]); [cbn; lia|]. apply (fits_cut (s2 * 4) a [] [s2; 2; 2] []); [cbn; lia|]. now constructor.
  Qed.

  Lemma rview_matrix : forall x t, SR x t -> length (shape t) = 2 -> rres SR (s_view_site x) (view_site t).
  Proof.
    intros x t [<- Hl] H2. unfold s_view_site, view_site. apply rview; [split; [reflexivity|exact Hl]|].
    intros s _ Hp HF. unfold zdim in HF. rewrite H2 in Hl.
    destruct (shape (val x)) as [|m [|D [|? ?]]]; try discriminate.
    destruct (strd x) as [|a [|b [|? ?]]]; try discriminate. eapply view_matrix_site; eassumption.
  Qed.
  Lemma rview_matrix2 : forall x t, SR x t -> length (shape t) = 2 ->
    rres SR (s_view x [2%Z; 2%Z; (-1)%Z; zdim (val x) 1]) (view t [2%Z; 2%Z; (-1)%Z; zdim t 1]).
  Proof.
    intros x t [<- Hl] H2. apply rview; [split; [reflexivity|exact Hl]|].
    intros s _ Hp HF. unfold zdim in HF. rewrite H2 in Hl.
    destruct (shape (val x)) as [|m [|D [|? ?]]]; try discriminate.
    destruct (strd x) as [|a [|b [|? ?]]]; try discriminate. eapply view_matrix_site2; eassumption.
  Qed.
  Lemma rview_fresh : forall t dims, rres SR (s_view (fresh t) dims) (view t dims).
  Proof. intros t dims. apply rview; [apply SR_fresh|]. intros s _ Hp _. apply view_contiguous. exact Hp. Qed.
  Lemma rview_site_fresh : forall t, rres SR (s_view_site (fresh t)) (view_site t).
  Proof. intros t. apply rview_fresh. Qed.

  Lemma rfold_cols : forall x t, SR x t -> rres (fun x t => x = fresh t) (s_fold_cols x) (fold_cols t).
  Proof.
    intros x t H. unfold s_fold_cols, fold_cols. eapply rbind; [apply rchunk; exact H|]. intros l l' _ _ F.
    eapply rbind; [apply rnth; exact F|]. intros b0 b0' _ _ H0.
    eapply rbind; [apply rnth; exact F|]. intros b1 b1' _ _ H1. apply rcat. auto.
  Qed.

  (** qtensornetwork.py *)
  Lemma rStateVec2MPS : forall x t N, SR x t -> rres (Forall2 SR) (s_StateVec2MPS svd svd_lay mmT x N) (StateVec2MPS svd t N).
  Proof.
    intros x t N [<- Hl]. unfold s_StateVec2MPS, StateVec2MPS. apply rraise, rraise.
    apply (rbind _ _ _ _ (fun p q => SR (fst p) (fst q) /\ Forall2 SR (snd p) (snd q))); [|intros a b _ _ [_ H]; exact H].
    apply rfold; [|split; [split; [reflexivity|exact Hl]|constructor]].
    intros [c l] [c' l'] i [H F]. cbn [fst snd] in *.
    eapply rbind; [apply rfold_cols; exact H|]. intros d d' _ _ ->. destruct (i =? N - 1).
    - eapply rbind; [apply rview_site_fresh|]. intros s s' _ _ Hs. cbn. split; [apply SR_fresh|]. apply Forall2_app; auto.
    - eapply rbind; [apply rsvd_cut; apply SR_fresh|]. intros uc uc' _ _ [[H1 H2] H3].
      eapply rbind; [apply rview_matrix; [exact H1|exact H2]|]. intros s s' _ _ Hs. cbn.
      split; [apply MM_SR; exact H3|]. apply Forall2_app; auto.
  Qed.

  Lemma rsel2 : forall x t i j, SR x t -> rres SR (s_sel2 x i j) (tsel2 t i j).
  Proof. intros x t i j H. unfold s_sel2, tsel2. eapply rbind; [apply rselect; exact H|]. intros; now apply rselect. Qed.
  Lemma rsel3 : forall x t i j k, SR x t -> rres SR (s_sel3 x i j k) (tsel3 t i j k).
  Proof. intros x t i j k H. unfold s_sel3, tsel3. eapply rbind; [apply rsel2; exact H|]. intros; now apply rselect. Qed.

  Lemma rdecomp2 : forall x t, SR x t ->
    rres (fun p q => SR (fst p) (fst q) /\ SR (snd p) (snd q)) (s_TensorDecompAfterTwoQbitGate svd svd_lay mmT x) (TensorDecompAfterTwoQbitGate svd t).
  Proof.
    intros x t H. unfold s_TensorDecompAfterTwoQbitGate, TensorDecompAfterTwoQbitGate.
    eapply rbind; [apply rsel2; exact H|]. intros ? ? _ _ H00. eapply rbind; [apply rsel2; exact H|]. intros ? ? _ _ H01.
    eapply rbind; [apply rcat; auto|]. intros ? ? _ _ ->.
    eapply rbind; [apply rsel2; exact H|]. intros ? ? _ _ H10. eapply rbind; [apply rsel2; exact H|]. intros ? ? _ _ H11.
    eapply rbind; [apply rcat; auto|]. intros ? ? _ _ ->.
    eapply rbind; [apply rcat; auto using SR_fresh|]. intros ? ? _ _ ->.
    eapply rbind; [apply rsvd_cut; apply SR_fresh|]. intros uc uc' _ _ [[H1 H2] H3].
    eapply rbind; [apply rview_matrix; [exact H1|exact H2]|]. intros ? ? _ _ Hs.
    eapply rbind; [apply rfold_cols; apply MM_SR; exact H3|]. intros ? ? _ _ ->.
    eapply rbind; [apply rview_site_fresh|]. intros ? ? _ _ Hs2. cbn. auto.
  Qed.

  Lemma rdecomp3 : forall x t, SR x t ->
    rres (fun p q => SR (fst (fst p)) (fst (fst q)) /\ SR (snd (fst p)) (snd (fst q)) /\ SR (snd p) (snd q))
         (s_TensorDecompAfterThreeQbitGate svd svd_lay mmT x) (TensorDecompAfterThreeQbitGate svd t).
  Proof.
    intros x t H. unfold s_TensorDecompAfterThreeQbitGate, TensorDecompAfterThreeQbitGate.
    rewrite (proj1 H). apply rraise.
    do 4 (eapply rbind; [apply rsel3; exact H|]; intros ? ? _ _ ?).
    eapply rbind; [apply rcat; auto|]. intros ? ? _ _ ->.
    do 4 (eapply rbind; [apply rsel3; exact H|]; intros ? ? _ _ ?).
    eapply rbind; [apply rcat; auto|]. intros ? ? _ _ ->.
    eapply rbind; [apply rcat; auto using SR_fresh|]. intros ? ? _ _ ->.
    eapply rbind; [apply rsvd_cut; apply SR_fresh|]. intros uc uc' _ _ [[L1 L2] L3].
    eapply rbind; [apply rview_matrix; [exact L1|exact L2]|]. intros ? ? _ _ Hs.
    eapply rbind; [apply rfold_cols; apply MM_SR; exact L3|]. intros ? ? _ _ ->.
    eapply rbind; [apply rsvd_cut; apply SR_fresh|]. intros vc vc' _ _ [[K1 K2] K3].
    eapply rbind; [apply rview_matrix; [exact K1|exact K2]|]. intros ? ? _ _ Hs1.
    eapply rbind; [apply rfold_cols; apply MM_SR; exact K3|]. intros ? ? _ _ ->.
    eapply rbind; [apply rview_site_fresh|]. intros ? ? _ _ Hs2. cbn. auto.
  Qed.
End Agree.
