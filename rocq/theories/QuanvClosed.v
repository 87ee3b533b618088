(** Lemmas: closed form of the values of the quantum convolution. *)
From Coq Require Import List ZArith Reals Lra Lia Bool Arith Setoid Morphisms Permutation.
From Verif Require Import PyBase Scalar CInst BigSum Index Tensor TensorFacts Spec SpecFacts ExpandFacts ExpandFacts2 GateSpec GateFacts GateFacts2 RunSpec MPSSpec LayerFacts1 MeasSpec MeasFacts EmbedFacts QuanvSpec.
Import ListNotations.
Local Close Scope R_scope.
Local Open Scope nat_scope.

Definition wmean (n : nat) (psi : @qstate C_scalar) (f : list nat -> R) : R := rsum (bits n) (fun b => f b * Cnorm2 (psi b))%R.
Lemma wmean_ext : forall n psi phi f g, st_eq (SC := C_scalar) n psi phi -> (forall b, In b (bits n) -> f b = g b) -> wmean n psi f = wmean n phi g.
Proof. intros n psi phi f g H E. apply rsum_ext. intros b Hb. now rewrite (H b Hb), (E b Hb). Qed.

(** ** a cnot permutes the basis states *)
Definition flip (c t : nat) (b : list nat) : list nat := set_nth t (if nth c b 0 =? 1 then 1 - nth t b 0 else nth t b 0) b.
Lemma bit_lt : forall n b i, In b (bits n) -> nth i b 0 < 2.
Proof.
  induction n as [|n IH]; intros b i H; cbn in H.
  - destruct H as [<-|[]]. destruct i; cbn; lia.
  - apply in_app_iff in H. destruct H as [H|H]; apply in_map_iff in H; destruct H as (b' & <- & H); destruct i; cbn; try lia; now apply IH.
Qed.
Lemma bits_set : forall n b i x, In b (bits n) -> x < 2 -> In (set_nth i x b) (bits n).
Proof.
  induction n as [|n IH]; intros b i x H Hx; cbn in H.
  - destruct H as [<-|[]]. destruct i; cbn; auto.
  - apply in_app_iff in H. assert (X : exists y b', b = y :: b' /\ y < 2 /\ In b' (bits n)).
    { destruct H as [H|H]; apply in_map_iff in H; destruct H as (b' & <- & H); eexists; eexists; (split; [reflexivity|]); split; auto; lia. }
    destruct X as (y & b' & -> & Hy & Hb). destruct i; cbn [set_nth]; apply bits_cons; auto.
Qed.
Lemma flip_bits : forall n c t b, In b (bits n) -> In (flip c t b) (bits n).
Proof. intros n c t b H. apply bits_set; [exact H|]. pose proof (bit_lt n b t H). destruct (nth c b 0 =? 1); lia. Qed.
Lemma flip_nth : forall n c t b i, In b (bits n) -> t < n -> nth i (flip c t b) 0 = if i =? t then (if nth c b 0 =? 1 then 1 - nth t b 0 else nth t b 0) else nth i b 0.
Proof.
  intros n c t b i H Ht. unfold flip. rewrite nth_set_nth by (rewrite (bits_length n b H); exact Ht). destruct (Nat.eqb_spec i t), (Nat.eqb_spec t i); subst; congruence || reflexivity.
Qed.
Lemma list_nth_eq : forall (b b' : list nat), length b = length b' -> (forall i, i < length b -> nth i b 0 = nth i b' 0) -> b = b'.
Proof. intros b b' L H. now apply (nth_ext _ _ 0 0). Qed.
Lemma flip_invol : forall n c t b, In b (bits n) -> t < n -> c <> t -> flip c t (flip c t b) = b.
Proof.
  intros n c t b H Ht Hn. apply list_nth_eq; [unfold flip; now rewrite !set_nth_length|]. intros i _. rewrite (flip_nth n) by auto using flip_bits. rewrite !(flip_nth n) by auto.
  rewrite Nat.eqb_refl. destruct (Nat.eqb_spec c t); [congruence|]. pose proof (bit_lt n b t H). destruct (Nat.eqb_spec i t); [subst|reflexivity]. destruct (nth c b 0 =? 1); lia.
Qed.
Lemma cnot_entry : forall n c t, c < n -> t < n -> c <> t -> op_eq (SC := C_scalar) n (gi_op n (gi_cnot c t)) (fun r s => id_op (SC := C_scalar) (flip c t r) s).
Proof.
  intros n c t Hc Ht Hn r s Hr Hs. cbn [gi_op]. unfold ctrl, all_one. cbn [forallb]. rewrite andb_true_r.
  pose proof (bit_lt n r t Hr) as Br. pose proof (bit_lt n s t Hs) as Bs. pose proof (bit_lt n r c Hr) as Brc. pose proof (bit_lt n s c Hs) as Bsc.
  pose proof (bits_length n r Hr) as Lr. pose proof (bits_length n s Hs) as Ls.
  unfold id_op. destruct (Nat.eqb_spec (nth c s 0) 1) as [E|E].
  - unfold lift. destruct (same_off [t] r s) eqn:S.
    + rewrite (same_off_spec n) in S by auto. assert (Erc : nth c r 0 = 1). { rewrite <- E. apply S; [exact Hc|]. intros [X|[]]. congruence. }
      cbn [rd map]. destruct (list_eq_dec Nat.eq_dec (flip c t r) s) as [F|F].
      * assert (X : nth t s 0 = 1 - nth t r 0). { rewrite <- F, (flip_nth n) by auto. now rewrite Nat.eqb_refl, Erc. }
        destruct (nth t r 0) as [|[|?]]; [| |lia]; cbn in X; rewrite X; reflexivity.
      * destruct (Nat.eq_dec (nth t r 0) (nth t s 0)) as [X|X].
        { rewrite X. destruct (nth t s 0) as [|[|?]]; [reflexivity|reflexivity|lia]. }
        exfalso. apply F. apply list_nth_eq; [unfold flip; rewrite set_nth_length; lia|]. intros i Hi. unfold flip in Hi. rewrite set_nth_length in Hi.
        rewrite (flip_nth n) by auto. destruct (Nat.eqb_spec i t); [subst; rewrite Erc; cbn [Nat.eqb]; lia|]. apply S; [lia|]. intros [Y|[]]. congruence.
    + destruct (list_eq_dec Nat.eq_dec (flip c t r) s) as [F|F]; [|reflexivity]. exfalso.
      assert (same_off [t] r s = true); [|congruence]. apply (same_off_spec n); auto. intros i Hi Hni. rewrite <- F, (flip_nth n) by auto.
      destruct (Nat.eqb_spec i t); [subst; exfalso; apply Hni; now left|reflexivity].
  - destruct (list_eq_dec Nat.eq_dec r s) as [->|Ne].
    + destruct (list_eq_dec Nat.eq_dec (flip c t s) s) as [_|F]; [reflexivity|]. exfalso. apply F. unfold flip. destruct (Nat.eqb_spec (nth c s 0) 1); [congruence|].
      apply set_nth_same. lia.
    + destruct (list_eq_dec Nat.eq_dec (flip c t r) s) as [F|_]; [|reflexivity]. exfalso. apply Ne.
      assert (X : nth c s 0 = nth c r 0). { rewrite <- F, (flip_nth n) by auto. destruct (Nat.eqb_spec c t); congruence. }
      rewrite <- F. unfold flip. rewrite <- X. destruct (Nat.eqb_spec (nth c s 0) 1); [congruence|]. symmetry. apply set_nth_same. lia.
Qed.
Lemma act_cnot : forall n c t psi, c < n -> t < n -> c <> t -> st_eq (SC := C_scalar) n (act n (gi_op n (gi_cnot c t)) psi) (fun b => psi (flip c t b)).
Proof.
  intros n c t psi Hc Ht Hn r Hr. transitivity (act (SC := C_scalar) n (fun r s => id_op (SC := C_scalar) (flip c t r) s) psi r).
  - apply (act_proper (SC := C_scalar) n); [now apply cnot_entry|intros x Hx; reflexivity|exact Hr].
  - exact (act_id (SC := C_scalar) n psi (flip c t r) (flip_bits n c t r Hr)).
Qed.
Lemma rsum_perm : forall A (l l' : list A) f, Permutation l l' -> rsum l f = rsum l' f.
Proof. intros A l l' f H. induction H; cbn [rsum]; try lra. Qed.
Lemma rsum_flip : forall n c t f, t < n -> c <> t -> rsum (bits n) (fun b => f (flip c t b)) = rsum (bits n) f.
Proof.
  intros n c t f Ht Hn. rewrite <- (rsum_map _ _ (bits n) (flip c t) f). apply rsum_perm. symmetry. apply NoDup_Permutation_bis.
  - apply bits_NoDup.
  - now rewrite map_length.
  - intros b Hb. apply in_map_iff. exists (flip c t b). split; [now apply (flip_invol n)|now apply flip_bits].
Qed.
Lemma wmean_cnot : forall n c t psi f, c < n -> t < n -> c <> t -> wmean n (act n (gi_op n (gi_cnot c t)) psi) f = wmean n psi (fun b => f (flip c t b)).
Proof.
  intros n c t psi f Hc Ht Hn. rewrite (wmean_ext n _ (fun b => psi (flip c t b)) f f (act_cnot n c t psi Hc Ht Hn)) by reflexivity.
  unfold wmean. rewrite <- (rsum_flip n c t (fun b => f (flip c t b) * Cnorm2 (psi b))%R Ht Hn). apply rsum_ext. intros b Hb. now rewrite (flip_invol n c t b).
Qed.
