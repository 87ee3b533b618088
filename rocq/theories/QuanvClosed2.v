(** Lemmas: the ring of cnots and the product state before it. *)
From Coq Require Import List ZArith Reals Lra Lia Bool Arith Setoid Morphisms Permutation.
From Verif Require Import PyBase Scalar CInst BigSum Index Tensor TensorFacts Spec SpecFacts ExpandFacts ExpandFacts2 GateSpec GateFacts GateFacts2 RunSpec MPSSpec LayerFacts1 MeasSpec MPSFacts5 MeasFacts EmbedFacts QuanvSpec QuanvClosed.
Import ListNotations.
Local Close Scope R_scope.
Local Open Scope nat_scope.

(** ** signs along the ring *)
Fixpoint walk (m : nat) (b : list nat) : list nat := match m with 0 => b | S m' => flip m' (S m') (walk m' b) end.
Lemma walk_bits : forall n m b, In b (bits n) -> In (walk m b) (bits n).
Proof. induction m as [|m IH]; intros b H; [exact H|]. cbn [walk]. apply flip_bits. auto. Qed.
Lemma zsign_flip : forall n c t b i, In b (bits n) -> t < n -> zsign i (flip c t b) = if i =? t then (zsign c b * zsign t b)%R else zsign i b.
Proof.
  intros n c t b i H Ht. unfold zsign. rewrite (flip_nth n) by auto. destruct (i =? t); [|reflexivity].
  pose proof (bit_lt n b c H). pose proof (bit_lt n b t H). destruct (nth c b 0) as [|[|?]]; [| |lia]; destruct (nth t b 0) as [|[|?]]; try lia; cbn; lra.
Qed.
Definition signs (l : list nat) (b : list nat) : R := fold_right (fun i x => (zsign i b * x)%R) 1%R l.
Lemma signs_app : forall l l' b, signs (l ++ l') b = (signs l b * signs l' b)%R.
Proof. unfold signs. induction l as [|i l IH]; intros l' b; cbn [app fold_right]; [ring|]. rewrite IH. ring. Qed.
Lemma zsign_sq : forall i b, (zsign i b * zsign i b)%R = 1%R.
Proof. intros i b. unfold zsign. destruct (nth i b 0 =? 0); lra. Qed.
Lemma walk_sign : forall n m b i, In b (bits n) -> m < n -> zsign i (walk m b) = if i <=? m then signs (seq 0 (S i)) b else zsign i b.
Proof.
  induction m as [|m IH]; intros b i H Hm; cbn [walk].
  - destruct (Nat.leb_spec i 0); [|reflexivity]. assert (i = 0) by lia. subst. cbn. lra.
  - rewrite (zsign_flip n) by (auto using walk_bits). rewrite !IH by (auto; lia). destruct (Nat.eqb_spec i (S m)) as [->|N].
    + rewrite Nat.leb_refl, (Nat.leb_refl (S m)). replace (S m <=? m) with false by (symmetry; apply Nat.leb_gt; lia).
      rewrite (seq_S (S m)), signs_app. cbn [signs fold_right Nat.add]. lra.
    + destruct (Nat.leb_spec i m), (Nat.leb_spec i (S m)); try lia; reflexivity.
Qed.
Definition ring_gates (n : nat) : list gi := map (fun q => gi_cnot q ((q + 1) mod n)) (seq 0 n).
Lemma walk_gates : forall n m psi f, m < n -> wmean n (act n (gs_op n (map (fun q => gi_cnot q ((q + 1) mod n)) (seq 0 m))) psi) f = wmean n psi (fun b => f (walk m b)).
Proof.
  intros n m psi. induction m as [|m IH]; intros f Hm.
  - apply wmean_ext; [|reflexivity]. intros b Hb. exact (act_id (SC := C_scalar) n psi b Hb).
  - rewrite seq_S, map_app. cbn [map Nat.add walk]. rewrite (Nat.mod_small (m + 1)) by lia. rewrite Nat.add_1_r.
    rewrite (wmean_ext n _ (act n (gi_op n (gi_cnot m (S m))) (act n (gs_op n (map (fun q => gi_cnot q ((q + 1) mod n)) (seq 0 m))) psi)) f f); [| |reflexivity].
    + rewrite wmean_cnot by lia. rewrite IH by lia. reflexivity.
    + intros b Hb. rewrite <- (act_mul (SC := C_scalar) n _ _ psi b Hb). apply (act_proper (SC := C_scalar) n); [apply gs_op_snoc|intros x Hx; reflexivity|exact Hb].
Qed.
Lemma ring_mean : forall n psi c, 1 < n -> c < n -> zmean n (act n (gs_op n (ring_gates n)) psi) c = wmean n psi (signs (if c =? 0 then seq 1 (n - 1) else seq 0 (S c))).
Proof.
  intros n psi c Hn Hc. change (wmean n (act n (gs_op n (ring_gates n)) psi) (zsign c) = wmean n psi (signs (if c =? 0 then seq 1 (n - 1) else seq 0 (S c)))).
  unfold ring_gates. destruct n as [|m]; [lia|]. rewrite seq_S, map_app. cbn [map Nat.add]. rewrite Nat.add_1_r, Nat.mod_same by lia.
  rewrite (wmean_ext (S m) _ (act (S m) (gi_op (S m) (gi_cnot m 0)) (act (S m) (gs_op (S m) (map (fun q => gi_cnot q ((q + 1) mod S m)) (seq 0 m))) psi)) (zsign c) (zsign c)); [| |reflexivity].
  - rewrite wmean_cnot by lia. rewrite walk_gates by lia. apply wmean_ext; [intros b Hb; reflexivity|]. intros b Hb.
    rewrite (zsign_flip (S m)) by (auto using walk_bits; lia). rewrite !(walk_sign (S m)) by (auto; lia). destruct (Nat.eqb_spec c 0) as [->|N].
    + rewrite Nat.leb_refl. cbn [Nat.leb]. replace (S m - 1) with m by lia. cbn [seq signs fold_right]. fold (signs (seq 1 m) b).
      pose proof (zsign_sq 0 b). replace (zsign 0 b * signs (seq 1 m) b * (zsign 0 b * 1))%R with ((zsign 0 b * zsign 0 b) * signs (seq 1 m) b)%R by ring. rewrite H. ring.
    + replace (c <=? m) with true by (symmetry; apply Nat.leb_le; lia). reflexivity.
  - intros b Hb. rewrite <- (act_mul (SC := C_scalar) (S m) _ _ psi b Hb). apply (act_proper (SC := C_scalar) (S m)); [apply gs_op_snoc|intros x Hx; reflexivity|exact Hb].
Qed.

(** ** product states *)
Fixpoint prodl (fs : list (nat -> C)) (b : list nat) : C :=
  match fs, b with f :: fs', x :: b' => Cmul (f x) (prodl fs' b') | _, _ => RtoC 1 end.
Definition n2 (f : nat -> C) : R := (Cnorm2 (f 0%nat) + Cnorm2 (f 1%nat))%R.
Definition zv (f : nat -> C) : R := (Cnorm2 (f 0%nat) - Cnorm2 (f 1%nat))%R.
Lemma Cnorm2_mul : forall a b, Cnorm2 (Cmul a b) = (Cnorm2 a * Cnorm2 b)%R.
Proof. intros [a a'] [b b']. unfold Cnorm2. cbn. ring. Qed.
Lemma rsum_bits_S : forall n f, rsum (bits (S n)) f = (rsum (bits n) (fun b => f (0%nat :: b)) + rsum (bits n) (fun b => f (1%nat :: b)))%R.
Proof. intros n f. cbn [bits]. rewrite rsum_app, !rsum_map. reflexivity. Qed.
(** [s] says at which qubits the sign is taken *)
Fixpoint mask (s : list bool) (b : list nat) : R :=
  match s, b with x :: s', y :: b' => ((if x then if (y =? 0)%nat then 1 else -1 else 1) * mask s' b')%R | _, _ => 1%R end.
Lemma prod_mean : forall fs s, length s = length fs -> wmean (length fs) (prodl fs) (mask s) = fold_right (fun (p : bool * (nat -> C)) (x : R) => ((if fst p then zv (snd p) else n2 (snd p)) * x)%R) 1%R (combine s fs).
Proof.
  induction fs as [|f fs IH]; intros [|x s] L; try discriminate.
  - unfold wmean, Cnorm2. cbn. ring.
  - injection L as L. cbn [length combine fold_right fst snd]. rewrite <- (IH s L). unfold wmean. rewrite rsum_bits_S. cbn [prodl mask].
    rewrite (rsum_ext _ (bits (length fs)) _ (fun b => Cnorm2 (f 0%nat) * (mask s b * Cnorm2 (prodl fs b)))%R)
      by (intros b _; rewrite Cnorm2_mul; destruct x; cbn [Nat.eqb]; ring).
    rewrite (rsum_ext _ (bits (length fs)) (fun b => (if x then if (1 =? 0)%nat then 1 else -1 else 1) * mask s b * Cnorm2 (Cmul (f 1%nat) (prodl fs b)))%R
      (fun b => ((if x then -1 else 1) * Cnorm2 (f 1%nat)) * (mask s b * Cnorm2 (prodl fs b)))%R)
      by (intros b _; rewrite Cnorm2_mul; destruct x; cbn [Nat.eqb]; ring).
    rewrite !rsum_scale. unfold zv, n2. destruct x; ring.
Qed.

(** a one-qubit operator on a product state *)
Definition mv (A : @qop C_scalar) (f : nat -> C) : nat -> C := fun x => Cadd (Cmul (A [x] [0]) (f 0)) (Cmul (A [x] [1]) (f 1)).
Lemma prodl_set : forall fs q x b, q < length b -> length fs = length b ->
  prodl fs (set_nth q x b) = Cmul (nth q fs (fun _ => RtoC 1) x) (prodl (set_nth q (fun _ => RtoC 1) fs) b).
Proof.
  induction fs as [|f fs IH]; intros q x [|y b] Hq L; cbn [length] in *; try lia. destruct q as [|q]; cbn [set_nth prodl nth].
  - destruct (f x), (prodl fs b). apply C_eq; cbn; ring.
  - rewrite IH by lia. destruct (f y), (nth q fs (fun _ => RtoC 1) x), (prodl (set_nth q (fun _ => RtoC 1) fs) b). apply C_eq; cbn; ring.
Qed.
Lemma prodl_mv : forall fs q b g, q < length b -> length fs = length b -> prodl (set_nth q g fs) b = Cmul (g (nth q b 0)) (prodl (set_nth q (fun _ => RtoC 1) fs) b).
Proof.
  intros fs q b g Hq L. rewrite <- (set_nth_same _ q 0 b Hq) at 1. rewrite prodl_set by (rewrite ?set_nth_length; auto). rewrite nth_set_nth by lia. rewrite Nat.eqb_refl.
  now rewrite set_nth_set_nth.
Qed.
Lemma act_prodl : forall n A q fs, q < n -> length fs = n ->
  st_eq (SC := C_scalar) n (act n (lift A [q]) (prodl fs)) (prodl (set_nth q (mv A (nth q fs (fun _ => RtoC 1))) fs)).
Proof.
  intros n A q fs Hq L b Hb. pose proof (bits_length n b Hb) as Lb.
  rewrite (act_lift (SC := C_scalar) n A [q] (prodl fs)); [|split; [constructor; [intros []|constructor]|intros w [<-|[]]; exact Hq]|exact Hb].
  unfold apply_on. cbn [length bits map app]. rewrite !(bigsum_cons (SC := C_scalar)). unfold rd. cbn [wr map]. rewrite (prodl_mv fs q b (mv A (nth q fs (fun _ => RtoC 1)))) by lia. rewrite !prodl_set by lia. unfold mv.
  destruct (A [nth q b 0] [0]), (A [nth q b 0] [1]), (nth q fs (fun _ => RtoC 1) 0), (nth q fs (fun _ => RtoC 1) 1), (prodl (set_nth q (fun _ => RtoC 1) fs) b).
  apply C_eq; cbn; ring.
Qed.

(** gates on single qubits *)
Definition run1 (l : list (nat * @qop C_scalar)) (fs : list (nat -> C)) : list (nat -> C) :=
  fold_left (fun fs qa => set_nth (fst qa) (mv (snd qa) (nth (fst qa) fs (fun _ => RtoC 1))) fs) l fs.
Lemma run1_length : forall l fs, length (run1 l fs) = length fs.
Proof. induction l as [|x l IH]; intros fs; [reflexivity|]. cbn [run1 fold_left]. fold (run1 l (set_nth (fst x) (mv (snd x) (nth (fst x) fs (fun _ => RtoC 1))) fs)). rewrite IH. apply set_nth_length. Qed.
Lemma run1_act : forall n gs l fs, length fs = n -> Forall2 (fun g qa => fst qa < n /\ op_eq (SC := C_scalar) n (gi_op n g) (lift (snd qa) [fst qa])) gs l ->
  st_eq (SC := C_scalar) n (act n (gs_op n gs) (prodl fs)) (prodl (run1 l fs)).
Proof.
  intros n gs l fs L H. revert fs L. induction H as [|g [q A] gs l [Hq Hg] H IH]; intros fs L.
  - intros b Hb. exact (act_id (SC := C_scalar) n (prodl fs) b Hb).
  - cbn [fst snd] in *. cbn [run1 fold_left fst snd].
    eapply (st_trans (SC := C_scalar) n); [|apply IH; rewrite set_nth_length; exact L].
    eapply (st_trans (SC := C_scalar) n); [apply (act_proper (SC := C_scalar) n); [apply gs_op_cons|intros x Hx; reflexivity]|].
    eapply (st_trans (SC := C_scalar) n); [apply (act_mul (SC := C_scalar) n)|]. apply (act_proper (SC := C_scalar) n); [reflexivity|].
    eapply (st_trans (SC := C_scalar) n); [apply (act_proper (SC := C_scalar) n); [exact Hg|intros x Hx; reflexivity]|]. now apply act_prodl.
Qed.
Lemma run1_nth : forall l fs i d, i < length fs -> nth i (run1 l fs) d = fold_left (fun f qa => if fst qa =? i then mv (snd qa) f else f) l (nth i fs d).
Proof.
  induction l as [|[q A] l IH]; intros fs i d Hi; [reflexivity|]. cbn [run1 fold_left fst snd]. 
  match goal with |- nth i (fold_left _ l ?x) d = _ => change (nth i (run1 l x) d = fold_left (fun f qa => if fst qa =? i then mv (snd qa) f else f) l (if q =? i then mv A (nth i fs d) else nth i fs d)) end.
  rewrite IH by (rewrite set_nth_length; exact Hi). f_equal. destruct (Nat.lt_ge_cases q (length fs)) as [Hq|Hq].
  - rewrite nth_set_nth by exact Hq. rewrite (Nat.eqb_sym i q). destruct (Nat.eqb_spec q i) as [->|]; [|reflexivity]. f_equal. now apply nth_indep.
  - destruct (Nat.eqb_spec q i); [lia|]. f_equal. clear -Hq. revert q Hq. induction fs as [|f fs IH]; intros q Hq; [now destruct q|]. destruct q; cbn in *; [lia|]. f_equal. apply IH. lia.
Qed.
Lemma fold_other : forall (l : list (nat * @qop C_scalar)) i f, (forall qa, In qa l -> fst qa <> i) -> fold_left (fun f qa => if fst qa =? i then mv (snd qa) f else f) l f = f.
Proof.
  induction l as [|x l IH]; intros i f H; [reflexivity|]. cbn [fold_left]. destruct (Nat.eqb_spec (fst x) i) as [E|E]; [exfalso; exact (H x (or_introl eq_refl) E)|]. apply IH. intros qa Hq. apply H. now right.
Qed.
Lemma fold_own : forall i As f, fold_left (fun f (qa : nat * @qop C_scalar) => if fst qa =? i then mv (snd qa) f else f) (map (fun A => (i, A)) As) f = fold_left (fun f A => mv A f) As f.
Proof. intros i. induction As as [|A As IH]; intros f; [reflexivity|]. cbn [map fold_left fst snd]. rewrite Nat.eqb_refl. apply IH. Qed.
Lemma fold_seq : forall n (As : nat -> list (@qop C_scalar)) i f, i < n ->
  fold_left (fun f qa => if fst qa =? i then mv (snd qa) f else f) (flat_map (fun q => map (fun A => (q, A)) (As q)) (seq 0 n)) f = fold_left (fun f A => mv A f) (As i) f.
Proof.
  intros n As i f Hi. replace n with (i + S (n - S i)) by lia. rewrite seq_app, flat_map_app, fold_left_app. cbn [Nat.add seq flat_map]. rewrite fold_left_app.
  rewrite (fold_other (flat_map _ (seq 0 i))), fold_own, fold_other; [reflexivity| |].
  - intros qa H. apply in_flat_map in H. destruct H as (q & Hq & H). apply in_map_iff in H. destruct H as (A & <- & _). apply in_seq in Hq. cbn. lia.
  - intros qa H. apply in_flat_map in H. destruct H as (q & Hq & H). apply in_map_iff in H. destruct H as (A & <- & _). apply in_seq in Hq. cbn. lia.
Qed.
