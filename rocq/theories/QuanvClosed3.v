(** Lemmas: closed form of the values of the quantum convolution. *)
From Coq Require Import List ZArith Reals Lra Lia ZifyBool Bool Arith Setoid Morphisms Permutation.
From Verif Require Import PyBase Scalar CInst BigSum Index Tensor TensorFacts Spec SpecFacts ExpandFacts ExpandFacts2 GateSpec GateFacts GateFacts2 RunSpec MPSSpec LayerFacts1 MPSFacts5 MeasSpec MeasFacts EmbedFacts QuanvSpec QuanvClosed QuanvClosed2.
Import ListNotations.
Local Close Scope R_scope.
Local Open Scope nat_scope.

(** ** rotations of one qubit *)
Definition bx (f : nat -> C) : R := (2 * (Re (f 0%nat) * Re (f 1%nat) + Im (f 0%nat) * Im (f 1%nat)))%R.
Definition by_ (f : nat -> C) : R := (2 * (Re (f 0%nat) * Im (f 1%nat) - Im (f 0%nat) * Re (f 1%nat)))%R.
Lemma cos_half : forall t, cos t = (cos (t / 2) * cos (t / 2) - sin (t / 2) * sin (t / 2))%R.
Proof. intros t. replace t with (2 * (t / 2))%R at 1 by field. apply cos_2a. Qed.
Lemma sin_half : forall t, sin t = (2 * sin (t / 2) * cos (t / 2))%R.
Proof. intros t. replace t with (2 * (t / 2))%R at 1 by field. apply sin_2a. Qed.
Lemma cs1 : forall t, (cos t * cos t = 1 - sin t * sin t)%R.
Proof. intros t. pose proof (sin2_cos2 t). unfold Rsqr in H. lra. Qed.
Ltac rot f t :=
  unfold bx, by_, zv, n2, mv, rx_op, ry_op, rz_op, op2, Cnorm2; destruct (f 0) as [a a']; destruct (f 1) as [b b']; cbn [Re Im Cadd Cmul Csub Copp Cexpi RtoC fst snd];
  rewrite ?cos_neg, ?sin_neg, ?(cos_half t), ?(sin_half t).
Ltac fin t := pose proof (cs1 (t / 2)) as Hcs; set (u := cos (t / 2)) in *; set (v := sin (t / 2)) in *; clearbody u v; ring [Hcs].

Lemma rx_n2 : forall f t, n2 (mv (rx_op t) f) = n2 f.
Proof. intros f t. rot f t. fin t. Qed.
Lemma ry_n2 : forall f t, n2 (mv (ry_op t) f) = n2 f.
Proof. intros f t. rot f t. fin t. Qed.
Lemma rz_n2 : forall f t, n2 (mv (rz_op t) f) = n2 f.
Proof. intros f t. rot f t. fin t. Qed.
Lemma rx_z : forall f t, zv (mv (rx_op t) f) = (cos t * zv f + sin t * by_ f)%R.
Proof. intros f t. rot f t. fin t. Qed.
Lemma rx_y : forall f t, by_ (mv (rx_op t) f) = (cos t * by_ f - sin t * zv f)%R.
Proof. intros f t. rot f t. fin t. Qed.
Lemma rx_x : forall f t, bx (mv (rx_op t) f) = bx f.
Proof. intros f t. rot f t. fin t. Qed.
Lemma rz_z : forall f t, zv (mv (rz_op t) f) = zv f.
Proof. intros f t. rot f t. fin t. Qed.
Lemma rz_y : forall f t, by_ (mv (rz_op t) f) = (cos t * by_ f + sin t * bx f)%R.
Proof. intros f t. rot f t. fin t. Qed.
Lemma ry_z : forall f t, zv (mv (ry_op t) f) = (cos t * zv f - sin t * bx f)%R.
Proof. intros f t. rot f t. fin t. Qed.
Lemma ry_x : forall f t, bx (mv (ry_op t) f) = (cos t * bx f + sin t * zv f)%R.
Proof. intros f t. rot f t. fin t. Qed.
Lemma ry_y : forall f t, by_ (mv (ry_op t) f) = by_ f.
Proof. intros f t. rot f t. fin t. Qed.

Definition e0 : nat -> C := fun x => if x =? 0 then RtoC 1 else RtoC 0.
Definition pix (x a b c : R) : nat -> C := mv (rx_op c) (mv (rz_op b) (mv (rx_op a) (mv (ry_op (PI * x)) e0))).
Lemma pix_n2 : forall x a b c, n2 (pix x a b c) = 1%R.
Proof. intros. unfold pix. rewrite rx_n2, rz_n2, rx_n2, ry_n2. unfold n2, Cnorm2. cbn. ring. Qed.
Lemma pix_z : forall x a b c, zv (pix x a b c) = pixel_value x a b c.
Proof.
  intros. unfold pix. rewrite rx_z, rz_z, rz_y, rx_z, rx_y, rx_x, ry_z, ry_x, ry_y.
  replace (zv e0) with 1%R by (unfold zv, Cnorm2; cbn; ring). replace (bx e0) with 0%R by (unfold bx; cbn; ring). replace (by_ e0) with 0%R by (unfold by_; cbn; ring).
  unfold pixel_value. ring.
Qed.

(** ** all together *)
Lemma ket0_prodl : forall n, st_eq (SC := C_scalar) n (ket (repeat 0 n)) (prodl (repeat e0 n)).
Proof.
  intros n b Hb. unfold ket. revert b Hb. induction n as [|n IH]; intros b Hb.
  - cbn in Hb. destruct Hb as [<-|[]]. reflexivity.
  - destruct b as [|x b]; [apply bits_length in Hb; discriminate|]. apply bits_cons in Hb. destruct Hb as [Hx Hb]. specialize (IH b Hb). cbn [repeat prodl]. rewrite <- IH. unfold e0.
    destruct x as [|x]; cbn [Nat.eqb].
    + destruct (list_eq_dec Nat.eq_dec b (repeat 0 n)) as [E|E], (list_eq_dec Nat.eq_dec (0 :: b) (0 :: repeat 0 n)) as [F|F]; try congruence; apply C_eq; cbn; ring.
    + destruct (list_eq_dec Nat.eq_dec (S x :: b) (0 :: repeat 0 n)) as [F|F]; [discriminate|]. match goal with |- _ = Cmul _ ?z => destruct z end. apply C_eq; cbn; ring.
Qed.
Definition ops (w data : list R) (q : nat) : list (@qop C_scalar) := [ry_op (PI * nth q data 0)%R].
Definition ops3 (w : list R) (q : nat) : list (@qop C_scalar) := [rx_op (nth (3 * q) w 0%R); rz_op (nth (3 * q + 1) w 0%R); rx_op (nth (3 * q + 2) w 0%R)].
Definition rotl (n : nat) (w data : list R) : list (nat * @qop C_scalar) :=
  flat_map (fun q => map (fun A => (q, A)) (ops w data q)) (seq 0 n) ++ flat_map (fun q => map (fun A => (q, A)) (ops3 w q)) (seq 0 n).
Definition rot_part (n : nat) (w data : list R) : list gi :=
  map (fun q => gi_ry (PI * nth q data 0)%R q) (seq 0 n) ++
  flat_map (fun q => [gi_rx (nth (3 * q) w 0%R) q; gi_rz (nth (3 * q + 1) w 0%R) q; gi_rx (nth (3 * q + 2) w 0%R) q]) (seq 0 n).
Lemma rotl_gates : forall n w data, Forall2 (fun g qa => fst qa < n /\ op_eq (SC := C_scalar) n (gi_op n g) (lift (snd qa) [fst qa])) (rot_part n w data) (rotl n w data).
Proof.
  intros n w data. unfold rot_part, rotl. apply Forall2_app.
  - assert (X : forall l, (forall q, In q l -> q < n) -> Forall2 (fun g qa => fst qa < n /\ op_eq (SC := C_scalar) n (gi_op n g) (lift (snd qa) [fst qa]))
      (map (fun q => gi_ry (PI * nth q data 0)%R q) l) (flat_map (fun q => map (fun A => (q, A)) (ops w data q)) l)).
    { induction l as [|q l IH]; intros H; [constructor|]. cbn [map flat_map ops app]. constructor; [split; [apply H; now left|reflexivity]|]. apply IH. intros; apply H; now right. }
    apply X. intros q Hq. apply in_seq in Hq. lia.
  - assert (X : forall l, (forall q, In q l -> q < n) -> Forall2 (fun g qa => fst qa < n /\ op_eq (SC := C_scalar) n (gi_op n g) (lift (snd qa) [fst qa]))
      (flat_map (fun q => [gi_rx (nth (3 * q) w 0%R) q; gi_rz (nth (3 * q + 1) w 0%R) q; gi_rx (nth (3 * q + 2) w 0%R) q]) l) (flat_map (fun q => map (fun A => (q, A)) (ops3 w q)) l)).
    { induction l as [|q l IH]; intros H; [constructor|]. assert (Hq : q < n) by (apply H; now left). cbn [flat_map]. apply Forall2_app; [|apply IH; intros; apply H; now right].
      unfold ops3. cbn [map]. repeat constructor; try exact Hq; reflexivity. }
    apply X. intros q Hq. apply in_seq in Hq. lia.
Qed.
Definition px (w data : list R) (i : nat) : nat -> C := pix (nth i data 0%R) (nth (3 * i) w 0%R) (nth (3 * i + 1) w 0%R) (nth (3 * i + 2) w 0%R).
Lemma rot_run : forall n w data, run1 (rotl n w data) (repeat e0 n) = map (px w data) (seq 0 n).
Proof.
  intros n w data. apply (nth_ext _ _ e0 (px w data 0)).
  - now rewrite run1_length, map_length, seq_length, repeat_length.
  - intros i Hi. rewrite run1_length, repeat_length in Hi. rewrite run1_nth by (now rewrite repeat_length). rewrite map_nth, seq_nth by exact Hi. cbn [Nat.add].
    unfold rotl. rewrite fold_left_app, !fold_seq by exact Hi. rewrite nth_repeat. reflexivity.
Qed.

Lemma rprod_ext : forall l f g, (forall i, In i l -> f i = g i) -> rprod l f = rprod l g.
Proof. unfold rprod. induction l as [|i l IH]; intros f g H; [reflexivity|]. cbn [fold_right]. rewrite (H i) by (now left). f_equal. apply IH. intros; apply H; now right. Qed.
Lemma rprod_filter : forall m l f, rprod (filter m l) f = rprod l (fun i => if m i then f i else 1%R).
Proof. unfold rprod. intros m. induction l as [|i l IH]; intros f; [reflexivity|]. cbn [filter fold_right]. destruct (m i); cbn [fold_right]; rewrite IH; [reflexivity|ring]. Qed.
Lemma mask_map : forall m n off b, length b = n -> mask (map m (seq off n)) b = rprod (seq off n) (fun i => if m i then (if nth (i - off) b 0 =? 0 then 1%R else (-1)%R) else 1%R).
Proof.
  induction n as [|n IH]; intros off [|x b] L; try discriminate; [reflexivity|]. injection L as L. cbn [seq map mask]. change (rprod (off :: ?l) ?f) with (f off * rprod l f)%R. cbn beta.
  rewrite Nat.sub_diag. cbn [nth]. f_equal. rewrite (IH (S off) b L). apply rprod_ext. intros i Hi. apply in_seq in Hi. replace (i - off) with (S (i - S off)) by lia. reflexivity.
Qed.
Lemma channel_filter : forall n c, 1 < n -> c < n -> channel_pixels n c = filter (fun i => if c =? 0 then 1 <=? i else i <=? c) (seq 0 n).
Proof.
  intros n c Hn Hc. unfold channel_pixels. destruct (c =? 0) eqn:E.
  - destruct n as [|n]; [lia|]. cbn [seq filter Nat.leb]. replace (S n - 1) with n by lia.
    assert (X : forall l, (forall i, In i l -> 1 <= i) -> l = filter (fun i => 1 <=? i) l).
    { induction l as [|i l IH]; intros H; [reflexivity|]. cbn [filter]. assert (1 <= i) by (apply H; now left). replace (1 <=? i) with true by lia. f_equal. apply IH. intros; apply H; now right. }
    apply X. intros i Hi. apply in_seq in Hi. lia.
  - replace n with (S c + (n - S c)) by lia. rewrite seq_app, filter_app. 
    assert (X : forall l, (forall i, In i l -> i <= c) -> l = filter (fun i => i <=? c) l).
    { induction l as [|i l IH]; intros H; [reflexivity|]. cbn [filter]. assert (i <= c) by (apply H; now left). replace (i <=? c) with true by lia. f_equal. apply IH. intros; apply H; now right. }
    assert (Y : forall l, (forall i, In i l -> c < i) -> [] = filter (fun i => i <=? c) l).
    { induction l as [|i l IH]; intros H; [reflexivity|]. cbn [filter]. assert (c < i) by (apply H; now left). replace (i <=? c) with false by lia. apply IH. intros; apply H; now right. }
    rewrite <- X, <- Y; [now rewrite app_nil_r| |]; intros i Hi; apply in_seq in Hi; lia.
Qed.
Lemma quanv_closed : forall n w data c, 1 < n -> c < n ->
  quanv_value n w data c = rprod (channel_pixels n c) (fun i => pixel_value (nth i data 0%R) (nth (3 * i) w 0%R) (nth (3 * i + 1) w 0%R) (nth (3 * i + 2) w 0%R)).
Proof.
  intros n w data c Hn Hc. unfold quanv_value.
  change (quanv_gates n w data) with (map (fun q => gi_ry (PI * nth q data 0)%R q) (seq 0 n) ++
    flat_map (fun q => [gi_rx (nth (3 * q) w 0%R) q; gi_rz (nth (3 * q + 1) w 0%R) q; gi_rx (nth (3 * q + 2) w 0%R) q]) (seq 0 n) ++ ring_gates n).
  rewrite app_assoc. fold (rot_part n w data).
  set (psi := act (SC := C_scalar) n (gs_op n (rot_part n w data)) (ket (repeat 0 n))).
  assert (E1 : st_eq (SC := C_scalar) n (act n (gs_op n (rot_part n w data ++ ring_gates n)) (ket (repeat 0 n))) (act n (gs_op n (ring_gates n)) psi)).
  { eapply (st_trans (SC := C_scalar) n); [apply (act_proper (SC := C_scalar) n); [apply gs_op_app|intros x Hx; reflexivity]|]. apply (act_mul (SC := C_scalar) n). }
  assert (E2 : st_eq (SC := C_scalar) n psi (prodl (map (px w data) (seq 0 n)))).
  { unfold psi. rewrite <- rot_run. eapply (st_trans (SC := C_scalar) n); [apply (act_proper (SC := C_scalar) n); [reflexivity|apply ket0_prodl]|].
    apply run1_act; [apply repeat_length|apply rotl_gates]. }
  transitivity (zmean n (act (SC := C_scalar) n (gs_op n (ring_gates n)) psi) c).
  { unfold zmean. apply rsum_ext. intros b Hb. now rewrite (E1 b Hb). }
  rewrite ring_mean by assumption. fold (channel_pixels n c). set (m := fun i => if c =? 0 then 1 <=? i else i <=? c).
  rewrite (wmean_ext n psi (prodl (map (px w data) (seq 0 n))) (signs (channel_pixels n c)) (mask (map m (seq 0 n)))).
  - pose proof (prod_mean (map (px w data) (seq 0 n)) (map m (seq 0 n))) as P. rewrite !map_length, seq_length in P. rewrite P by reflexivity.
    rewrite channel_filter, rprod_filter by assumption. fold m. unfold rprod.
    generalize (seq 0 n). induction l as [|i l IH]; [reflexivity|]. cbn [map combine fold_right fst snd]. rewrite IH. f_equal. unfold px. rewrite pix_n2, pix_z. reflexivity.
  - exact E2.
  - intros b Hb. rewrite channel_filter by assumption. fold m. change (signs (filter m (seq 0 n)) b) with (rprod (filter m (seq 0 n)) (fun i => zsign i b)).
    rewrite rprod_filter, mask_map by (now apply bits_length). apply rprod_ext. intros i _. rewrite Nat.sub_0_r. reflexivity.
Qed.
