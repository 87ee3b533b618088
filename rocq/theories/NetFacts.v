(** Lemmas: the network of nn/modules/quanv.py, and the closed form of the convolution. *)
From Coq Require Import List ZArith QArith Reals Lra Lia ZifyBool Bool Arith.
From Verif Require Import PyBase Scalar CInst BigSum Index Tensor Spec GateSpec RunSpec MeasSpec QuanvSpec QQuanv QuanvFacts QuanvProofs QuanvClosed3.
Import ListNotations.
Local Close Scope Q_scope.
Local Close Scope R_scope.
Local Open Scope nat_scope.

(** ** closed form *)
Lemma square_nth : forall pix k b x y i, i < k ^ 2 -> nth i (square pix k b x y) 0%R = pix b 0 (x + i / k) (y + i mod k).
Proof.
  intros pix k b x y i Hi. cbn in Hi. rewrite Nat.mul_1_r in Hi. assert (Hk : 0 < k) by nia. unfold square.
  assert (X : forall (g : nat -> nat -> R) m o j, j < m * k -> nth j (flat_map (fun a => map (g a) (seq 0 k)) (seq o m)) 0%R = g (o + j / k) (j mod k)).
  { intros g m. induction m as [|m IH]; intros o j Hj; [lia|]. cbn [seq flat_map]. destruct (Nat.lt_ge_cases j k) as [L|L].
    - rewrite app_nth1 by (now rewrite map_length, seq_length). rewrite Nat.div_small, Nat.mod_small, Nat.add_0_r by exact L.
      rewrite (nth_indep _ 0%R (g o 0)) by (now rewrite map_length, seq_length). rewrite (map_nth (g o)), seq_nth by exact L. reflexivity.
    - rewrite app_nth2 by (now rewrite map_length, seq_length). rewrite map_length, seq_length, IH by lia.
      replace j with (j - k + 1 * k) at 3 4 by lia. rewrite Nat.div_add, Nat.mod_add by lia. f_equal. lia. }
  exact (X (fun a j => pix b 0 (x + a) (y + j)) k 0 i Hi).
Qed.
Lemma nth_scaled : forall (draw : list R) g i, nth i (map (fun u => u * g)%R draw) 0%R = (nth i draw 0%R * g)%R.
Proof. intros draw g i. rewrite <- (map_nth (fun u => u * g)%R draw 0%R i). f_equal. ring. Qed.
Lemma closed_value : forall pix draw g k bt X Y c, 1 < k -> c < k ^ 2 ->
  quanv_value (k ^ 2) (map (fun u => u * g)%R draw) (square pix k bt X Y) c =
  rprod (channel_pixels (k ^ 2) c) (fun i => pixel_value (pix bt 0 (X + i / k) (Y + i mod k)) (nth (3 * i) draw 0%R * g) (nth (3 * i + 1) draw 0%R * g) (nth (3 * i + 2) draw 0%R * g)).
Proof.
  intros pix draw g k bt X Y c Hk Hc. assert (1 < k ^ 2) by (cbn; nia). rewrite quanv_closed by assumption. apply rprod_ext. intros i Hi.
  assert (i < k ^ 2). { unfold channel_pixels in Hi. destruct (c =? 0); apply in_seq in Hi; lia. }
  rewrite square_nth by assumption. now rewrite !nth_scaled.
Qed.
Lemma conv_closed : forall draw k s gain b lr im, 1 < k -> 0 < s -> lr <> 0%R -> length draw = 3 * k ^ 2 -> 0 < im_channel im -> 0 < im_x im -> 0 < im_y im ->
  fits s k (im_x im) -> fits s k (im_y im) ->
  exists q o, QuanConv2D draw (k ^ 2) s k gain b lr = Ok q /\ qc_forward q im = Ok o /\
    forall bt c x y, bt < im_batch im -> c < k ^ 2 -> x < (im_x im - k) / s + 1 -> y < (im_y im - k) / s + 1 ->
      out_get o [bt; c; x; y] = rprod (channel_pixels (k ^ 2) c) (fun i => pixel_value (im_pix im bt 0 (x * s + i / k) (y * s + i mod k))
        (nth (3 * i) draw 0 * (gain / sqrt 5)) (nth (3 * i + 1) draw 0 * (gain / sqrt 5)) (nth (3 * i + 2) draw 0 * (gain / sqrt 5)))%R.
Proof.
  intros draw k s gain b lr im Hk Hs Hl L HC X Y FX FY. destruct (conv_grid draw k s gain b lr im Hk Hs Hl L HC X Y FX FY) as (q & o & N & F & _ & V).
  exists q, o. split; [exact N|]. split; [exact F|]. intros bt c x y Hb Hc Hx Hy. rewrite V by assumption. now apply closed_value.
Qed.

(** ** the network *)
Lemma sum_map : forall n f, fold_right Rplus 0%R (map f (seq 0 n)) = rsum_to n f.
Proof. intros n f. unfold rsum_to. generalize (seq 0 n). induction l as [|i l IH]; [reflexivity|]. cbn [map fold_right]. now rewrite IH. Qed.
Lemma rsum_to_ext : forall n f g, (forall i, i < n -> f i = g i) -> rsum_to n f = rsum_to n g.
Proof.
  intros n f g H. unfold rsum_to. assert (X : forall i, In i (seq 0 n) -> f i = g i) by (intros i Hi; apply in_seq in Hi; apply H; lia).
  induction (seq 0 n) as [|i l IH]; [reflexivity|]. cbn [fold_right]. rewrite X by (now left). f_equal. apply IH. intros; apply X; now right.
Qed.
Lemma net_new : forall draw w1 b1 w2 b2, exists q, QuanConv2D draw 4 2 2 (sqrt 2) true 1 = Ok q /\
  Net draw w1 b1 w2 b2 = Ok (mkNet q (mkL (14 * 14 * 4) 64 w1 b1) (mkL 64 10 w2 b2)) /\ qc_n q = 4 /\ qc_stride q = 2 /\ qc_kernel q = 2.
Proof.
  intros draw w1 b1 w2 b2. destruct (conv_new draw 4 2 2 (sqrt 2) true 1%R R1_neq_R0) as (q & N & _ & Q1 & Q2 & Q3 & _).
  specialize (N eq_refl). exists q. split; [exact N|]. split; [|auto]. unfold Net. now rewrite N.
Qed.
(** what follows the convolution *)
Lemma net_tail : forall q w1 b1 w2 b2 im o b lx ly, qc_forward q im = Ok o -> out_shape o = [b; 4; lx; ly] ->
  let m := mkNet q (mkL (14 * 14 * 4) 64 w1 b1) (mkL 64 10 w2 b2) in
  (lx * ly <> 196 -> net_forward m im = Err TorchError) /\
  (lx * ly = 196 -> exists r, net_forward m im = Ok r /\ out_shape r = [b; 10] /\
     forall i k, out_get r [i; k] = net_score w1 b1 w2 b2 (fun j => out_get o [i; j / 196; (j mod 196) / ly; (j mod 196) mod ly]) k).
Proof.
  intros q w1 b1 w2 b2 im o b lx ly F S m. unfold net_forward. cbn [m net_quanv net_fc1 net_fc2]. rewrite F. cbn [bind]. unfold flatten1. rewrite S. cbn [prodn].
  unfold apply_linear at 1 3. cbn [out_shape l_in l_out]. split; intros H.
  - replace (4 * (lx * (ly * 1)) =? 14 * 14 * 4) with false by lia. reflexivity.
  - replace (4 * (lx * (ly * 1)) =? 14 * 14 * 4) with true by lia. cbn [bind]. unfold relu, apply_linear. cbn [out_shape l_in l_out]. rewrite Nat.eqb_refl.
    eexists. split; [reflexivity|]. split; [reflexivity|]. intros i k. cbn [out_get l_weight l_bias]. unfold net_score. rewrite sum_map. f_equal.
    apply rsum_to_ext. intros h _. unfold net_hidden. rewrite sum_map. change (14 * 14 * 4) with 784. f_equal. f_equal. f_equal. apply rsum_to_ext. intros j _. f_equal.
    cbn [unflat prodn]. rewrite !Nat.mul_1_r, H. rewrite Nat.div_1_r. reflexivity.
Qed.
Lemma even_fits : forall len, 0 < len -> (fits 2 2 len <-> len mod 2 = 0).
Proof. intros len H. rewrite fits_iff by lia. pose proof (Nat.mod_upper_bound len 2). lia. Qed.
Lemma half : forall len, 0 < len -> len mod 2 = 0 -> (len - 2) / 2 + 1 = len / 2.
Proof.
  intros len H E. pose proof (Nat.div_mod len 2 ltac:(lia)) as D. rewrite E in D. set (a := len / 2) in *. replace (len - 2) with ((a - 1) * 2) by lia.
  rewrite Nat.div_mul by lia. lia.
Qed.
Lemma net_value : forall draw w1 b1 w2 b2 im, length draw = 12 -> 0 < im_channel im -> im_x im mod 2 = 0 -> im_y im mod 2 = 0 -> im_x im * im_y im = 784 ->
  exists m r, Net draw w1 b1 w2 b2 = Ok m /\ net_forward m im = Ok r /\ out_shape r = [im_batch im; 10] /\
    forall bt k, bt < im_batch im -> out_get r [bt; k] =
      net_score w1 b1 w2 b2 (net_feature (im_pix im) (map (fun u => u * (sqrt 2 / sqrt 5))%R draw) (im_y im / 2) bt) k.
Proof.
  intros draw w1 b1 w2 b2 im L C EX EY P. assert (X : 0 < im_x im) by lia. assert (Y : 0 < im_y im) by lia.
  destruct (conv_grid draw 2 2 (sqrt 2) true 1 im) as (q & o & N & F & S & V); auto using R1_neq_R0; try (apply even_fits; assumption).
  change (2 ^ 2) with 4 in *. rewrite !half in S, V by assumption.
  destruct (net_new draw w1 b1 w2 b2) as (q' & N' & M & _). assert (q' = q) by congruence. subst q'.
  assert (A : im_x im / 2 * (im_y im / 2) = 196).
  { pose proof (Nat.div_mod (im_x im) 2 ltac:(lia)). pose proof (Nat.div_mod (im_y im) 2 ltac:(lia)). nia. }
  destruct (net_tail q w1 b1 w2 b2 im o _ _ _ F S) as [_ T]. destruct (T A) as (r & R & RS & RV). exists (mkNet q (mkL (14 * 14 * 4) 64 w1 b1) (mkL 64 10 w2 b2)), r.
  split; [exact M|]. split; [exact R|]. split; [exact RS|]. intros bt k Hb. rewrite RV. unfold net_score. f_equal. apply rsum_to_ext. intros h _. f_equal.
  unfold net_hidden. f_equal. f_equal. apply rsum_to_ext. intros j Hj. f_equal. unfold net_feature.
  assert (0 < im_y im / 2) by nia. pose proof (Nat.mod_upper_bound j 196 ltac:(lia)).
  assert (J1 : j / 196 < 4) by (apply Nat.div_lt_upper_bound; lia).
  assert (J2 : j mod 196 / (im_y im / 2) < im_x im / 2) by (apply Nat.div_lt_upper_bound; [lia|]; rewrite Nat.mul_comm, A; assumption).
  assert (J3 : (j mod 196) mod (im_y im / 2) < im_y im / 2) by (apply Nat.mod_upper_bound; lia).
  rewrite (V bt _ _ _ Hb J1 J2 J3). rewrite (Nat.mul_comm 2 (j mod 196 / (im_y im / 2))), (Nat.mul_comm 2 ((j mod 196) mod (im_y im / 2))). reflexivity.
Qed.
Lemma empty_loops : forall q im, qc_stride q = 2 -> qc_kernel q = 2 -> im_x im = 0 \/ im_y im = 0 ->
  exists o lx ly, qc_forward q im = Ok o /\ out_shape o = [im_batch im; 4; lx; ly] /\ lx * ly = 0.
Proof.
  intros q im S K H. unfold qc_forward. rewrite S, K. cbn [Nat.eqb raise_if].
  assert (G : forall len, (0 <= (Z.of_nat len - Z.of_nat 2) / Z.of_nat 2 + 1)%Z).
  { intros len. assert (-1 <= (Z.of_nat len - Z.of_nat 2) / Z.of_nat 2)%Z; [|lia]. apply Z.div_le_lower_bound; lia. }
  pose proof (G (im_x im)). pose proof (G (im_y im)).
  replace (((Z.of_nat (im_x im) - Z.of_nat 2) / Z.of_nat 2 + 1 <? 0) || ((Z.of_nat (im_y im) - Z.of_nat 2) / Z.of_nat 2 + 1 <? 0))%Z with false by lia.
  cbn [raise_if]. set (lx := Z.to_nat _). set (ly := Z.to_nat ((Z.of_nat (im_y im) - _) / _ + 1)). change (2 ^ 2) with 4. set (o := mkO _ _).
  assert (Z : lx * ly = 0). { unfold lx, ly. destruct H as [H|H]; rewrite H; cbn; lia. }
  exists o, lx, ly. split; [|split; [reflexivity|exact Z]]. destruct H as [H|H]; rewrite H; cbn [range_step].
  - induction (seq 0 (im_batch im)) as [|b l IH]; [reflexivity|]. cbn [mfold]. exact IH.
  - induction (seq 0 (im_batch im)) as [|b l IH]; [reflexivity|]. cbn [mfold].
    match goal with |- bind ?a _ = _ => assert (E : a = Ok o) end.
    { clear IH. induction (range_step (im_x im) 2) as [|j l' IH']; [reflexivity|]. cbn [mfold bind]. exact IH'. }
    rewrite E. exact IH.
Qed.
Lemma no_channel : forall q im, qc_stride q = 2 -> qc_kernel q = 2 -> im_channel im = 0 -> 0 < im_batch im -> 0 < im_x im -> 0 < im_y im ->
  qc_forward q im = Err IndexError.
Proof.
  intros q im S K C B X Y. unfold qc_forward. rewrite S, K. cbn [Nat.eqb raise_if].
  assert (G : forall len, (0 <= (Z.of_nat len - Z.of_nat 2) / Z.of_nat 2 + 1)%Z).
  { intros len. assert (-1 <= (Z.of_nat len - Z.of_nat 2) / Z.of_nat 2)%Z; [|lia]. apply Z.div_le_lower_bound; lia. }
  pose proof (G (im_x im)). pose proof (G (im_y im)).
  replace (((Z.of_nat (im_x im) - Z.of_nat 2) / Z.of_nat 2 + 1 <? 0) || ((Z.of_nat (im_y im) - Z.of_nat 2) / Z.of_nat 2 + 1 <? 0))%Z with false by lia.
  cbn [raise_if]. destruct (im_batch im) as [|b]; [lia|]. cbn [seq mfold].
  assert (RS : forall len, 0 < len -> exists l, range_step len 2 = 0 :: l).
  { intros len H1. unfold range_step. assert (1 <= (len + 2 - 1) / 2) by (apply Nat.div_le_lower_bound; lia).
    destruct ((len + 2 - 1) / 2) as [|a]; [lia|]. cbn [seq map]. eexists. reflexivity. }
  destruct (RS _ X) as (lx & ->). destruct (RS _ Y) as (ly & ->). cbn [mfold]. unfold qc_values at 1. rewrite C. reflexivity.
Qed.
Lemma net_accepts : forall draw w1 b1 w2 b2 im, length draw = 12 -> 0 < im_batch im ->
  exists m, Net draw w1 b1 w2 b2 = Ok m /\
    ((exists r, net_forward m im = Ok r) <-> 0 < im_channel im /\ im_x im mod 2 = 0 /\ im_y im mod 2 = 0 /\ im_x im * im_y im = 784).
Proof.
  intros draw w1 b1 w2 b2 im L B. destruct (net_new draw w1 b1 w2 b2) as (q & N & M & Q1 & Q2 & Q3). eexists. split; [exact M|]. split.
  2:{ intros (C & EX & EY & P). destruct (net_value draw w1 b1 w2 b2 im L C EX EY P) as (m & r & M' & F & _). rewrite M in M'. injection M' as <-. eauto. }
  intros (r & F). set (m := mkNet q _ _) in *.
  destruct (Nat.eq_dec (im_x im) 0) as [X|X]; [exfalso|destruct (Nat.eq_dec (im_y im) 0) as [Y|Y]; [exfalso|]].
  1,2: destruct (empty_loops q im Q2 Q3) as (o & lx & ly & E & S & Z); [lia|]; destruct (net_tail q w1 b1 w2 b2 im o _ _ _ E S) as [T _];
       specialize (T ltac:(lia)); fold m in T; congruence.
  destruct (Nat.eq_dec (im_channel im) 0) as [C|C].
  { exfalso. unfold net_forward, m in F. cbn [net_quanv] in F. rewrite no_channel in F by (auto; lia). discriminate. }
  assert (K : {fits 2 2 (im_x im) /\ fits 2 2 (im_y im)} + {~ (fits 2 2 (im_x im) /\ fits 2 2 (im_y im))}).
  { destruct (Nat.eq_dec (im_x im mod 2) 0) as [A|A], (Nat.eq_dec (im_y im mod 2) 0) as [A'|A']; [left|right|right|right];
      rewrite !even_fits by lia; tauto. }
  destruct K as [[FX FY]|K].
  - destruct (conv_grid draw 2 2 (sqrt 2) true 1 im) as (q' & o & N' & E & S & _); auto using R1_neq_R0; try lia.
    assert (q' = q) by (change (2 ^ 2) with 4 in N'; congruence). subst q'. apply even_fits in FX; [|lia]. apply even_fits in FY; [|lia].
    change (2 ^ 2) with 4 in S. rewrite !half in S by (auto; lia). destruct (net_tail q w1 b1 w2 b2 im o _ _ _ E S) as [T _]. fold m in T.
    destruct (Nat.eq_dec (im_x im / 2 * (im_y im / 2)) 196) as [A|A]; [|rewrite T in F by exact A; discriminate].
    split; [lia|]. split; [exact FX|]. split; [exact FY|].
    pose proof (Nat.div_mod (im_x im) 2 ltac:(lia)). pose proof (Nat.div_mod (im_y im) 2 ltac:(lia)). nia.
  - exfalso. destruct (conv_border draw 2 2 (sqrt 2) true 1 im) as (q' & N' & E); auto using R1_neq_R0; try lia.
    assert (q' = q) by (change (2 ^ 2) with 4 in N'; congruence). subst q'. unfold net_forward, m in F. cbn [net_quanv] in F. rewrite E in F.
    destruct (_ || _); discriminate.
Qed.
