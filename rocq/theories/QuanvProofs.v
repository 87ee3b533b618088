(** Proofs of the properties of the quantum convolution in the form in which Prop_Quanv.v states them. *)
From Coq Require Import List ZArith QArith Reals Lra Lia ZifyBool Bool Arith Setoid Morphisms.
From Verif Require Import PyBase Scalar CInst BigSum Index Tensor TensorFacts Spec SpecFacts QMath QMathC QTN QOperator
  ExpandFacts ExpandFacts2 GateSpec QGates GateCalls GateFacts GateFacts2 GateFacts6 GateProofs RunSpec
  LayerSpec QLayers LayerCalls LayerFacts1 CircuitSpec QCircuit CircuitFacts1 CircuitProofs MeasSpec MeasFacts MeasCases QuanvSpec QQuanv QuanvFacts.
Import ListNotations.
Local Close Scope Q_scope.
Local Close Scope R_scope.
Local Open Scope nat_scope.

(** *** the constructor *)
Lemma Zmeasure_conv : forall n, qc_Zmeasure n = Ok (map (fun i => op_tensor n (lift Z_op [i])) (seq 0 n)).
Proof.
  intros n. unfold qc_Zmeasure. assert (X : forall l, (forall q, In q l -> q < n) -> mmap (fun i => do g <- PauliZ (Z.of_nat n) (WInt (Z.of_nat i)); U_expand g) l = Ok (map (fun i => op_tensor n (lift Z_op [i])) l)).
  { induction l as [|q l IH]; intros H; [reflexivity|]. cbn [mmap map]. rewrite Z_gate by (apply H; now left). cbn [bind]. rewrite IH by (intros; apply H; now right). reflexivity. }
  apply X. intros q Hq. apply in_seq in Hq. lia.
Qed.
Lemma sqrt5 : sqrt 5 <> 0%R.
Proof. apply Rgt_not_eq, sqrt_lt_R0. lra. Qed.
Lemma conv_new : forall draw n s k gain b lr, lr <> 0%R ->
  exists q, (n = k ^ 2 -> QuanConv2D draw n s k gain b lr = Ok q) /\ (n <> k ^ 2 -> QuanConv2D draw n s k gain b lr = Err ValueError) /\
    qc_n q = n /\ qc_stride q = s /\ qc_kernel q = k /\ length (qc_weight q) = length draw /\ angles q = map (fun u => u * (gain / sqrt 5))%R draw /\
    qc_M q = map (fun i => op_tensor n (lift Z_op [i])) (seq 0 n).
Proof.
  intros draw n s k gain b lr H. unfold QuanConv2D. destruct (Req_EM_T lr 0) as [E|_]; [contradiction|]. rewrite Zmeasure_conv. cbn [bind].
  eexists. split; [|split].
  - intros E. apply Nat.eqb_eq in E. rewrite E. cbn [negb raise_if]. reflexivity.
  - intros E. apply Nat.eqb_neq in E. now rewrite E.
  - cbn [qc_n qc_stride qc_kernel qc_weight qc_M]. split; [reflexivity|]. split; [reflexivity|]. split; [reflexivity|]. split; [now rewrite map_length|]. split; [|reflexivity].
    unfold angles. cbn [qc_weight qc_w_mul]. rewrite map_map. apply map_ext. intros u. destruct b; field; auto using sqrt5.
Qed.

(** *** the grid *)
Lemma fits_iff : forall s k len, 0 < s -> 0 < len -> (fits s k len <-> k <= s /\ (len mod s = 0 \/ k <= len mod s)).
Proof.
  intros s k len Hs Hl. unfold fits. pose proof (Nat.div_mod len s ltac:(lia)) as D. pose proof (Nat.mod_upper_bound len s ltac:(lia)) as M.
  set (a := len / s) in *. set (r := len mod s) in *. split.
  - intros H. destruct (Nat.eq_dec r 0) as [E|E].
    + destruct a as [|a]; [lia|]. specialize (H a). split; [|now left]. assert (a * s + k <= len) by (apply H; nia). nia.
    + specialize (H a). assert (a * s + k <= len) by (apply H; nia). split; [nia|]. right. nia.
  - intros [H1 H2] i Hi. destruct (le_lt_dec a i) as [G|G]; [|nia]. assert (i = a) by nia. subst i. destruct H2; nia.
Qed.
Lemma range_in : forall len s j, 0 < s -> (In j (range_step len s) <-> exists i, j = i * s /\ i * s < len).
Proof.
  intros len s j Hs. unfold range_step. rewrite in_map_iff.
  assert (X : forall i, i < (len + s - 1) / s <-> i * s < len).
  { intros i. pose proof (Nat.div_mod (len + s - 1) s ltac:(lia)) as D. pose proof (Nat.mod_upper_bound (len + s - 1) s ltac:(lia)). set (a := (len + s - 1) / s) in *. nia. }
  split.
  - intros (i & <- & Hi). apply in_seq in Hi. exists i. split; auto. apply X. lia.
  - intros (i & -> & Hi). exists i. split; auto. apply in_seq. apply X in Hi. lia.
Qed.

Lemma flat_map_len : forall A B (f : A -> list B) l m, (forall a, In a l -> length (f a) = m) -> length (flat_map f l) = length l * m.
Proof. induction l as [|a l IH]; intros m H; [reflexivity|]. cbn [flat_map length]. rewrite app_length, IH with (m := m) by (intros; apply H; now right). rewrite H by now left. lia. Qed.
Lemma patch_len : forall im k b x y, length (qc_patch im k b x y) = (Nat.min (x + k) (im_x im) - x) * (Nat.min (y + k) (im_y im) - y).
Proof. intros. unfold qc_patch. rewrite flat_map_len with (m := Nat.min (y + k) (im_y im) - y); [now rewrite seq_length|]. intros. now rewrite map_length, seq_length. Qed.
Lemma seq_shift_by : forall a k, seq a k = map (fun i => a + i) (seq 0 k).
Proof.
  intros a k. revert a. induction k as [|k IH]; intros a; [reflexivity|]. cbn [seq map]. rewrite Nat.add_0_r. f_equal. rewrite (IH (S a)), <- seq_shift, map_map. apply map_ext. intros; lia.
Qed.
Lemma patch_square : forall im k b x y, x + k <= im_x im -> y + k <= im_y im -> qc_patch im k b x y = square (im_pix im) k b x y.
Proof.
  intros im k b x y Hx Hy. unfold qc_patch, square. rewrite !Nat.min_l by auto. replace (x + k - x) with k by lia. replace (y + k - y) with k by lia.
  rewrite (seq_shift_by x), (seq_shift_by y), flat_map_concat_map, map_map, <- flat_map_concat_map. apply flat_map_ext. intros i. now rewrite map_map.
Qed.

(** *** writing the output *)
Definition W (V : list nat -> R) (o : outimg) (i : list nat) : res outimg := out_set o i (V i).
Lemma writes_ok : forall V L o, (forall i, In i L -> in_range (out_shape o) i = true) ->
  exists o', mfold (W V) L o = Ok o' /\ out_shape o' = out_shape o /\ forall i, (In i L -> out_get o' i = V i) /\ (~ In i L -> out_get o' i = out_get o i).
Proof.
  intros V L. induction L as [|i L IH]; intros o H.
  - exists o. split; [reflexivity|]. split; [reflexivity|]. intros i. split; [intros []|reflexivity].
  - cbn [mfold]. unfold W at 1, out_set. rewrite H by now left. cbn [bind].
    set (o1 := mkO _ _). destruct (IH o1) as (o' & E & S & G); [intros; apply H; now right|]. exists o'. split; [exact E|]. split; [exact S|].
    intros j. destruct (G j) as [G1 G2]. destruct (in_dec (list_eq_dec Nat.eq_dec) j L) as [J|J].
    + split; [auto|]. intros N. exfalso. apply N. now right.
    + rewrite G2 by exact J. unfold o1. cbn [out_get]. split.
      * intros [->|]; [|contradiction]. destruct list_eq_dec; [reflexivity|congruence].
      * intros N. destruct list_eq_dec as [->|]; [|reflexivity]. exfalso. apply N. now left.
Qed.

Section Grid.
  Variables (q : quanconv) (im : image).
  Notation k := (qc_kernel q).
  Notation s := (qc_stride q).
  Hypothesis Hk : 1 < k.
  Hypothesis Hn : qc_n q = k ^ 2.
  Hypothesis Hs : 0 < s.
  Hypothesis LW : length (qc_weight q) = 3 * qc_n q.
  Hypothesis HC : 0 < im_channel im.

  Definition val (i : list nat) : R :=
    match i with [b; c; x; y] => quanv_value (k ^ 2) (angles q) (square (im_pix im) k b (x * s) (y * s)) c | _ => 0%R end.

  Lemma n_big : 1 < qc_n q.
  Proof. rewrite Hn. cbn. nia. Qed.
  Lemma full_patch : forall b x y, x + k <= im_x im -> y + k <= im_y im -> qc_values q im b x y = Ok (map (quanv_value (k ^ 2) (angles q) (square (im_pix im) k b x y)) (seq 0 (k ^ 2))).
  Proof.
    intros b x y Hx Hy. rewrite values_ok; auto using n_big.
    - now rewrite patch_square, Hn.
    - rewrite patch_len, !Nat.min_l, Hn by auto. cbn. nia.
  Qed.
  Lemma short_patch : forall b x y, x < im_x im -> y < im_y im -> (im_x im < x + k \/ im_y im < y + k) -> qc_values q im b x y = Err IndexError.
  Proof.
    intros b x y Hx Hy H. unfold qc_values. replace (im_channel im =? 0) with false by lia. cbn [raise_if]. rewrite input_short; [reflexivity|]. rewrite patch_len, Hn.
    pose proof (Nat.le_min_l (x + k) (im_x im)). pose proof (Nat.le_min_l (y + k) (im_y im)). pose proof (Nat.le_min_r (x + k) (im_x im)). pose proof (Nat.le_min_r (y + k) (im_y im)).
    set (u := Nat.min _ _) in *. set (v := Nat.min (y + k) _) in *. cbn. rewrite Nat.mul_1_r.
    assert (u - x <= k /\ v - y <= k /\ (u - x < k \/ v - y < k)) by lia. set (u' := u - x) in *. set (v' := v - y) in *. nia.
  Qed.

  Definition idxs (l1 : list nat) (lx ly : list nat) : list (list nat) :=
    flat_map (fun b => flat_map (fun j => flat_map (fun l => map (fun c => [b; c; j / s; l / s]) (seq 0 (k ^ 2))) ly) lx) l1.
  Lemma mul_div : forall i, i * s / s = i.
  Proof. intros. apply Nat.div_mul. lia. Qed.

  Lemma loop_writes : fits s k (im_x im) -> fits s k (im_y im) -> forall o bs,
    mfold (fun out batch_i =>
      mfold (fun out j =>
        mfold (fun out k0 =>
          do classical_value <- qc_values q im batch_i j k0;
          mfold (fun out c =>
            do v <- py_nth classical_value (Z.of_nat c);
            out_set out [batch_i; c; j / s; k0 / s] v) (seq 0 (k ^ 2)) out)
          (range_step (im_y im) s) out)
        (range_step (im_x im) s) out) bs o = mfold (W val) (idxs bs (range_step (im_x im) s) (range_step (im_y im) s)) o.
  Proof.
    intros FX FY o bs. unfold idxs. rewrite <- mfold_flat. apply mfold_ext. intros o1 b _. rewrite <- mfold_flat. apply mfold_ext. intros o2 j Hj.
    rewrite <- mfold_flat. apply mfold_ext. intros o3 l Hl. apply range_in in Hj, Hl; auto. destruct Hj as (x & -> & Hx), Hl as (y & -> & Hy).
    rewrite full_patch by auto. cbn [bind]. rewrite mfold_map. apply mfold_ext. intros o4 c Hc. apply in_seq in Hc.
    rewrite (py_nth_nat _ _ c 0%R) by (rewrite map_length, seq_length; lia). cbn [bind]. unfold W. f_equal. rewrite !mul_div. cbn [val].
    rewrite (nth_map' _ _ _ _ c 0%R 0) by (rewrite seq_length; lia). now rewrite seq_nth by lia.
  Qed.
  Lemma idxs_in : forall l1 lx ly i, In i (idxs l1 (range_step lx s) (range_step ly s)) <-> exists b c x y, i = [b; c; x; y] /\ In b l1 /\ c < k ^ 2 /\ x * s < lx /\ y * s < ly.
  Proof.
    intros l1 lx ly i. unfold idxs. rewrite in_flat_map. split.
    - intros (b & Hb & H). apply in_flat_map in H. destruct H as (j & Hj & H). apply in_flat_map in H. destruct H as (l & Hl & H). apply in_map_iff in H. destruct H as (c & <- & Hc).
      apply range_in in Hj, Hl; auto. destruct Hj as (x & -> & Hx), Hl as (y & -> & Hy). rewrite !mul_div. apply in_seq in Hc. exists b, c, x, y. repeat split; auto; lia.
    - intros (b & c & x & y & -> & Hb & Hc & Hx & Hy). exists b. split; auto. apply in_flat_map. exists (x * s). split; [apply range_in; eauto|]. apply in_flat_map. exists (y * s). split; [apply range_in; eauto|].
      apply in_map_iff. exists c. rewrite !mul_div. split; auto. apply in_seq. lia.
  Qed.
  Lemma out_len : forall len, k <= len -> ((Z.of_nat len - Z.of_nat k) / Z.of_nat s + 1)%Z = Z.of_nat ((len - k) / s + 1).
  Proof. intros len H. rewrite Nat2Z.inj_add, Nat2Z.inj_div, Nat2Z.inj_sub by auto. reflexivity. Qed.
  Lemma out_bound : forall len x, k <= len -> x * s + k <= len -> x < (len - k) / s + 1.
  Proof. intros len x H1 H2. assert (x <= (len - k) / s) by (apply Nat.div_le_lower_bound; nia). lia. Qed.
  Lemma out_bound' : forall len x, k <= len -> x < (len - k) / s + 1 -> x * s + k <= len.
  Proof. intros len x H1 H2. pose proof (Nat.mul_div_le (len - k) s ltac:(lia)). assert (x * s <= s * ((len - k) / s)) by nia. lia. Qed.

  Lemma forward_ok : 0 < im_x im -> 0 < im_y im -> fits s k (im_x im) -> fits s k (im_y im) ->
    exists o, qc_forward q im = Ok o /\ out_shape o = [im_batch im; k ^ 2; (im_x im - k) / s + 1; (im_y im - k) / s + 1] /\
      forall b c x y, b < im_batch im -> c < k ^ 2 -> x < (im_x im - k) / s + 1 -> y < (im_y im - k) / s + 1 ->
        out_get o [b; c; x; y] = quanv_value (k ^ 2) (angles q) (square (im_pix im) k b (x * s) (y * s)) c.
  Proof.
    intros X Y FX FY. assert (KX : k <= im_x im) by (specialize (FX 0); lia). assert (KY : k <= im_y im) by (specialize (FY 0); lia).
    unfold qc_forward. replace (s =? 0) with false by lia. cbn [raise_if]. rewrite !out_len by auto.
    set (lx := (im_x im - k) / s + 1). set (ly := (im_y im - k) / s + 1).
    replace ((Z.of_nat lx <? 0) || (Z.of_nat ly <? 0))%Z with false by lia. cbn [raise_if]. rewrite !Nat2Z.id, loop_writes by auto.
    match goal with |- context [mfold _ ?L ?o] => destruct (writes_ok val L o) as (o' & E & S & G) end.
    { intros i Hi. apply idxs_in in Hi. destruct Hi as (b & c & x & y & -> & Hb & Hc & Hx & Hy). apply in_seq in Hb. cbn [in_range out_shape].
      pose proof (out_bound (im_x im) x KX ltac:(now apply FX)). pose proof (out_bound (im_y im) y KY ltac:(now apply FY)). unfold lx, ly.
      rewrite !andb_true_iff, !Nat.ltb_lt. repeat split; auto. lia. }
    exists o'. split; [exact E|]. split; [exact S|]. intros b c x y Hb Hc Hx Hy. apply (G [b; c; x; y]). apply idxs_in. exists b, c, x, y.
    apply out_bound' in Hx, Hy; auto. split; [reflexivity|]. split; [apply in_seq; lia|]. split; [exact Hc|]. split; lia.
  Qed.

  Lemma forward_border : 0 < im_batch im -> 0 < im_x im -> 0 < im_y im -> k <= im_x im + s -> k <= im_y im + s -> ~ (fits s k (im_x im) /\ fits s k (im_y im)) ->
    qc_forward q im = Err IndexError.
  Proof.
    intros B X Y KX KY NF. unfold qc_forward. replace (s =? 0) with false by lia. cbn [raise_if].
    assert (P : forall len, k <= len + s -> (0 <= (Z.of_nat len - Z.of_nat k) / Z.of_nat s + 1)%Z).
    { intros len H. assert (-1 <= (Z.of_nat len - Z.of_nat k) / Z.of_nat s)%Z; [|lia]. apply Z.div_le_lower_bound; lia. }
    pose proof (P _ KX). pose proof (P _ KY). set (lx := ((Z.of_nat (im_x im) - _) / _ + 1)%Z) in *. set (ly := ((Z.of_nat (im_y im) - _) / _ + 1)%Z) in *.
    replace ((lx <? 0) || (ly <? 0))%Z with false by lia. cbn [raise_if].
    set (sh := [im_batch im; k ^ 2; Z.to_nat lx; Z.to_nat ly]).
    assert (FB : exists x y, x * s < im_x im /\ y * s < im_y im /\ (im_x im < x * s + k \/ im_y im < y * s + k)).
    { assert (D : forall len, {i | i * s < len /\ len < i * s + k} + {fits s k len}).
      { intros len. destruct (le_lt_dec (((len - 1) / s) * s + k) len) as [G|G].
        - right. intros i Hi. assert (i <= (len - 1) / s) by (apply Nat.div_le_lower_bound; nia). nia.
        - destruct (Nat.eq_dec len 0) as [->|N]; [right; intros i Hi; lia|]. left. exists ((len - 1) / s). split; auto. pose proof (Nat.mul_div_le (len - 1) s ltac:(lia)). nia. }
      destruct (D (im_x im)) as [(x & D1 & D2)|D1]; [exists x, 0; repeat split; auto; lia|].
      destruct (D (im_y im)) as [(y & D3 & D2)|D3]; [exists 0, y; repeat split; auto; lia|]. tauto. }
    destruct FB as (x & y & Hx & Hy & Hxy).
    (* every patch is either complete and written, or too short *)
    assert (ST : forall o b j l, out_shape o = sh -> b < im_batch im -> In j (range_step (im_x im) s) -> In l (range_step (im_y im) s) ->
      let r := (do classical_value <- qc_values q im b j l; mfold (fun out c => do v <- py_nth classical_value (Z.of_nat c); out_set out [b; c; j / s; l / s] v) (seq 0 (k ^ 2)) o) in
      (exists o', r = Ok o' /\ out_shape o' = sh) \/ r = Err IndexError).
    { intros o b j l So Hb Hj Hl. apply range_in in Hj, Hl; auto. destruct Hj as (i & -> & Hi), Hl as (m & -> & Hm). cbv zeta.
      destruct (le_lt_dec (i * s + k) (im_x im)) as [G1|G1]; [|right; rewrite short_patch; auto; lia].
      destruct (le_lt_dec (m * s + k) (im_y im)) as [G2|G2]; [|right; rewrite short_patch; auto; lia].
      left. rewrite full_patch by auto. cbn [bind]. rewrite !mul_div.
      rewrite (mfold_ext _ _ _ (fun o c => W val o [b; c; i; m])).
      2:{ intros o4 c Hc. apply in_seq in Hc. rewrite (py_nth_nat _ _ c 0%R) by (rewrite map_length, seq_length; lia). cbn [bind]. unfold W. f_equal. cbn [val].
          rewrite (nth_map' _ _ _ _ c 0%R 0) by (rewrite seq_length; lia). now rewrite seq_nth by lia. }
      rewrite <- (mfold_map _ _ _ (W val) (fun c => [b; c; i; m])). destruct (writes_ok val (map (fun c => [b; c; i; m]) (seq 0 (k ^ 2))) o) as (o' & E & S & _); [|exists o'; split; congruence].
      intros z Hz. apply in_map_iff in Hz. destruct Hz as (c & <- & Hc). apply in_seq in Hc. rewrite So. unfold sh. cbn [in_range].
      assert (Q0 : k <= im_x im /\ k <= im_y im) by nia. destruct Q0.
      assert (Q1 : i < Z.to_nat lx) by (unfold lx; rewrite out_len, Nat2Z.id by auto; apply out_bound; auto).
      assert (Q2 : m < Z.to_nat ly) by (unfold ly; rewrite out_len, Nat2Z.id by auto; apply out_bound; auto).
      rewrite !andb_true_iff, !Nat.ltb_lt. repeat split; auto. lia. }
    assert (STR : forall o b j, out_shape o = sh -> b < im_batch im -> In j (range_step (im_x im) s) ->
      let r := mfold (fun out l => do classical_value <- qc_values q im b j l; mfold (fun out c => do v <- py_nth classical_value (Z.of_nat c); out_set out [b; c; j / s; l / s] v) (seq 0 (k ^ 2)) out) (range_step (im_y im) s) o in
      (exists o', r = Ok o' /\ out_shape o' = sh) \/ r = Err IndexError).
    { intros o b j So Hb Hj. cbv zeta. revert o So. assert (SUB : incl (range_step (im_y im) s) (range_step (im_y im) s)) by apply incl_refl. revert SUB. generalize (range_step (im_y im) s) at 1 3 4.
      intros L. induction L as [|l L IH]; intros SUB o So; [left; exists o; split; [reflexivity|exact So]|]. cbn [mfold].
      destruct (ST o b j l So Hb Hj (SUB l (or_introl eq_refl))) as [(o' & E & S)|E]; cbv zeta in E; rewrite E; cbn [bind]; [|now right].
      apply IH; [intros z Hz; apply SUB; now right|exact S]. }
    assert (STB : forall o b, out_shape o = sh -> b < im_batch im ->
      let r := mfold (fun out j => mfold (fun out l => do classical_value <- qc_values q im b j l; mfold (fun out c => do v <- py_nth classical_value (Z.of_nat c); out_set out [b; c; j / s; l / s] v) (seq 0 (k ^ 2)) out) (range_step (im_y im) s) out) (range_step (im_x im) s) o in
      (exists o', r = Ok o' /\ out_shape o' = sh) \/ r = Err IndexError).
    { intros o b So Hb. cbv zeta. revert o So. assert (SUB : incl (range_step (im_x im) s) (range_step (im_x im) s)) by apply incl_refl. revert SUB. generalize (range_step (im_x im) s) at 1 3 4.
      intros L. induction L as [|l L IH]; intros SUB o So; [left; exists o; split; [reflexivity|exact So]|]. cbn [mfold].
      destruct (STR o b l So Hb (SUB l (or_introl eq_refl))) as [(o' & E & S)|E]; cbv zeta in E; rewrite E; cbn [bind]; [|now right].
      apply IH; [intros z Hz; apply SUB; now right|exact S]. }
    apply (mfold_err _ _ _ (fun o => out_shape o = sh) IndexError); [| |reflexivity].
    - intros o b Hb So. apply in_seq in Hb. apply STB; [exact So|lia].
    - exists 0. split; [apply in_seq; lia|]. intros o So. apply (mfold_err _ _ _ (fun o => out_shape o = sh) IndexError); [| |exact So].
      + intros o1 j Hj So1. now apply STR.
      + exists (x * s). split; [apply range_in; eauto|]. intros o1 So1. apply (mfold_err _ _ _ (fun o => out_shape o = sh) IndexError); [| |exact So1].
        * intros o2 l Hl So2. apply ST; auto. apply range_in; eauto.
        * exists (y * s). split; [apply range_in; eauto|]. intros o2 _. rewrite short_patch; auto.
  Qed.
End Grid.

(** *** in terms of the constructor *)
Lemma conv_grid : forall draw k s gain b lr im, 1 < k -> 0 < s -> lr <> 0%R -> length draw = 3 * k ^ 2 -> 0 < im_channel im -> 0 < im_x im -> 0 < im_y im ->
  fits s k (im_x im) -> fits s k (im_y im) ->
  exists q o, QuanConv2D draw (k ^ 2) s k gain b lr = Ok q /\ qc_forward q im = Ok o /\
    out_shape o = [im_batch im; k ^ 2; (im_x im - k) / s + 1; (im_y im - k) / s + 1] /\
    forall bt c x y, bt < im_batch im -> c < k ^ 2 -> x < (im_x im - k) / s + 1 -> y < (im_y im - k) / s + 1 ->
      out_get o [bt; c; x; y] = quanv_value (k ^ 2) (map (fun u => u * (gain / sqrt 5))%R draw) (square (im_pix im) k bt (x * s) (y * s)) c.
Proof.
  intros draw k s gain b lr im Hk Hs Hl L HC X Y FX FY. destruct (conv_new draw (k ^ 2) s k gain b lr Hl) as (q & N & _ & Q1 & Q2 & Q3 & Q4 & Q5 & _).
  specialize (N eq_refl). subst k s. rewrite <- Q5. destruct (forward_ok q im) as (o & F); auto; try congruence. exists q, o. split; [exact N|exact F].
Qed.
Lemma conv_border : forall draw k s gain b lr im, 1 < k -> 0 < s -> lr <> 0%R -> length draw = 3 * k ^ 2 ->
  0 < im_batch im -> 0 < im_channel im -> 0 < im_x im -> 0 < im_y im -> ~ (fits s k (im_x im) /\ fits s k (im_y im)) ->
  exists q, QuanConv2D draw (k ^ 2) s k gain b lr = Ok q /\
    qc_forward q im = if (im_x im + s <? k) || (im_y im + s <? k) then Err TorchError else Err IndexError.
Proof.
  intros draw k s gain b lr im Hk Hs Hl L HB HC X Y NF. destruct (conv_new draw (k ^ 2) s k gain b lr Hl) as (q & N & _ & Q1 & Q2 & Q3 & Q4 & Q5 & _).
  specialize (N eq_refl). exists q. split; [exact N|]. subst k s. destruct ((im_x im + qc_stride q <? qc_kernel q) || (im_y im + qc_stride q <? qc_kernel q)) eqn:E.
  - unfold qc_forward. replace (qc_stride q =? 0) with false by lia. cbn [raise_if].
    assert (P : forall len, len + qc_stride q < qc_kernel q -> ((Z.of_nat len - Z.of_nat (qc_kernel q)) / Z.of_nat (qc_stride q) + 1 < 0)%Z).
    { intros len H. assert ((Z.of_nat len - Z.of_nat (qc_kernel q)) / Z.of_nat (qc_stride q) < -1)%Z; [|lia]. apply Z.div_lt_upper_bound; lia. }
    apply orb_true_iff in E. rewrite !Nat.ltb_lt in E. replace (_ || _) with true; [reflexivity|]. symmetry. apply orb_true_iff. rewrite !Z.ltb_lt. destruct E as [E|E]; apply P in E; auto.
  - apply orb_false_iff in E. rewrite !Nat.ltb_ge in E. apply forward_border; auto; try lia; congruence.
Qed.
Lemma conv_overlap : forall draw k s gain b lr im, 1 < k -> 0 < s -> s < k -> lr <> 0%R -> length draw = 3 * k ^ 2 ->
  0 < im_batch im -> 0 < im_channel im -> 0 < im_x im -> 0 < im_y im ->
  exists q, QuanConv2D draw (k ^ 2) s k gain b lr = Ok q /\ qc_forward q im = Err (if (im_x im + s <? k) || (im_y im + s <? k) then TorchError else IndexError).
Proof.
  intros draw k s gain b lr im Hk Hs Hsk Hl L HB HC X Y. destruct (conv_border draw k s gain b lr im) as (q & N & F); auto.
  { intros [F _]. apply fits_iff in F; auto. lia. }
  exists q. split; [exact N|]. rewrite F. now destruct (_ || _).
Qed.

(** a kernel of size 1: the ring of cnots is one cnot from the qubit to itself *)
Lemma qconv_one : forall q A, qc_n q = 1 -> length (qc_weight q) = 3 -> qc_qconv q A = Err ValueError.
Proof.
  intros q A N L. unfold qc_qconv. fold (angles q). rewrite (qconv_circuit q) by lia. rewrite N.
  assert (G : Forall (gi_ok 1) (flat_map (fun i => [gi_rx (nth (3 * i) (angles q) 0%R) i; gi_rz (nth (3 * i + 1) (angles q) 0%R) i; gi_rx (nth (3 * i + 2) (angles q) 0%R) i]) (seq 0 1))) by apply rot_gates_ok.
  set (gs := flat_map _ (seq 0 1)) in *. cbn [seq mfold].
  unfold method. rewrite circ_N. change (obuild 1 (CG (gi_cnot 0 ((0 + 1) mod 1)))) with (Ok (OG (mkG ccnot 1 (WList [0; 0]%Z) None cnot_m no_matrix))). cbn [bind].
  unfold cU. rewrite add_gate, circ_gate, mfold_app.
  pose proof (gates_U 1 gs ltac:(lia) G) as U. unfold cU in U. rewrite circ_gate, circ_N in U. rewrite add_N, circ_N, U. reflexivity.
Qed.
Lemma conv_kernel_one : forall draw s gain b lr im, 0 < s -> lr <> 0%R -> length draw = 3 ->
  0 < im_batch im -> 0 < im_channel im -> 0 < im_x im -> 0 < im_y im ->
  exists q, QuanConv2D draw 1 s 1 gain b lr = Ok q /\ qc_forward q im = Err ValueError.
Proof.
  intros draw s gain b lr im Hs Hl L HB HC X Y. destruct (conv_new draw 1 s 1 gain b lr Hl) as (q & N & _ & Q1 & Q2 & Q3 & Q4 & Q5 & _).
  specialize (N eq_refl). exists q. split; [exact N|]. unfold qc_forward. rewrite Q2, Q3. replace (s =? 0) with false by lia. cbn [raise_if].
  assert (P : forall len, 0 < len -> (0 <= (Z.of_nat len - Z.of_nat 1) / Z.of_nat s + 1)%Z) by (intros len H; assert (0 <= (Z.of_nat len - Z.of_nat 1) / Z.of_nat s)%Z by (apply Z.div_pos; lia); lia).
  pose proof (P _ X). pose proof (P _ Y). set (lx := ((Z.of_nat (im_x im) - _) / _ + 1)%Z) in *. set (ly := ((Z.of_nat (im_y im) - _) / _ + 1)%Z) in *.
  replace ((lx <? 0) || (ly <? 0))%Z with false by lia. cbn [raise_if].
  assert (R0 : forall len, 0 < len -> exists l, range_step len s = 0 :: l).
  { intros len H1. assert (H2 : In 0 (range_step len s)) by (apply range_in; auto; exists 0; lia). unfold range_step in *. destruct ((len + s - 1) / s); [destruct H2|]. cbn. eauto. }
  destruct (R0 _ X) as (l1 & ->), (R0 _ Y) as (l2 & ->). destruct (im_batch im) as [|bt]; [lia|]. cbn [seq mfold].
  unfold qc_values. replace (im_channel im =? 0) with false by lia. cbn [raise_if].
  rewrite input_ok by (rewrite ?patch_len, ?Q1, ?Q3; cbn [Nat.add]; rewrite ?Nat.min_l by lia; lia). cbn [bind]. rewrite Q1, init_op, matmul_op. cbn [bind]. rewrite dag_op. cbn [bind]. rewrite matmul_op. cbn [bind].
  rewrite qconv_one; [reflexivity|auto|congruence].
Qed.

(** no other channel is read *)
Lemma conv_first_channel : forall q im im', im_batch im = im_batch im' -> 0 < im_channel im -> 0 < im_channel im' -> im_x im = im_x im' -> im_y im = im_y im' ->
  (forall b x y, im_pix im b 0 x y = im_pix im' b 0 x y) -> qc_forward q im = qc_forward q im'.
Proof.
  intros q im im' E1 C C' E2 E3 P. unfold qc_forward. rewrite E1, E2, E3.
  assert (V : forall b j l, qc_values q im b j l = qc_values q im' b j l).
  { intros b j l. unfold qc_values. replace (im_channel im =? 0) with false by lia. replace (im_channel im' =? 0) with false by lia. cbn [raise_if].
    replace (qc_patch im (qc_kernel q) b j l) with (qc_patch im' (qc_kernel q) b j l); [reflexivity|]. unfold qc_patch. rewrite E2, E3. apply flat_map_ext. intros x. apply map_ext. intros y. symmetry. apply P. }
  unfold raise_if. destruct (qc_stride q =? 0); [reflexivity|]. destruct (_ || _)%Z; [reflexivity|].
  apply mfold_ext. intros o b _. apply mfold_ext. intros o1 j _. apply mfold_ext. intros o2 l _. now rewrite V.
Qed.
Lemma conv_range : forall k w data c, 1 < k -> (-1 <= quanv_value (k ^ 2) w data c <= 1)%R.
Proof.
  intros k w data c Hk. assert (1 < k ^ 2) by (cbn; nia). apply zmean_range. rewrite norm2_unitary, norm2_zero; [reflexivity|].
  apply gs_unitary. rewrite quanv_split. apply Forall_app. split; [apply in_gates_ok|now apply conv_gates_ok].
Qed.
