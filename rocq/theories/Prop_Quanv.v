(** Properties of QuanConv2D (C41).
    Specifications used in the statements: Spec.v, GateSpec.v, RunSpec.v, MeasSpec.v, QuanvSpec.v. *)
From Coq Require Import List ZArith QArith Reals Lra Lia Bool Arith.
From Verif Require Import PyBase Scalar CInst BigSum Index Tensor Spec GateSpec RunSpec MeasSpec QuanvSpec QQuanv QuanvFacts QuanvProofs.
Import ListNotations.
Local Close Scope Q_scope.
Local Close Scope R_scope.
Local Open Scope nat_scope.

(** C41: when all squares on the grid of step [s] lie inside the image, the output entry of batch element bt, channel c and
    position (x,y) is the mean of Z on qubit c after the circuit for the square at (x s, y s) of channel 0.  The angles are the
    drawn numbers times gain/sqrt 5, whatever use_wscale and lrmul are. *)
Theorem C41_grid : forall draw k s gain use_wscale lrmul im, 1 < k -> 0 < s -> lrmul <> 0%R -> length draw = 3 * k ^ 2 ->
  0 < im_channel im -> 0 < im_x im -> 0 < im_y im -> fits s k (im_x im) -> fits s k (im_y im) ->
  exists q o, QuanConv2D draw (k ^ 2) s k gain use_wscale lrmul = Ok q /\ qc_forward q im = Ok o /\
    out_shape o = [im_batch im; k ^ 2; (im_x im - k) / s + 1; (im_y im - k) / s + 1] /\
    forall bt c x y, bt < im_batch im -> c < k ^ 2 -> x < (im_x im - k) / s + 1 -> y < (im_y im - k) / s + 1 ->
      out_get o [bt; c; x; y] = quanv_value (k ^ 2) (map (fun u => u * (gain / sqrt 5))%R draw) (square (im_pix im) k bt (x * s) (y * s)) c.
Proof. exact conv_grid. Qed.
Print Assumptions C41_grid.
(** when the squares lie inside *)
Theorem C41_fits : forall s k len, 0 < s -> 0 < len -> (fits s k len <-> k <= s /\ (len mod s = 0 \/ k <= len mod s)).
Proof. exact fits_iff. Qed.
Print Assumptions C41_fits.
Example C41_grid_case : fits 2 2 28 /\ fits 3 2 8 /\ ~ fits 2 2 5 /\ ~ fits 1 2 28 /\
  square (fun b ch x y => INR (100 * x + y)) 2 0 4 6 = map INR [406; 407; 506; 507].
Proof.
  split; [apply fits_iff; cbn; lia|]. split; [apply fits_iff; cbn; lia|]. split; [intros H; apply fits_iff in H; cbn in H; lia|].
  split; [intros H; apply fits_iff in H; cbn in H; lia|reflexivity].
Qed.
(** otherwise nothing is returned: the loops have no upper limit len-k, so an image whose border is not covered exactly is refused *)
Theorem C41_border_refuted : forall draw k s gain use_wscale lrmul im, 1 < k -> 0 < s -> lrmul <> 0%R -> length draw = 3 * k ^ 2 ->
  0 < im_batch im -> 0 < im_channel im -> 0 < im_x im -> 0 < im_y im -> ~ (fits s k (im_x im) /\ fits s k (im_y im)) ->
  exists q, QuanConv2D draw (k ^ 2) s k gain use_wscale lrmul = Ok q /\
    qc_forward q im = if (im_x im + s <? k) || (im_y im + s <? k) then Err TorchError else Err IndexError.
Proof. exact conv_border. Qed.
Print Assumptions C41_border_refuted.
Example C41_border_case : 1 < 2 /\ 0 < 2 /\ ~ (fits 2 2 28 /\ fits 2 2 27) /\ ((28 + 2 <? 2) || (27 + 2 <? 2)) = false.
Proof. split; [lia|]. split; [lia|]. split; [|reflexivity]. intros [_ H]. apply fits_iff in H; cbn in H; lia. Qed.
(** overlapping squares (a stride below the kernel size) are never possible *)
Theorem C41_overlap_refuted : forall draw k s gain use_wscale lrmul im, 1 < k -> 0 < s -> s < k -> lrmul <> 0%R -> length draw = 3 * k ^ 2 ->
  0 < im_batch im -> 0 < im_channel im -> 0 < im_x im -> 0 < im_y im ->
  exists q, QuanConv2D draw (k ^ 2) s k gain use_wscale lrmul = Ok q /\ qc_forward q im = Err (if (im_x im + s <? k) || (im_y im + s <? k) then TorchError else IndexError).
Proof. exact conv_overlap. Qed.
Print Assumptions C41_overlap_refuted.
Example C41_overlap_case : 1 < 2 /\ 0 < 1 /\ 1 < 2 /\ 2 <= im_x (mkI 1 1 28 28 (fun _ _ _ _ => 0%R)).
Proof. cbn. lia. Qed.
(** a kernel of one pixel is accepted by the constructor and always fails *)
Theorem C41_kernel_one_refuted : forall draw s gain use_wscale lrmul im, 0 < s -> lrmul <> 0%R -> length draw = 3 ->
  0 < im_batch im -> 0 < im_channel im -> 0 < im_x im -> 0 < im_y im ->
  exists q, QuanConv2D draw 1 s 1 gain use_wscale lrmul = Ok q /\ qc_forward q im = Err ValueError.
Proof. exact conv_kernel_one. Qed.
Print Assumptions C41_kernel_one_refuted.
Example C41_kernel_one_case : length [1; 2; 3]%R = 3 /\ 0 < im_x (mkI 2 1 28 28 (fun _ _ _ _ => 0%R)).
Proof. cbn. lia. Qed.
(** only the first channel of the image is read *)
Theorem C41_first_channel : forall q im im', im_batch im = im_batch im' -> 0 < im_channel im -> 0 < im_channel im' -> im_x im = im_x im' -> im_y im = im_y im' ->
  (forall b x y, im_pix im b 0 x y = im_pix im' b 0 x y) -> qc_forward q im = qc_forward q im'.
Proof. exact conv_first_channel. Qed.
Print Assumptions C41_first_channel.
Example C41_first_channel_case : let im := mkI 1 3 4 4 (fun _ ch x y => INR (ch + x + y)) in let im' := mkI 1 1 4 4 (fun _ _ x y => INR (x + y)) in
  im_pix im 0 1 0 0 <> im_pix im' 0 1 0 0 /\ forall b x y, im_pix im b 0 x y = im_pix im' b 0 x y.
Proof. split; [cbn; lra|reflexivity]. Qed.
(** the number of qubits must be the number of pixels of a square *)
Theorem C41_qubits : forall draw n s k gain use_wscale lrmul, lrmul <> 0%R -> n <> k ^ 2 -> QuanConv2D draw n s k gain use_wscale lrmul = Err ValueError.
Proof. intros draw n s k gain w lr H N. destruct (conv_new draw n s k gain w lr H) as (q & _ & E & _). exact (E N). Qed.
Print Assumptions C41_qubits.
Example C41_qubits_case : 5 <> 2 ^ 2. Proof. cbn. lia. Qed.
(** the values are means of +1 and -1 *)
Theorem C41_range : forall k w data c, 1 < k -> (-1 <= quanv_value (k ^ 2) w data c <= 1)%R.
Proof. exact conv_range. Qed.
Print Assumptions C41_range.
