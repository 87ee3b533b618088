(** Properties of the values of QuanConv2D (C57) and of the class Net of nn/modules/quanv.py (C58).
    Specifications used in the statements: QuanvSpec.v and those of Prop_Quanv.v. *)
From Coq Require Import List ZArith QArith Reals Lra Lia Bool Arith.
From Verif Require Import PyBase Scalar CInst BigSum Index Tensor Spec GateSpec RunSpec MeasSpec QuanvSpec QQuanv QuanvFacts QuanvProofs QuanvClosed3 NetFacts.
Import ListNotations.
Local Close Scope Q_scope.
Local Close Scope R_scope.
Local Open Scope nat_scope.

(** C57: the output of the quantum convolution needs no quantum computer: the entry of channel c is a product of one trigonometric
    function of each pixel numbered 0..c of the square (of each pixel but number 0, for channel 0). *)
Theorem C57_closed_form : forall draw k s gain use_wscale lrmul im, 1 < k -> 0 < s -> lrmul <> 0%R -> length draw = 3 * k ^ 2 ->
  0 < im_channel im -> 0 < im_x im -> 0 < im_y im -> fits s k (im_x im) -> fits s k (im_y im) ->
  exists q o, QuanConv2D draw (k ^ 2) s k gain use_wscale lrmul = Ok q /\ qc_forward q im = Ok o /\
    forall bt c x y, bt < im_batch im -> c < k ^ 2 -> x < (im_x im - k) / s + 1 -> y < (im_y im - k) / s + 1 ->
      out_get o [bt; c; x; y] = rprod (channel_pixels (k ^ 2) c) (fun i => pixel_value (im_pix im bt 0 (x * s + i / k) (y * s + i mod k))
        (nth (3 * i) draw 0 * (gain / sqrt 5)) (nth (3 * i + 1) draw 0 * (gain / sqrt 5)) (nth (3 * i + 2) draw 0 * (gain / sqrt 5)))%R.
Proof. exact conv_closed. Qed.
Print Assumptions C57_closed_form.
(** the same for the circuit of one square with any number of qubits *)
Theorem C57_circuit : forall n w data c, 1 < n -> c < n ->
  quanv_value n w data c = rprod (channel_pixels n c) (fun i => pixel_value (nth i data 0%R) (nth (3 * i) w 0%R) (nth (3 * i + 1) w 0%R) (nth (3 * i + 2) w 0%R)).
Proof. exact quanv_closed. Qed.
Print Assumptions C57_circuit.
(** a square of two by two pixels; without rotations the value is a product of cosines, and a rotation by pi/2 about x after the encoding gives 0 *)
Example C57_case : 1 < 2 /\ fits 2 2 28 /\ map (channel_pixels 4) [0; 1; 2; 3] = [[1; 2; 3]; [0; 1]; [0; 1; 2]; [0; 1; 2; 3]] /\
  (forall x, pixel_value x 0 0 0 = cos (PI * x)) /\ (forall x, pixel_value x (PI / 2) 0 0 = 0%R) /\
  (forall x, pixel_value x 0 (PI / 2) (PI / 2) = sin (PI * x)).
Proof.
  split; [lia|]. split; [apply fits_iff; cbn; lia|]. split; [reflexivity|]. unfold pixel_value.
  split; [|split]; intros x; rewrite ?cos_0, ?sin_0, ?cos_PI2, ?sin_PI2; ring.
Qed.

(** C58: Net maps a batch of images of 784 pixels with even sides to one row of ten scores each.  The scores are those of two
    layers of neurons on the 4 x 196 values of the convolution, in the order channel, row, column. *)
Theorem C58_scores : forall draw w1 b1 w2 b2 im, length draw = 12 -> 0 < im_channel im -> im_x im mod 2 = 0 -> im_y im mod 2 = 0 -> im_x im * im_y im = 784 ->
  exists m r, Net draw w1 b1 w2 b2 = Ok m /\ net_forward m im = Ok r /\ out_shape r = [im_batch im; 10] /\
    forall bt k, bt < im_batch im -> out_get r [bt; k] =
      net_score w1 b1 w2 b2 (net_feature (im_pix im) (map (fun u => u * (sqrt 2 / sqrt 5))%R draw) (im_y im / 2) bt) k.
Proof. exact net_value. Qed.
Print Assumptions C58_scores.
(** on any other image it raises an exception; an image of 14 by 56 pixels is accepted like one of 28 by 28 *)
Theorem C58_accepts : forall draw w1 b1 w2 b2 im, length draw = 12 -> 0 < im_batch im ->
  exists m, Net draw w1 b1 w2 b2 = Ok m /\
    ((exists r, net_forward m im = Ok r) <-> 0 < im_channel im /\ im_x im mod 2 = 0 /\ im_y im mod 2 = 0 /\ im_x im * im_y im = 784).
Proof. exact net_accepts. Qed.
Print Assumptions C58_accepts.
Example C58_case : let ok im := 0 < im_channel im /\ im_x im mod 2 = 0 /\ im_y im mod 2 = 0 /\ im_x im * im_y im = 784 in
  let pix (_ _ x y : nat) := INR (x + y) in
  ok (mkI 8 1 28 28 pix) /\ ok (mkI 8 3 14 56 pix) /\ ~ ok (mkI 8 1 49 16 pix) /\ ~ ok (mkI 8 1 32 32 pix) /\
  (* feature 200 of an image of width 28 is channel 1 of the square at row 0 and columns 8, 9 *)
  net_feature pix [] 14 0 200 = quanv_value 4 [] (map INR [8; 9; 9; 10]) 1.
Proof. cbv zeta. cbn [im_channel im_x im_y]. repeat split; try lia; try reflexivity; intros (A & B & C & D); cbn in B, C; lia. Qed.
