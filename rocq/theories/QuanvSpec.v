(** What the quantum convolution is supposed to compute.  Specification only: it uses no definition of the model. *)
From Coq Require Import List ZArith Reals Lra Lia Bool Arith.
From Verif Require Import PyBase Scalar CInst BigSum Tensor Spec GateSpec RunSpec MeasSpec.
Import ListNotations.
Local Open Scope nat_scope.

(** the pixels of the k x k square of channel 0 whose corner is (x,y), row by row *)
Definition square (pix : nat -> nat -> nat -> nat -> R) (k b x y : nat) : list R :=
  flat_map (fun i => map (fun j => pix b 0 (x + i) (y + j)) (seq 0 k)) (seq 0 k).

(** the circuit: the pixels as rotations about Y, three rotations with the weights w on every qubit, a ring of cnots *)
Definition quanv_gates (n : nat) (w data : list R) : list gi :=
  map (fun q => gi_ry (PI * nth q data 0)%R q) (seq 0 n) ++
  flat_map (fun q => [gi_rx (nth (3 * q) w 0%R) q; gi_rz (nth (3 * q + 1) w 0%R) q; gi_rx (nth (3 * q + 2) w 0%R) q]) (seq 0 n) ++
  map (fun q => gi_cnot q ((q + 1) mod n)) (seq 0 n).

(** mean Z of qubit c after the circuit on |0...0> *)
Definition quanv_value (n : nat) (w data : list R) (c : nat) : R := zmean n (act n (gs_op n (quanv_gates n w data)) (ket (repeat 0 n))) c.

(** every square starting at a multiple of the stride inside the image lies inside the image *)
Definition fits (stride k len : nat) : Prop := forall i, i * stride < len -> i * stride + k <= len.

(** closed form: the value of a pixel x under the rotations with angles a, b, c *)
Definition pixel_value (x a b c : R) : R :=
  (cos c * (cos a * cos (PI * x)) + sin c * (sin b * sin (PI * x) - cos b * (sin a * cos (PI * x))))%R.
Definition rprod (l : list nat) (f : nat -> R) : R := fold_right (fun i x => (f i * x)%R) 1%R l.
(** channel c >= 1 multiplies the values of the pixels 0..c, channel 0 those of the pixels 1..n-1 *)
Definition channel_pixels (n c : nat) : list nat := if c =? 0 then seq 1 (n - 1) else seq 0 (S c).

(** ** the network *)
(** its j-th feature of image bt, wid being half the width of the image: channel, row and column in the order of torch.flatten *)
Definition net_feature (pix : nat -> nat -> nat -> nat -> R) (w : list R) (wid bt j : nat) : R :=
  quanv_value 4 w (square pix 2 bt (2 * ((j mod 196) / wid)) (2 * ((j mod 196) mod wid))) (j / 196).
Definition rsum_to (n : nat) (f : nat -> R) : R := fold_right (fun i x => (f i + x)%R) 0%R (seq 0 n).
(** two layers of neurons, the first with max(0,.) *)
Definition net_hidden (w1 : nat -> nat -> R) (b1 : nat -> R) (v : nat -> R) (h : nat) : R := Rmax 0 (rsum_to 784 (fun j => v j * w1 h j) + b1 h)%R.
Definition net_score (w1 : nat -> nat -> R) (b1 : nat -> R) (w2 : nat -> nat -> R) (b2 : nat -> R) (v : nat -> R) (o : nat) : R :=
  (rsum_to 64 (fun h => net_hidden w1 b1 v h * w2 o h) + b2 o)%R.
