(** Model of the classes QuanConv2D and Net of deepquantum/nn/modules/quanv.py (lines 27-124).  Sizes are natural numbers.  The image is given by
    its four sizes and its real entries; a tensor of another rank (ValueError when unpacking its shape) is outside the model.
    The function Zmeasure (18-25, used by nothing in the module) is in QQuanv2.v. *)
From Coq Require Import List ZArith QArith Reals Bool Arith.
From Verif Require Import PyBase Scalar CInst BigSum Index Tensor QMath QMathC QTN QOperator QGates GateSpec GateCalls QLayers LayerSpec LayerCalls CircuitSpec QCircuit.
Import ListNotations.
Local Close Scope Q_scope.
Local Close Scope R_scope.
Local Open Scope nat_scope.

(** the attributes n_qubits, stride, kernel_size, weight, w_mul, M_lst *)
Record quanconv := mkQC { qc_n : nat; qc_stride : nat; qc_kernel : nat; qc_weight : list R; qc_w_mul : R; qc_M : list tensor }.

(** quanv.py:50-57 Zmeasure *)
Definition qc_Zmeasure (n : nat) : res (list tensor) :=
  mmap (fun i => do g <- PauliZ (Z.of_nat n) (WInt (Z.of_nat i)); U_expand g) (seq 0 n).

(** quanv.py:29-47 __init__; [draw] are the 3*n_qubits random numbers of nn.init.uniform_ *)
Definition QuanConv2D (draw : list R) (n_qubits stride kernel_size : nat) (gain : R) (use_wscale : bool) (lrmul : R) : res quanconv :=
  let he_std := (gain * / sqrt 5)%R in
  if Req_EM_T lrmul 0 then Err ZeroDivisionError else
  let init_std := (if use_wscale then 1 / lrmul else he_std / lrmul)%R in
  let w_mul := (if use_wscale then he_std * lrmul else lrmul)%R in
  let weight := map (fun u => u * init_std)%R draw in
  raise_if (negb (n_qubits =? kernel_size ^ 2)) ValueError (
  do M_lst <- qc_Zmeasure n_qubits;
  Ok (mkQC n_qubits stride kernel_size weight w_mul M_lst)).

(** quanv.py:58-63 _input *)
Definition qc_input (q : quanconv) (data : list R) : res tensor :=
  do cir1 <- mfold (fun c which_q =>
    do x <- py_nth data (Z.of_nat which_q);
    method c (CG (gi_ry (PI * x)%R which_q))) (seq 0 (qc_n q)) (Circuit (qc_n q));
  cU cir1 true.

(** quanv.py:65-79 _qconv *)
Definition qc_qconv (q : quanconv) (rho : tensor) : res tensor :=
  let n := qc_n q in
  let w := map (fun x => x * qc_w_mul q)%R (qc_weight q) in
  do cir2 <- mfold (fun c which_q =>
    do t <- py_nth w (Z.of_nat (3 * which_q + 0));
    do c <- method c (CG (gi_rx t which_q));
    do t <- py_nth w (Z.of_nat (3 * which_q + 1));
    do c <- method c (CG (gi_rz t which_q));
    do t <- py_nth w (Z.of_nat (3 * which_q + 2));
    method c (CG (gi_rx t which_q))) (seq 0 n) (Circuit n);
  do cir2 <- mfold (fun c which_q => method c (CG (gi_cnot which_q ((which_q + 1) mod n)))) (seq 0 n) cir2;
  do U <- cU cir2 true;
  do d <- dag U;
  do a <- matmul U rho;
  matmul a d.

(** an image: batch, channel, len_x_in, len_y_in and its entries *)
Record image := mkI { im_batch : nat; im_channel : nat; im_x : nat; im_y : nat; im_pix : nat -> nat -> nat -> nat -> R }.
(** the output: its four sizes and its entries *)
Record outimg := mkO { out_shape : list nat; out_get : list nat -> R }.

(** [range(0, len, stride)] *)
Definition range_step (len stride : nat) : list nat := map (fun i => i * stride) (seq 0 ((len + stride - 1) / stride)).

(** [input[batch_i, 0, j:j+k, l:l+k].reshape(-1)]: slices are cut at the border *)
Definition qc_patch (im : image) (ker b j k : nat) : list R :=
  flat_map (fun x => map (fun y => im_pix im b 0 x y) (seq k (Nat.min (k + ker) (im_y im) - k))) (seq j (Nat.min (j + ker) (im_x im) - j)).

(** an index within the sizes *)
Fixpoint in_range (sh idx : list nat) : bool :=
  match sh, idx with [], [] => true | d :: sh, i :: idx => (i <? d) && in_range sh idx | _, _ => false end.

(** [out[b, c, x, y] = v] *)
Definition out_set (o : outimg) (idx : list nat) (v : R) : res outimg :=
  if in_range (out_shape o) idx then Ok (mkO (out_shape o) (fun i => if list_eq_dec Nat.eq_dec i idx then v else out_get o i)) else Err IndexError.

(** quanv.py:96-104: the measured values of one patch *)
Definition qc_values (q : quanconv) (im : image) (b j k : nat) : res (list R) :=
  raise_if (im_channel im =? 0) IndexError (
  let x := qc_patch im (qc_kernel q) b j k in
  let init_matrix := tbuild [2 ^ qc_n q; 2 ^ qc_n q] (fun idx => if (nth 0 idx 0 =? 0) && (nth 1 idx 0 =? 0) then cR 1 else cR 0) in
  do U1 <- qc_input q x;
  do a <- matmul U1 init_matrix;
  do d <- dag U1;
  do rho_out1 <- matmul a d;
  do rho_out2 <- qc_qconv q rho_out1;
  measure (Z.of_nat (qc_n q)) rho_out2 INone).

(** quanv.py:81-107 forward *)
Definition qc_forward (q : quanconv) (im : image) : res outimg :=
  let s := qc_stride q in
  raise_if (s =? 0) ZeroDivisionError (
  let len_x_out := ((Z.of_nat (im_x im) - Z.of_nat (qc_kernel q)) / Z.of_nat s + 1)%Z in
  let len_y_out := ((Z.of_nat (im_y im) - Z.of_nat (qc_kernel q)) / Z.of_nat s + 1)%Z in
  let out_channel := qc_kernel q ^ 2 in
  raise_if ((len_x_out <? 0) || (len_y_out <? 0))%Z TorchError (
  mfold (fun out batch_i =>
    mfold (fun out j =>
      mfold (fun out k =>
        do classical_value <- qc_values q im batch_i j k;
        mfold (fun out c =>
          do v <- py_nth classical_value (Z.of_nat c);
          out_set out [batch_i; c; j / s; k / s] v) (seq 0 out_channel) out)
        (range_step (im_y im) s) out)
      (range_step (im_x im) s) out)
    (seq 0 (im_batch im)) (mkO [im_batch im; out_channel; Z.to_nat len_x_out; Z.to_nat len_y_out] (fun _ => 0%R)))).

(** nn.Linear(l_in, l_out): weight and bias; applied to an array of rank 2.  Other ranks do not occur in Net. *)
Record linear := mkL { l_in : nat; l_out : nat; l_weight : nat -> nat -> R; l_bias : nat -> R }.
(** quanv.py:122-123 *)
Definition apply_linear (l : linear) (x : outimg) : res outimg :=
  match out_shape x with
  | [b; d] =>
      if d =? l_in l then
        Ok (mkO [b; l_out l] (fun idx => match idx with
          | [i; o] => (fold_right Rplus 0 (map (fun j => out_get x [i; j] * l_weight l o j) (seq 0 (l_in l))) + l_bias l o)%R
          | _ => 0%R end))
      else Err TorchError
  | _ => Err TorchError
  end.
(** torch.flatten(x, 1) of an array of rank at least 2 *)
Definition flatten1 (x : outimg) : outimg :=
  match out_shape x with
  | b :: sh => mkO [b; prodn sh] (fun idx => match idx with [i; j] => out_get x (i :: unflat sh j) | _ => 0%R end)
  | [] => x
  end.
(** F.relu *)
Definition relu (x : outimg) : outimg := mkO (out_shape x) (fun idx => Rmax 0 (out_get x idx)).

(** quanv.py:112-117 Net.__init__; the random numbers of QuanConv2D and of the two nn.Linear are inputs.  gain has its default 2 ** 0.5 *)
Record net := mkNet { net_quanv : quanconv; net_fc1 : linear; net_fc2 : linear }.
(** quanv.py:112-117 Net.__init__ *)
Definition Net (draw : list R) (w1 : nat -> nat -> R) (b1 : nat -> R) (w2 : nat -> nat -> R) (b2 : nat -> R) : res net :=
  do q <- QuanConv2D draw 4 2 2 (sqrt 2) true 1;
  Ok (mkNet q (mkL (14 * 14 * 4) 64 w1 b1) (mkL 64 10 w2 b2)).
(** quanv.py:119-124 Net.forward *)
Definition net_forward (m : net) (im : image) : res outimg :=
  do x <- qc_forward (net_quanv m) im;
  let x := flatten1 x in
  do h <- apply_linear (net_fc1 m) x;
  let x := relu h in
  apply_linear (net_fc2 m) x.
