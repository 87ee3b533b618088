(** Properties of the layers of one-qubit gates on any list of wires, repeated, negative or outside the register (C72).
    Specification: LayerAnySpec.v; LayerAnyCalls.v lists the constructor calls. *)
From Coq Require Import List ZArith QArith Reals Lra Lia Bool Arith.
From Verif Require Import PyBase Scalar CInst BigSum Index Tensor Spec SpecFacts QMath QTN QOperator GateSpec QGates GateCalls RunSpec MPSSpec
  LayerSpec QLayers LayerCalls LayerAnySpec LayerAnyCalls LayerAny LayerAny2 LayerAny3 LayerAny4.
Import ListNotations.
Local Close Scope Q_scope.
Local Close Scope R_scope.
Local Open Scope nat_scope.

(** a negative wire counts from the end; the matrix has, on every qubit, the gate written last for it; contraction and the matrix product form
    apply that gate once for every time the qubit is listed *)
Theorem C72_any_wires : forall n s zs, sg_angles s (length zs) -> length zs <= n -> 0 < n -> (forall z, In z zs -> in_register n z) ->
  let ws := map (qubit n) zs in let G := last_gate ws (sg_gates s (length zs)) in let T := each_qubit n (fun w => pow_op (count_occ Nat.eq_dec ws w) (G w)) in
  exists o u, sg_build n s zs = Ok o /\ layer_U o = Ok u /\ is_op n u (each_qubit n G) /\
    (forall t, shape t = repeat 2 n -> wf t -> exists t', layer_TN_contract o t false = Ok t' /\ is_state n (repeat 2 n) t' (act n T (amp t))) /\
    (forall svd m psi, is_mps n m psi -> exists m', layer_TN_operation svd o m = Ok m' /\ is_mps n m' (act n T psi)).
Proof. exact layer_any_wires. Qed.
Print Assumptions C72_any_wires.
Example C72_any_wires_case : let s := sg_rot KXZ [1; 2; 3; 4; 5; 6]%R in let zs := [0; -3; 2]%Z in
  sg_angles s (length zs) /\ length zs <= 3 /\ (forall z, In z zs -> in_register 3 z) /\ map (qubit 3) zs = [0; 0; 2] /\
  last_gate [0; 0; 2] (sg_gates s 3) 0 = sg_gate s 1 /\ last_gate [0; 0; 2] (sg_gates s 3) 1 = id_op /\ count_occ Nat.eq_dec [0; 0; 2] 0 = 2.
Proof. cbv zeta. split; [reflexivity|]. split; [cbn; lia|]. split; [intros z [<-|[<-|[<-|[]]]]; unfold in_register; lia|]. repeat split. Qed.

(** the inverse layer undoes the layer in each form, also where the forms disagree *)
Theorem C72_undo : forall n s zs, 0 < n -> sg_angles s (length zs) -> length zs <= n -> (forall z, In z zs -> in_register n z) ->
  exists o od u ud, sg_build n s zs = Ok o /\ layer_dagger o = Ok (Some od) /\ layer_U o = Ok u /\ layer_U od = Ok ud /\ is_op n ud (adj_op (op_of u)) /\
    (forall t, shape t = repeat 2 n -> wf t -> exists t1 t2, layer_TN_contract o t false = Ok t1 /\ layer_TN_contract od t1 false = Ok t2 /\ is_state n (repeat 2 n) t2 (amp t)) /\
    (forall svd m psi, is_mps n m psi -> exists m1 m2, layer_TN_operation svd o m = Ok m1 /\ layer_TN_operation svd od m1 = Ok m2 /\ is_mps n m2 psi).
Proof. exact undo_any. Qed.
Print Assumptions C72_undo.
Example C72_undo_case : sg_angles (sg_rot KYZY [1; 2; 3; 4; 5; 6]%R) (length [1; -1]%Z) /\ length [1; -1]%Z <= 2 /\ (forall z, In z [1; -1]%Z -> in_register 2 z) /\ map (qubit 2) [1; -1]%Z = [1; 1].
Proof. split; [reflexivity|]. split; [cbn; lia|]. split; [intros z [<-|[<-|[]]]; unfold in_register; lia|reflexivity]. Qed.

(** with a batch a negative wire counts from one place further: the gate of the qubit it names is applied to the next qubit *)
Theorem C72_batch : forall n s zs, sg_angles s (length zs) -> length zs <= n -> 0 < n -> (forall z, In z zs -> in_register n z) ->
  forall B t, ~ In (-1)%Z zs -> shape t = B :: repeat 2 n -> wf t -> exists o t', sg_build n s zs = Ok o /\ layer_TN_contract o t true = Ok t' /\
    shape t' = B :: repeat 2 n /\ wf t' /\ forall i r, i < B -> In r (bits n) ->
      tget t' (i :: r) = act n (obs_op n (map (fun z => pred (batch_dim n z)) zs) (map (last_gate (map (qubit n) zs) (sg_gates s (length zs))) (map (qubit n) zs))) (fun b => tget t (i :: b)) r.
Proof. exact layer_any_batch. Qed.
Print Assumptions C72_batch.
Example C72_batch_case : let zs := [0; -3]%Z in ~ In (-1)%Z zs /\ (forall z, In z zs -> in_register 3 z) /\ map (qubit 3) zs = [0; 0] /\ map (fun z => pred (batch_dim 3 z)) zs = [0; 1] /\
  sg_angles (sg_rot KYZY [1; 2; 3; 4; 5; 6]%R) (length zs).
Proof. cbv zeta. split; [intros [H|[H|[]]]; discriminate|]. split; [intros z [<-|[<-|[]]]; unfold in_register; lia|]. repeat split. Qed.
(** the wire -1 names the batch dimension: with two samples they are mixed, with another number the call fails *)
Theorem C72_batch_of_two : forall n s zs, sg_angles s (length zs) -> length zs <= n -> 0 < n -> (forall z, In z zs -> in_register n z) ->
  forall t, shape t = 2 :: repeat 2 n -> wf t -> exists o t', sg_build n s zs = Ok o /\ layer_TN_contract o t true = Ok t' /\
    is_state (S n) (2 :: repeat 2 n) t' (act (S n) (obs_op (S n) (map (batch_dim n) zs) (map (last_gate (map (qubit n) zs) (sg_gates s (length zs))) (map (qubit n) zs))) (amp t)).
Proof. exact layer_any_batch_two. Qed.
Print Assumptions C72_batch_of_two.
Theorem C72_batch_fails : forall n s zs, sg_angles s (length zs) -> length zs <= n -> 0 < n -> (forall z, In z zs -> in_register n z) ->
  forall B t, B <> 2 -> In (-1)%Z zs -> shape t = B :: repeat 2 n -> wf t -> exists o, sg_build n s zs = Ok o /\ layer_TN_contract o t true = Err TorchError.
Proof. exact layer_any_batch_bad. Qed.
Print Assumptions C72_batch_fails.
Example C72_batch_fails_case : let t := mkT (SC := C_scalar) [3; 2; 2] (map (fun k => RtoC (INR k)) (seq 0 12)) in
  3 <> 2 /\ In (-1)%Z [0; -1]%Z /\ shape t = 3 :: repeat 2 2 /\ wf t /\ (forall z, In z [0; -1]%Z -> in_register 2 z) /\ map (batch_dim 2) [0; -1]%Z = [1; 0].
Proof. cbv zeta. split; [lia|]. split; [right; now left|]. split; [reflexivity|]. split; [reflexivity|]. split; [intros z [<-|[<-|[]]]; unfold in_register; lia|reflexivity]. Qed.
(** so "each sample of a batch is treated as by the matrix" fails for negative wires *)
Theorem C72_negative_batch_refuted : forall n, 2 <= n -> exists o u, sg_build n sg_H [-2]%Z = Ok o /\ layer_U o = Ok u /\ is_op n u (lift H_op [n - 2]) /\
  forall B t, shape t = B :: repeat 2 n -> wf t -> exists t', layer_TN_contract o t true = Ok t' /\ shape t' = B :: repeat 2 n /\
    forall i r, i < B -> In r (bits n) -> tget t' (i :: r) = act n (lift H_op [n - 1]) (fun b => tget t (i :: b)) r.
Proof. exact H_minus_two. Qed.
Print Assumptions C72_negative_batch_refuted.
Theorem C72_mixed_batch_refuted : forall n t, 1 <= n -> shape t = 2 :: repeat 2 n -> wf t -> exists o u t', sg_build n sg_H [-1]%Z = Ok o /\ layer_U o = Ok u /\ is_op n u (lift H_op [n - 1]) /\
  layer_TN_contract o t true = Ok t' /\ shape t' = 2 :: repeat 2 n /\ wf t' /\
  forall r, In r (bits n) -> tget t' (0 :: r) = Cmul rh (Cadd (tget t (0 :: r)) (tget t (1 :: r))) /\ tget t' (1 :: r) = Cmul rh (Csub (tget t (0 :: r)) (tget t (1 :: r))).
Proof. exact H_minus_one. Qed.
Print Assumptions C72_mixed_batch_refuted.
Example C72_refuted_case : let t := mkT (SC := C_scalar) [2; 2; 2] (map (fun k => RtoC (INR k)) (seq 0 8)) in 2 <= 2 /\ shape t = 2 :: repeat 2 2 /\ wf t /\ In [0; 1] (bits 2).
Proof. cbv zeta. split; [lia|]. split; [reflexivity|]. split; [reflexivity|]. cbn; tauto. Qed.

(** a wire outside the register passes the constructor and is refused by every form *)
Theorem C72_out_of_range : forall n s zs, sg_angles s (length zs) -> length zs <= n -> (exists z, In z zs /\ ~ in_register n z) ->
  exists o, sg_build n s zs = Ok o /\ layer_U o = Err IndexError /\
    (forall t b, layer_TN_contract o t b = Err IndexError) /\ (forall svd m, layer_TN_operation svd o m = Err IndexError).
Proof. exact layer_out_of_range. Qed.
Print Assumptions C72_out_of_range.
Example C72_out_of_range_case : sg_angles (sg_rot KZX [1; 2; 3; 4]%R) (length [0; 2]%Z) /\ length [0; 2]%Z <= 2 /\ (exists z, In z [0; 2]%Z /\ ~ in_register 2 z).
Proof. split; [reflexivity|]. split; [cbn; lia|]. exists 2%Z. split; [right; now left|]. unfold in_register. lia. Qed.
