(** Properties of PauliEncoding on any list of wires inside the register, repeated or negative, of any length (C74).
    Specification: LayerAnySpec.v, EmbedAnySpec.v.  Wires outside the register: C35_wire_range. *)
From Coq Require Import List ZArith QArith Reals Lra Lia Bool Arith String.
From Verif Require Import PyBase Scalar CInst BigSum Index Tensor Spec SpecFacts QMath QTN QOperator GateSpec QGates GateCalls RunSpec MPSSpec
  LayerSpec QLayers EmbedSpec QEmbedding LayerAnySpec EmbedAnySpec EmbedAny MPSCases.
Import ListNotations.
Local Close Scope Q_scope.
Local Close Scope R_scope.
Local Open Scope nat_scope.
Notation length := List.length.

(** a negative wire counts from the end; the matrix rotates every qubit by the angle written last for it; contraction and the matrix product form
    rotate by that angle times the number of times the qubit is listed *)
Theorem C74_any_wires : forall n a xs zs, xs <> [] -> length xs <= n -> (forall z, In z zs -> in_register n z) ->
  let ws := map (qubit n) zs in let t := last_angle ws (enc_angles xs (length zs)) in let T := rotate_each n a (fun w => (INR (count_occ Nat.eq_dec ws w) * t w)%R) in
  exists e u, PauliEncoding (Z.of_nat n) xs zs (axis_name a) = Ok e /\ pe_U e = Ok u /\ is_op n u (rotate_each n a t) /\ unitary n (op_of u) /\
    (forall s, shape s = repeat 2 n -> wf s -> exists s', pe_TN_contract e s false = Ok s' /\ is_state n (repeat 2 n) s' (act n T (amp s))) /\
    (forall m psi, is_mps n m psi -> exists m', pe_TN_operation e m = Ok m' /\ is_mps n m' (act n T psi)).
Proof. exact enc_any_wires. Qed.
Print Assumptions C74_any_wires.
Example C74_any_wires_case : let xs := [5; 7]%R in let zs := [0; -3; 2; 1; -2]%Z in let ws := map (qubit 3) zs in let t := last_angle ws (enc_angles xs (length zs)) in
  xs <> [] /\ length xs <= 3 /\ (forall z, In z zs -> in_register 3 z) /\ ws = [0; 0; 2; 1; 1] /\ map t [0; 1; 2] = [7; 5; 5]%R /\ map (count_occ Nat.eq_dec ws) [0; 1; 2] = [2; 2; 1] /\ is_mps 3 ghz_mps ghz.
Proof.
  cbv zeta. split; [discriminate|]. split; [cbn; lia|]. split; [intros z [<-|[<-|[<-|[<-|[<-|[]]]]]]; unfold in_register; lia|]. split; [reflexivity|].
  split; [reflexivity|]. split; [reflexivity|exact ghz_is_mps].
Qed.

(** with a batch a negative wire counts from one place further: the rotation of the qubit it names is applied to the next qubit *)
Theorem C74_batch : forall n a xs zs, xs <> [] -> length xs <= n -> (forall z, In z zs -> in_register n z) ->
  let ws := map (qubit n) zs in let t := last_angle ws (enc_angles xs (length zs)) in
  forall B s, ~ In (-1)%Z zs -> shape s = B :: repeat 2 n -> wf s -> exists e s', PauliEncoding (Z.of_nat n) xs zs (axis_name a) = Ok e /\ pe_TN_contract e s true = Ok s' /\
    shape s' = B :: repeat 2 n /\ wf s' /\ forall i r, i < B -> In r (bits n) ->
      tget s' (i :: r) = act n (obs_op n (map (fun z => pred (batch_dim n z)) zs) (map (fun w => axis_op a (t w)) ws)) (fun b => tget s (i :: b)) r.
Proof. exact enc_any_batch. Qed.
Print Assumptions C74_batch.
Example C74_batch_case : let zs := [0; -3; -2; 2]%Z in [5; 7]%R <> [] /\ length [5; 7]%R <= 3 /\ ~ In (-1)%Z zs /\ (forall z, In z zs -> in_register 3 z) /\
  map (qubit 3) zs = [0; 0; 1; 2] /\ map (fun z => pred (batch_dim 3 z)) zs = [0; 1; 2; 2] /\ shape (zeros (SC := C_scalar) [5; 2; 2; 2]) = 5 :: repeat 2 3.
Proof.
  cbv zeta. split; [discriminate|]. split; [cbn; lia|]. split; [intros [H|[H|[H|[H|[]]]]]; discriminate|]. split; [intros z [<-|[<-|[<-|[<-|[]]]]]; unfold in_register; lia|]. repeat split.
Qed.
(** the wire -1 names the batch dimension: with two samples they are mixed, with another number the call fails *)
Theorem C74_batch_of_two : forall n a xs zs, xs <> [] -> length xs <= n -> (forall z, In z zs -> in_register n z) ->
  let ws := map (qubit n) zs in let t := last_angle ws (enc_angles xs (length zs)) in
  forall s, shape s = 2 :: repeat 2 n -> wf s -> exists e s', PauliEncoding (Z.of_nat n) xs zs (axis_name a) = Ok e /\ pe_TN_contract e s true = Ok s' /\
    is_state (S n) (2 :: repeat 2 n) s' (act (S n) (obs_op (S n) (map (batch_dim n) zs) (map (fun w => axis_op a (t w)) ws)) (amp s)).
Proof. exact enc_any_batch_two. Qed.
Print Assumptions C74_batch_of_two.
Theorem C74_batch_fails : forall n a xs zs, xs <> [] -> length xs <= n -> (forall z, In z zs -> in_register n z) ->
  forall B s, B <> 2 -> In (-1)%Z zs -> shape s = B :: repeat 2 n -> wf s -> exists e, PauliEncoding (Z.of_nat n) xs zs (axis_name a) = Ok e /\ pe_TN_contract e s true = Err TorchError.
Proof. exact enc_any_batch_bad. Qed.
Print Assumptions C74_batch_fails.
Example C74_batch_fails_case : let s := mkT (SC := C_scalar) [3; 2; 2] (map (fun k => RtoC (INR k)) (seq 0 12)) in
  3 <> 2 /\ In (-1)%Z [0; -1; 1]%Z /\ shape s = 3 :: repeat 2 2 /\ wf s /\ (forall z, In z [0; -1; 1]%Z -> in_register 2 z) /\ map (batch_dim 2) [0; -1; 1]%Z = [1; 0; 2].
Proof. cbv zeta. split; [lia|]. split; [right; now left|]. split; [reflexivity|]. split; [reflexivity|]. split; [intros z [<-|[<-|[<-|[]]]]; unfold in_register; lia|reflexivity]. Qed.
