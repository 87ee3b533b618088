(** Properties of the layers (C07-C11, C13, C17-C20, C32, C44).  Specifications used in the statements: Spec.v, GateSpec.v,
    RunSpec.v, MPSSpec.v, LayerSpec.v; LayerCalls.v lists the constructor calls.  A register has at least one qubit. *)
From Coq Require Import List ZArith QArith Reals Lra Lia Bool Arith.
From Verif Require Import PyBase Scalar CInst BigSum Index Tensor Spec SpecFacts QMath QTN QOperator GateSpec QGates GateCalls RunSpec MPSSpec
  LayerSpec QLayers LayerCalls GateFacts6 GateProofs MPSFacts7 LayerProofs MPSCases.
Import ListNotations.
Local Close Scope Q_scope.
Local Close Scope R_scope.
Local Open Scope nat_scope.

(** every layer is the sequence of gates it stands for: the product of the gates' own matrices *)
Theorem C07_layer_is_its_gates : forall n l, 0 < n -> li_ok n l -> exists o u, lbuild n l = Ok o /\ layer_U o = Ok u /\ is_op n u (li_op n l).
Proof. exact layer_matrix. Qed.
Print Assumptions C07_layer_is_its_gates.
Theorem C07_layers_unitary : forall n l, 0 < n -> li_ok n l ->
  exists o u, lbuild n l = Ok o /\ layer_U o = Ok u /\ shape u = [2 ^ n; 2 ^ n] /\ wf u /\ unitary n (op_of u).
Proof. exact layer_unitary. Qed.
Print Assumptions C07_layers_unitary.
Ltac gw := split; [repeat constructor; cbn; lia|cbn; intros w Hw; lia].
Example C07_layers_case : li_ok 4 (li_basic 2 [3; 0] [1; 2; 3; 4; 5; 6; 7; 8; 9; 10; 11; 12]%R) /\ li_ok 4 (li_ring2 [2; 0; 3]) /\
  li_ok 4 (li_rot KXZ [1; 3] [1; 2; 3; 4]%R) /\ li_ok 4 (li_H [2; 1]).
Proof. repeat split; try (repeat constructor; cbn; lia); cbn; try (intros w Hw; lia); lia. Qed.

(** C08 *)
Theorem C08_layers_dagger : forall n l, 0 < n -> li_ok n l -> has_inverse l = true ->
  exists o od u ud, lbuild n l = Ok o /\ layer_dagger o = Ok (Some od) /\ layer_U o = Ok u /\ layer_U od = Ok ud /\
    is_op n ud (adj_op (op_of u)).
Proof. exact layer_dagger_matrix. Qed.
Print Assumptions C08_layers_dagger.
Example C08_layers_case : has_inverse (li_rot KXYZ [1] [1; 2; 3]%R) = true /\ li_ok 2 (li_rot KXYZ [1] [1; 2; 3]%R).
Proof. split; [reflexivity|]. split; [gw|reflexivity]. Qed.
(** ring_of_cnot2 and BasicEntangleLayer: the method returns None *)
Theorem C08_no_dagger : forall n l, li_ok n l -> has_inverse l = false -> exists o, lbuild n l = Ok o /\ layer_dagger o = Ok None.
Proof. exact layer_dagger_none. Qed.
Print Assumptions C08_no_dagger.
Example C08_no_dagger_case : li_ok 3 (li_ring2 [2; 0; 1]) /\ has_inverse (li_ring2 [2; 0; 1]) = false.
Proof. split; [|reflexivity]. split; [gw|cbn; lia]. Qed.

(** C09: a layer contracted with a rank-n tensor.  [li_TN]: the single-gate layers on any wires; the rings on 0..n-1 *)
Theorem C09_layers_contract : forall n l s, 0 < n -> li_ok n l -> li_TN n l = true -> shape s = repeat 2 n -> wf s ->
  exists o u s', lbuild n l = Ok o /\ layer_U o = Ok u /\ layer_TN_contract o s false = Ok s' /\
    is_state n (repeat 2 n) s' (act n (op_of u) (amp s)).
Proof. exact layer_contract. Qed.
Print Assumptions C09_layers_contract.
Example C09_layers_case : let s := mkT [2; 2; 2] (map (fun k => RtoC (INR k)) (seq 0 8)) in
  li_ok 3 (li_ring_dag [0; 1; 2]) /\ li_TN 3 (li_ring_dag [0; 1; 2]) = true /\ shape s = repeat 2 3 /\ wf s.
Proof. split; [|repeat split]. split; [gw|cbn; lia]. Qed.
(** C09, C11: the rings announce tensor-network support, but refuse every other wire list *)
Theorem C09_ring_wires_refuted : forall svd n ws o s m, good_wires n ws -> 2 <= length ws -> ws <> seq 0 n ->
  lbuild n (li_ring ws) = Ok o \/ lbuild n (li_ring_dag ws) = Ok o ->
  layer_supportTN o = true /\ (forall b, layer_TN_contract o s b = Err ValueError) /\ layer_TN_operation svd o m = Err ValueError.
Proof. exact ring_TN_rejects. Qed.
Print Assumptions C09_ring_wires_refuted.
Example C09_ring_wires_case : exists o, good_wires 3 [0; 2] /\ [0; 2] <> seq 0 3 /\ lbuild 3 (li_ring [0; 2]) = Ok o.
Proof. eexists. split; [gw|]. split; [discriminate|reflexivity]. Qed.

(** C10 *)
Theorem C10_layers_batch : forall B n l t, li_ok n l -> li_TN n l = true -> shape t = B :: repeat 2 n -> wf t ->
  exists o t', lbuild n l = Ok o /\ layer_TN_contract o t true = Ok t' /\ shape t' = B :: repeat 2 n /\ wf t' /\
    forall i u, i < B -> sample n i t u -> exists u', layer_TN_contract o u false = Ok u' /\ sample n i t' u'.
Proof. exact layer_batch. Qed.
Print Assumptions C10_layers_batch.
Example C10_layers_case : let t := mkT [3; 2; 2] (map (fun k => RtoC (INR k)) (seq 0 12)) in
  shape t = 3 :: repeat 2 2 /\ wf t /\ li_ok 2 (li_rot KZYX [1; 0] [1; 2; 3; 4; 5; 6]%R).
Proof. split; [reflexivity|]. split; [reflexivity|]. split; [gw|reflexivity]. Qed.

(** C11, C13 *)
Theorem C11_layer_on_mps : forall svd n l m psi, exact_svd svd -> 0 < n -> li_ok n l -> li_TN n l = true -> is_mps n m psi -> nonzero n psi ->
  exists o u m', lbuild n l = Ok o /\ layer_U o = Ok u /\ layer_TN_operation svd o m = Ok m' /\ is_mps n m' (act n (op_of u) psi).
Proof. exact layer_mps. Qed.
Print Assumptions C11_layer_on_mps.
Example C11_layer_case : exact_svd triv_svd /\ li_ok 3 (li_ring [0; 1; 2]) /\ li_TN 3 (li_ring [0; 1; 2]) = true /\ is_mps 3 ghz_mps ghz /\ nonzero 3 ghz.
Proof.
  split; [exact some_exact_svd|]. split; [split; [gw|cbn; lia]|]. split; [reflexivity|]. split; [exact ghz_is_mps|exact ghz_nonzero].
Qed.
Theorem C13_layer_shape : forall svd n l o m m', svd_shapes svd -> li_ok n l -> mps_shape n m -> lbuild n l = Ok o ->
  layer_TN_operation svd o m = Ok m' -> mps_shape n m'.
Proof. exact layer_mps_shape. Qed.
Print Assumptions C13_layer_shape.
Example C13_layer_case : svd_shapes triv_svd /\ mps_shape 3 ghz_mps /\ exists o m', lbuild 3 (li_ring [0; 1; 2]) = Ok o /\
  layer_TN_operation triv_svd o ghz_mps = Ok m'.
Proof.
  split; [exact (exact_shapes _ some_exact_svd)|]. split; [exact (proj1 ghz_is_mps)|].
  destruct (layer_mps triv_svd 3 (li_ring [0; 1; 2]) ghz_mps ghz) as (o & u & m' & E & _ & F & _).
  - exact some_exact_svd.
  - lia.
  - split; [gw|cbn; lia].
  - reflexivity.
  - exact ghz_is_mps.
  - exact ghz_nonzero.
  - now exists o, m'.
Qed.

(** C17: the matrix of a ring is the product of its cnots' matrices, multiplied one by one *)
Theorem C17_ring : forall n ws, good_wires n ws -> 2 <= length ws -> exists r u, lbuild n (li_ring ws) = Ok r /\ layer_U r = Ok u /\
  mfold (fun M g => do o <- build n g; do v <- U_expand o; matmul v M) (ring_gates 1 ws) (eye (2 ^ n)) = Ok u.
Proof. exact ring_explicit. Qed.
Print Assumptions C17_ring.
Theorem C17_ring_dagger : forall n ws, good_wires n ws -> 2 <= length ws -> exists r u, lbuild n (li_ring_dag ws) = Ok r /\ layer_U r = Ok u /\
  mfold (fun M g => do o <- build n g; do v <- U_expand o; matmul v M) (rev (ring_gates 1 ws)) (eye (2 ^ n)) = Ok u.
Proof. exact ring_dag_explicit. Qed.
Print Assumptions C17_ring_dagger.
Example C17_ring_case : good_wires 5 [4; 0; 2] /\ 2 <= length [4; 0; 2].
Proof. split; [gw|cbn; lia]. Qed.
Theorem C17_ring2 : forall n ws, good_wires n ws -> 2 <= length ws -> exists r u, lbuild n (li_ring2 ws) = Ok r /\ layer_U r = Ok u /\
  mfold (fun M g => do o <- build n g; do v <- U_expand o; matmul v M) (ring_gates 2 ws) (eye (2 ^ n)) = Ok u.
Proof. exact ring2_explicit. Qed.
Print Assumptions C17_ring2.
Example C17_case : ring_gates 1 [0; 1; 2; 3] = [gi_cnot 0 1; gi_cnot 1 2; gi_cnot 2 3; gi_cnot 3 0] /\
  ring_gates 2 [0; 1; 2; 3] = [gi_cnot 0 2; gi_cnot 1 3; gi_cnot 2 0; gi_cnot 3 1] /\ ring_gates 1 [2; 0] = [gi_cnot 2 0] /\ ring_gates 2 [2; 0] = [gi_cnot 2 0].
Proof. repeat split. Qed.
Theorem C17_ring_rejects : forall N wires, (N < Z.of_nat (length wires))%Z \/ length wires < 2 -> new_ring N wires = Err ValueError.
Proof. exact ring_wires_rejected. Qed.
Print Assumptions C17_ring_rejects.
Example C17_ring_rejects_case : (2 < Z.of_nat (length [0; 1; 2]%Z))%Z.
Proof. reflexivity. Qed.

(** C18: matrices, contractions (any rank-n tensor), matrix product states *)
Theorem C18_matrix : forall n ws, good_wires n ws -> 2 <= length ws ->
  exists r d ru du, lbuild n (li_ring ws) = Ok r /\ lbuild n (li_ring_dag ws) = Ok d /\ layer_U r = Ok ru /\ layer_U d = Ok du /\
    matmul du ru = Ok (eye (2 ^ n)) /\ matmul ru du = Ok (eye (2 ^ n)).
Proof. exact ring_back_matrix. Qed.
Print Assumptions C18_matrix.
Theorem C18_contract : forall n s, 2 <= n -> shape s = repeat 2 n -> wf s ->
  exists r d s1 s2, lbuild n (li_ring (seq 0 n)) = Ok r /\ lbuild n (li_ring_dag (seq 0 n)) = Ok d /\
    layer_TN_contract r s false = Ok s1 /\ layer_TN_contract d s1 false = Ok s /\
    layer_TN_contract d s false = Ok s2 /\ layer_TN_contract r s2 false = Ok s.
Proof. exact ring_back_contract. Qed.
Print Assumptions C18_contract.
Example C18_contract_case : let s := mkT [2; 2; 2] (map (fun k => RtoC (INR k)) (seq 0 8)) in shape s = repeat 2 3 /\ wf s.
Proof. split; reflexivity. Qed.
Theorem C18_mps : forall svd n m psi, exact_svd svd -> 2 <= n -> is_mps n m psi -> nonzero n psi ->
  exists r d m1 m2 m3 m4, lbuild n (li_ring (seq 0 n)) = Ok r /\ lbuild n (li_ring_dag (seq 0 n)) = Ok d /\
    layer_TN_operation svd r m = Ok m1 /\ layer_TN_operation svd d m1 = Ok m2 /\ is_mps n m2 psi /\
    layer_TN_operation svd d m = Ok m3 /\ layer_TN_operation svd r m3 = Ok m4 /\ is_mps n m4 psi.
Proof. exact ring_back_mps. Qed.
Print Assumptions C18_mps.
Example C18_case : good_wires 5 [4; 0; 2] /\ exact_svd triv_svd /\ is_mps 3 ghz_mps ghz /\ nonzero 3 ghz.
Proof. split; [gw|]. split; [exact some_exact_svd|]. split; [exact ghz_is_mps|exact ghz_nonzero]. Qed.

(** C19 *)
Theorem C19_basic_is_repeated : forall n rep ws ps, good_wires n ws -> 2 <= length ws -> 1 <= rep -> length ps = 3 * length ws * rep ->
  exists b u, new_basic (Z.of_nat n) (map Z.of_nat ws) ps (Z.of_nat rep) = Ok b /\ basic_U b = Ok u /\
    mfold (fun M r =>
      do y <- new_slayer YZYLayer (Z.of_nat n) (map Z.of_nat ws) (firstn (3 * length ws) (skipn (r * (3 * length ws)) ps));
      do c <- new_ring (Z.of_nat n) (map Z.of_nat ws);
      do yu <- slayer_U y; do cu <- ring_U c; do yM <- matmul yu M; matmul cu yM) (seq 0 rep) (eye (2 ^ n)) = Ok u.
Proof. exact basic_product. Qed.
Print Assumptions C19_basic_is_repeated.
Theorem C19_basic_rejects : forall N wires ps rep, (Z.of_nat (length ps) <> 3 * Z.of_nat (length wires) * rep \/ N < Z.of_nat (length wires) \/
  Z.of_nat (length wires) < 2 \/ rep < 1)%Z -> new_basic N wires ps rep = Err ValueError.
Proof. exact basic_rejected. Qed.
Print Assumptions C19_basic_rejects.
Example C19_rejects_case : (Z.of_nat (length (repeat 1%R 11)) <> 3 * Z.of_nat (length [1; 0]%Z) * 2)%Z.
Proof. discriminate. Qed.
Theorem C19_basic_params_update : forall n rep ws ps qs b, good_wires n ws -> 2 <= length ws -> 1 <= rep ->
  length ps = 3 * length ws * rep -> length qs = length ps ->
  new_basic (Z.of_nat n) (map Z.of_nat ws) ps (Z.of_nat rep) = Ok b ->
  basic_params_update b qs = new_basic (Z.of_nat n) (map Z.of_nat ws) qs (Z.of_nat rep).
Proof. exact basic_update. Qed.
Print Assumptions C19_basic_params_update.
Example C19_case : good_wires 3 [2; 0] /\ length (seq 0 18) = 3 * length [2; 0] * 3 /\
  new_basic 3 [2; 0]%Z (map INR (seq 0 17)) 3 = Err ValueError.
Proof. split; [gw|]. split; [reflexivity|]. apply basic_rejected. left. rewrite map_length. cbn. lia. Qed.

(** C20 *)
Theorem C20_three_rotations : forall n k ws ps a b c, 0 < n -> kind_axes k = [a; b; c] -> good_wires n ws -> length ps = 3 * length ws ->
  exists o u, lbuild n (li_rot k ws ps) = Ok o /\ layer_U o = Ok u /\
    is_op n u (obs_op n ws (map (fun i => mul_op 1 (axis_op c (nth (3 * i + 2) ps 0%R))
      (mul_op 1 (axis_op b (nth (3 * i + 1) ps 0%R)) (axis_op a (nth (3 * i) ps 0%R)))) (seq 0 (length ws)))).
Proof. exact layer3. Qed.
Print Assumptions C20_three_rotations.
Theorem C20_two_rotations : forall n k ws ps a b, 0 < n -> kind_axes k = [a; b] -> good_wires n ws -> length ps = 2 * length ws ->
  exists o u, lbuild n (li_rot k ws ps) = Ok o /\ layer_U o = Ok u /\
    is_op n u (obs_op n ws (map (fun i => mul_op 1 (axis_op b (nth (2 * i + 1) ps 0%R)) (axis_op a (nth (2 * i) ps 0%R))) (seq 0 (length ws)))).
Proof. exact layer2. Qed.
Print Assumptions C20_two_rotations.
Theorem C20_hadamard : forall n ws, 0 < n -> good_wires n ws -> exists o u, lbuild n (li_H ws) = Ok o /\ layer_U o = Ok u /\
  is_op n u (obs_op n ws (map (fun _ => H_op) ws)).
Proof. exact layerH. Qed.
Print Assumptions C20_hadamard.
Example C20_case : kind_axes KXYZ = [AX; AY; AZ] /\ kind_axes KXZ = [AX; AZ] /\ good_wires 4 [3; 1].
Proof. split; [reflexivity|]. split; [reflexivity|gw]. Qed.
Theorem C20_count_rejected : forall k N wires ps, length ps <> per_wire k * length wires -> new_slayer k N wires ps = Err ValueError.
Proof. exact slayer_count. Qed.
Print Assumptions C20_count_rejected.
Theorem C20_too_many_wires_rejected : forall k N wires ps, (N < Z.of_nat (length wires))%Z -> new_slayer k N wires ps = Err ValueError.
Proof. exact slayer_too_many. Qed.
Print Assumptions C20_too_many_wires_rejected.
Example C20_rejects_case : length [1; 2; 3; 4]%R <> per_wire XYZLayer * length [0%Z].
Proof. discriminate. Qed.

(** C32: any sequence of updates *)
Theorem C32_layers_params_update : forall n l pss o, li_ok n l -> Forall (fun ps => li_ok n (li_set l ps)) pss -> lbuild n l = Ok o ->
  mfold layer_params_update pss o = lbuild n (fold_left li_set pss l).
Proof. exact layer_updates. Qed.
Print Assumptions C32_layers_params_update.
(** the single-gate layers check nothing: only the last update needs the right number of angles *)
Theorem C32_rotation_layers_params_update : forall n k ws p0 pss ps o, new_slayer k (Z.of_nat n) (map Z.of_nat ws) p0 = Ok o -> k <> HLayer ->
  length ps = per_wire k * length ws ->
  Ok (fold_left slayer_params_update (pss ++ [ps]) o) = new_slayer k (Z.of_nat n) (map Z.of_nat ws) ps.
Proof. exact rot_updates. Qed.
Print Assumptions C32_rotation_layers_params_update.
Example C32_layers_case : let l := li_rot KXZ [1] [1; 2]%R in li_ok 2 l /\ Forall (fun ps => li_ok 2 (li_set l ps)) [[3; 4]; [5; 6]]%R /\
  fold_left li_set [[3; 4]; [5; 6]]%R l = li_rot KXZ [1] [5; 6]%R.
Proof. split; [split; [gw|reflexivity]|]. split; [|reflexivity]. repeat (constructor; [split; [gw|reflexivity]|]). constructor. Qed.

(** C44: distinct wires *)
Theorem C44_forms_agree : forall svd n l, exact_svd svd -> 0 < n -> li_ok n l -> li_TN n l = true -> exists o u, lbuild n l = Ok o /\ layer_U o = Ok u /\
  (forall s, shape s = repeat 2 n -> wf s -> exists s', layer_TN_contract o s false = Ok s' /\ is_state n (repeat 2 n) s' (act n (op_of u) (amp s))) /\
  (forall m psi, is_mps n m psi -> nonzero n psi -> exists m', layer_TN_operation svd o m = Ok m' /\ is_mps n m' (act n (op_of u) psi)).
Proof. exact layer_forms. Qed.
Print Assumptions C44_forms_agree.
(** C44: repeated wires are accepted; the matrix of HLayer(n,[w,w]) is H on w, its tensor forms do nothing *)
Theorem C44_repeated_wires_refuted : forall n w, 2 <= n -> w < n ->
  exists o u, lbuild n (li_H [w; w]) = Ok o /\ layer_U o = Ok u /\ is_op n u (lift H_op [w]) /\
    (forall s, shape s = repeat 2 n -> wf s -> layer_TN_contract o s false = Ok s) /\
    (forall svd m psi, is_mps n m psi -> exists m', layer_TN_operation svd o m = Ok m' /\ is_mps n m' psi).
Proof. exact repeated_H. Qed.
Print Assumptions C44_repeated_wires_refuted.
Example C44_case : exact_svd triv_svd /\ li_ok 2 (li_rot KYZY [1; 0] [1; 2; 3; 4; 5; 6]%R) /\ li_TN 2 (li_rot KYZY [1; 0] [1; 2; 3; 4; 5; 6]%R) = true.
Proof. split; [exact some_exact_svd|]. split; [split; [gw|reflexivity]|reflexivity]. Qed.
