(** Properties of AmplitudeEncoding (C34), PauliEncoding (C35), gram_encoding (C51), PrepareState and PrepareRho (C52).
    Specifications used in the statements: Spec.v, GateSpec.v, RunSpec.v, LayerSpec.v (axes), MPSSpec.v, MeasSpec.v, EmbedSpec.v. *)
From Coq Require Import List ZArith QArith Reals Lra Lia Bool Arith String.
From Verif Require Import PyBase Scalar CInst BigSum Index Tensor Spec SpecFacts QMath QMathC QTN QOperator GateSpec QGates GateCalls RunSpec MPSSpec LayerSpec QLayers
  MeasSpec EmbedSpec QEmbedding MPSCases EmbedFacts EmbedFacts2.
Import ListNotations.
Local Close Scope Q_scope.
Local Close Scope R_scope.
Local Open Scope nat_scope.
Notation length := List.length.

(** C34: the encoded state is the normalised input followed by zeros *)
Theorem C34_state : forall n xs, length xs <= 2 ^ n -> Exists (fun x => x <> RtoC 0) xs -> exists e t,
  AmplitudeEncoding n xs = Ok e /\ encoded_state e = Ok t /\ is_state n [2 ^ n] t (padded xs) /\ norm2 n (amp t) = 1%R.
Proof. exact amplitude_main. Qed.
Print Assumptions C34_state.
Example C34_case : length [RtoC 3; RtoC 0; Cmul (RtoC 4) Ci] <= 2 ^ 2 /\ Exists (fun x => x <> RtoC 0) [RtoC 3; RtoC 0; Cmul (RtoC 4) Ci] /\
  vnorm [RtoC 3; RtoC 0; Cmul (RtoC 4) Ci] = 5%R /\ padded [RtoC 3; RtoC 0; Cmul (RtoC 4) Ci] [1; 0] = Cmul (RtoC (4 / 5)) Ci.
Proof.
  assert (V : vnorm [RtoC 3; RtoC 0; Cmul (RtoC 4) Ci] = 5%R).
  { unfold vnorm, Cnorm2. cbn [rsum RtoC Cmul Ci fst snd]. replace (_ + _)%R with (5 * 5)%R by ring. apply sqrt_square. lra. }
  split; [cbn; lia|]. split; [left; intros E; apply (f_equal fst) in E; cbn in E; lra|]. split; [exact V|].
  unfold padded. change (bval [1; 0]) with 2. cbn [length Nat.ltb Nat.leb nth]. rewrite V. ceq; field.
Qed.
Theorem C34_too_long : forall n xs, 2 ^ n < length xs -> AmplitudeEncoding n xs = Err ValueError.
Proof. exact amplitude_too_long. Qed.
Print Assumptions C34_too_long.
Example C34_too_long_case : 2 ^ 1 < length [RtoC 1; RtoC 1; RtoC 1]. Proof. cbn. lia. Qed.
(** the zero vector is accepted by the constructor and encoded as NaN; so is (as an error) the empty one *)
Theorem C34_zero : forall n k, 0 < k -> k <= 2 ^ n -> exists e, AmplitudeEncoding n (repeat (RtoC 0) k) = Ok e /\ encoded_state e = Err NotFinite.
Proof. exact amplitude_zero. Qed.
Print Assumptions C34_zero.
Example C34_zero_case : 0 < 3 /\ 3 <= 2 ^ 2. Proof. cbn. lia. Qed.
Theorem C34_empty : forall n, exists e, AmplitudeEncoding n [] = Ok e /\ encoded_state e = Err TypeError.
Proof. exact amplitude_empty. Qed.
Print Assumptions C34_empty.
(** only the direction of the input matters *)
Theorem C34_scale : forall n xs c, length xs <= 2 ^ n -> Exists (fun x => x <> RtoC 0) xs -> (0 < c)%R -> exists e e' t,
  AmplitudeEncoding n xs = Ok e /\ AmplitudeEncoding n (map (Cmul (RtoC c)) xs) = Ok e' /\ encoded_state e = Ok t /\ encoded_state e' = Ok t.
Proof. exact amplitude_scale. Qed.
Print Assumptions C34_scale.
Example C34_scale_case : length [RtoC (-3); Ci] <= 2 ^ 1 /\ Exists (fun x => x <> RtoC 0) [RtoC (-3); Ci] /\ (0 < / 7)%R.
Proof. split; [cbn; lia|]. split; [|lra]. left. intros E. apply (f_equal fst) in E. cbn in E. lra. Qed.
(** the start states kept by the object *)
Theorem C34_start : forall n xs e, AmplitudeEncoding n xs = Ok e ->
  is_state n [2 ^ n] (ae_state0 e) (ket (repeat 0 n)) /\ is_op n (ae_rho0 e) (outer (ket (repeat 0 n))).
Proof. exact amplitude_start. Qed.
Print Assumptions C34_start.
Example C34_start_case : exists e, AmplitudeEncoding 3 [RtoC 1; RtoC 2] = Ok e. Proof. eexists. reflexivity. Qed.

(** C35: one rotation per wire, angles used cyclically; the same operator through every method *)
Theorem C35_matrix : forall n a xs ws, 0 < n -> xs <> [] -> length xs <= n -> good_wires n ws -> exists e u,
  PauliEncoding (Z.of_nat n) xs (map Z.of_nat ws) (axis_name a) = Ok e /\ pe_U e = Ok u /\ is_op n u (gs_op n (enc_gates a ws xs)) /\ unitary n (op_of u).
Proof. exact enc_matrix_main. Qed.
Print Assumptions C35_matrix.
Example C35_case : good_wires 4 [2; 0; 3] /\ enc_gates AY [2; 0; 3] [5; 7]%R = [gi_ry 5 2; gi_ry 7 0; gi_ry 5 3].
Proof. split; [|reflexivity]. split; [repeat constructor; cbn; lia|cbn; intros w Hw; lia]. Qed.
Theorem C35_contract : forall n a xs ws s, xs <> [] -> length xs <= n -> good_wires n ws -> shape s = repeat 2 n -> wf s -> exists e s',
  PauliEncoding (Z.of_nat n) xs (map Z.of_nat ws) (axis_name a) = Ok e /\ pe_TN_contract e s false = Ok s' /\
  is_state n (repeat 2 n) s' (act n (gs_op n (enc_gates a ws xs)) (amp s)).
Proof. exact enc_contract_main. Qed.
Print Assumptions C35_contract.
Theorem C35_batch : forall B n a xs ws t, xs <> [] -> length xs <= n -> good_wires n ws -> shape t = B :: repeat 2 n -> wf t -> exists e t',
  PauliEncoding (Z.of_nat n) xs (map Z.of_nat ws) (axis_name a) = Ok e /\ pe_TN_contract e t true = Ok t' /\ shape t' = B :: repeat 2 n /\ wf t' /\
  forall i u, i < B -> sample n i t u -> exists u', pe_TN_contract e u false = Ok u' /\ sample n i t' u'.
Proof. exact enc_batch_main. Qed.
Print Assumptions C35_batch.
Theorem C35_mps : forall n a xs ws m psi, xs <> [] -> length xs <= n -> good_wires n ws -> is_mps n m psi -> exists e m',
  PauliEncoding (Z.of_nat n) xs (map Z.of_nat ws) (axis_name a) = Ok e /\ pe_TN_operation e m = Ok m' /\
  is_mps n m' (act n (gs_op n (enc_gates a ws xs)) psi).
Proof. exact enc_mps_main. Qed.
Print Assumptions C35_mps.
Example C35_forms_case : [5; 7]%R <> [] /\ length [5; 7]%R <= 3 /\ good_wires 3 [2; 0; 1] /\ is_mps 3 ghz_mps ghz /\
  shape (zeros (SC := C_scalar) [5; 2; 2; 2]) = 5 :: repeat 2 3.
Proof.
  split; [discriminate|]. split; [cbn; lia|]. split; [split; [repeat constructor; cbn; lia|cbn; intros w Hw; lia]|]. split; [exact ghz_is_mps|reflexivity].
Qed.
Theorem C35_too_many : forall N xs ws p, (N < Z.of_nat (length xs))%Z -> PauliEncoding N xs ws p = Err ValueError.
Proof. exact enc_too_many. Qed.
Print Assumptions C35_too_many.
Example C35_too_many_case : (2 < Z.of_nat (length [1; 2; 3]%R))%Z. Proof. cbn. lia. Qed.
(** an unknown pauli is accepted by the constructor and rejected by every use of the object *)
Theorem C35_bad_pauli : forall N xs ws p, (Z.of_nat (length xs) <= N)%Z -> (forall a, p <> axis_name a) -> exists e, PauliEncoding N xs ws p = Ok e /\
  pe_U e = Err ValueError /\ (forall m, pe_TN_operation e m = Err ValueError) /\ (forall t b, pe_TN_contract e t b = Err ValueError).
Proof. exact enc_bad_pauli. Qed.
Print Assumptions C35_bad_pauli.
Example C35_bad_pauli_case : forall a, "x"%string <> axis_name a. Proof. intros []; discriminate. Qed.
(** no inputs at all, wires out of range *)
Theorem C35_no_inputs : forall N a w ws, (0 <= N)%Z -> exists e, PauliEncoding N [] (w :: ws) (axis_name a) = Ok e /\
  pe_U e = Err ZeroDivisionError /\ (forall m, pe_TN_operation e m = Err ZeroDivisionError) /\ (forall t b, pe_TN_contract e t b = Err ZeroDivisionError).
Proof. exact enc_no_inputs. Qed.
Print Assumptions C35_no_inputs.
Theorem C35_wire_range : forall N a xs ws, xs <> [] -> (Z.of_nat (length xs) <= N)%Z -> Exists (fun w => w < - N \/ N <= w)%Z ws -> exists e,
  PauliEncoding N xs ws (axis_name a) = Ok e /\
  pe_U e = Err IndexError /\ (forall m, pe_TN_operation e m = Err IndexError) /\ (forall t b, pe_TN_contract e t b = Err IndexError).
Proof. exact enc_wire_range. Qed.
Print Assumptions C35_wire_range.
Example C35_wire_range_case : (Z.of_nat (length [1; 2]%R) <= 2)%Z /\ Exists (fun w => w < - 2 \/ 2 <= w)%Z [0; 2]%Z.
Proof. split; [cbn; lia|right; left; lia]. Qed.
(** a wire given twice: the matrix has the last rotation, the contraction applies it twice *)
Theorem C35_repeated_wire_refuted : forall n a x y w, 2 <= n -> w < n -> exists e u, PauliEncoding (Z.of_nat n) [x; y] [Z.of_nat w; Z.of_nat w] (axis_name a) = Ok e /\
  pe_U e = Ok u /\ is_op n u (gs_op n [axis_gate a y w]) /\
  forall s, shape s = repeat 2 n -> wf s -> exists s', pe_TN_contract e s false = Ok s' /\
    is_state n (repeat 2 n) s' (act n (gs_op n [axis_gate a y w; axis_gate a y w]) (amp s)).
Proof. exact enc_repeated. Qed.
Print Assumptions C35_repeated_wire_refuted.

(** C51: gram_encoding of a row.  Unless its norm is 1, the result is |s><s| / (|x|+1e-12)^2 where s_i is x_i or -x_i *)
Theorem C51_entries : forall xs : list C, 0 < length xs -> rsum xs Cnorm2 <> 1%R -> exists t, gram_encoding (@mkT C_scalar [1; length xs] xs) = Ok t /\
  shape t = [length xs; length xs] /\ wf t /\
  forall i j, i < length xs -> j < length xs -> tget t [i; j] =
    Cmul (RtoC (/ (vnorm xs + / 10 ^ 12) ^ 2)) (Cmul (right_half (nth i xs (RtoC 0))) (Cconj (right_half (nth j xs (RtoC 0))))).
Proof. exact gram_general. Qed.
Print Assumptions C51_entries.
Example C51_case : rsum [RtoC 1; RtoC (-2)] Cnorm2 <> 1%R /\ right_half (RtoC 1) = RtoC 1 /\ right_half (RtoC (-2)) = RtoC 2.
Proof.
  split; [unfold Cnorm2; cbn; lra|]. unfold right_half, Re, Im, RtoC. cbn [fst snd].
  split; repeat (destruct (Rlt_dec _ _); try lra); try reflexivity; ceq; ring.
Qed.
(** a density matrix: Hermitian, positive semidefinite, trace (|x|/(|x|+1e-12))^2 *)
Theorem C51_density : forall xs : list C, 0 < length xs -> rsum xs Cnorm2 <> 1%R -> exists t, gram_encoding (@mkT C_scalar [1; length xs] xs) = Ok t /\
  IsHermitian t = Ok true /\
  (forall v : nat -> C, exists q, (0 <= q)%R /\
     bigsum (SC := C_scalar) (seq 0 (length xs)) (fun i => bigsum (SC := C_scalar) (seq 0 (length xs)) (fun j => Cmul (Cmul (Cconj (v i)) (tget t [i; j])) (v j))) = RtoC q) /\
  ttrace t = Ok (RtoC ((vnorm xs / (vnorm xs + / 10 ^ 12)) ^ 2)).
Proof. exact gram_density. Qed.
Print Assumptions C51_density.
Example C51_density_case : rsum [RtoC 1; Ci; RtoC (-2)] Cnorm2 = 6%R. Proof. unfold Cnorm2. cbn. lra. Qed.
(** a row of norm 1 is used as it is, without conjugation *)
Theorem C51_unit : forall xs : list C, 0 < length xs -> rsum xs Cnorm2 = 1%R -> exists t, gram_encoding (@mkT C_scalar [1; length xs] xs) = Ok t /\
  shape t = [length xs; length xs] /\ wf t /\
  forall i j, i < length xs -> j < length xs -> tget t [i; j] = Cmul (nth i xs (RtoC 0)) (nth j xs (RtoC 0)).
Proof. exact gram_unit_row. Qed.
Print Assumptions C51_unit.
Example C51_unit_case : rsum [RtoC (3 / 5); RtoC (- (4 / 5))] Cnorm2 = 1%R. Proof. unfold Cnorm2. cbn. lra. Qed.
(** "the density matrix of the normalised row": false, the relative signs of the entries are lost *)
Theorem C51_signs_lost_refuted : forall xs ys : list C, 0 < length xs -> rsum xs Cnorm2 <> 1%R -> Forall2 (fun x y => y = x \/ y = Copp x) xs ys ->
  gram_encoding (@mkT C_scalar [1; length xs] xs) = gram_encoding (@mkT C_scalar [1; length ys] ys).
Proof. exact gram_signs. Qed.
Print Assumptions C51_signs_lost_refuted.
Example C51_signs_case : Forall2 (fun x y => y = x \/ y = Copp x) [RtoC 1; RtoC 2] [RtoC 1; RtoC (-2)].
Proof. constructor; [now left|]. constructor; [right; ceq; ring|constructor]. Qed.

(** C52 *)
Theorem C52_state : forall xs : list C, shape (PrepareState xs) = [length xs] /\ data (PrepareState xs) = xs /\
  (rsum xs Cnorm2 = 1%R -> IsNormalized (PrepareState xs) = Ok true).
Proof. exact prepare_state_ok. Qed.
Print Assumptions C52_state.
Theorem C52_entries : forall xs : list C, exists t, PrepareRho xs = Ok t /\ shape t = [length xs; length xs] /\ wf t /\
  forall i j, i < length xs -> j < length xs -> tget t [i; j] = Cmul (nth i xs (RtoC 0)) (nth j xs (RtoC 0)).
Proof. exact prepare_rho_ok. Qed.
Print Assumptions C52_entries.
(** it is |psi><psi| exactly for real amplitudes *)
Theorem C52_pure_iff_real : forall xs : list C, exists t, PrepareRho xs = Ok t /\ shape t = [length xs; length xs] /\ wf t /\
  ((forall i j, i < length xs -> j < length xs -> tget t [i; j] = Cmul (nth i xs (RtoC 0)) (Cconj (nth j xs (RtoC 0)))) <-> Forall (fun x => Im x = 0%R) xs).
Proof. exact prepare_rho_pure. Qed.
Print Assumptions C52_pure_iff_real.
Theorem C52_complex_refuted : let xs := [RtoC (/ sqrt 2); (0, / sqrt 2)%R] in rsum xs Cnorm2 = 1%R /\ exists t, PrepareRho xs = Ok t /\ ttrace t = Ok (RtoC 0).
Proof. exact prepare_rho_bad. Qed.
Print Assumptions C52_complex_refuted.
