(** Properties of measure, expval (C24, C25) and of IsUnitary, IsNormalized, IsHermitian (C39).
    Specifications used in the statements: Spec.v, PTSpec.v (trace_op), MeasSpec.v. *)
From Coq Require Import List ZArith QArith Qreals Reals Lra Lia Bool Arith.
From Verif Require Import PyBase Scalar CInst BigSum Index Tensor Spec SpecFacts QMath QOperator QGates QMathC GateSpec GateCalls PTSpec MeasSpec MeasFacts MeasCases.
Import ListNotations.
Local Close Scope Q_scope.
Local Close Scope R_scope.
Local Open Scope nat_scope.

(** C24: one value per qubit, the mean of the signs *)
Theorem C24_vector : forall n s t psi, is_state n s t psi -> wf t -> vector_shape n s -> measure (Z.of_nat n) t INone = Ok (map (zmean n psi) (seq 0 n)).
Proof. exact measure_all_vec. Qed.
Print Assumptions C24_vector.
Theorem C24_density : forall n t A, 0 < n -> is_op n t A -> (Cabs (Csub (trace_op n A) (RtoC 1)) <= 1 / 10000)%R -> measure (Z.of_nat n) t INone = Ok (map (zmean_rho n A) (seq 0 n)).
Proof. exact measure_all_rho. Qed.
Print Assumptions C24_density.
Example C24_density_case : is_op 3 (op_tensor 3 (outer bell_psi)) (outer bell_psi) /\ (Cabs (Csub (trace_op 3 (outer bell_psi)) (RtoC 1)) <= 1 / 10000)%R.
Proof.
  destruct bell_ok as (_ & _ & _ & H & N). split; [exact H|]. rewrite trace_outer, N. replace (Csub _ _) with (RtoC 0) by (ceq; cbn; ring). rewrite Cabs_0. lra.
Qed.
Theorem C24_density_trace : forall n t A a, 0 < n -> is_op n t A -> (1 / 10000 < Cabs (Csub (trace_op n A) (RtoC 1)))%R -> measure (Z.of_nat n) t a = Err ValueError.
Proof. exact measure_trace_off. Qed.
Print Assumptions C24_density_trace.
Example C24_density_trace_case : is_op 2 (op_tensor 2 id_op) id_op /\ (1 / 10000 < Cabs (Csub (trace_op 2 id_op) (RtoC 1)))%R.
Proof.
  split; [apply is_op_tensor|]. replace (Csub _ _) with (RtoC 3) by (ceq; cbn; ring).
  unfold Cabs, Cnorm2, RtoC. cbn [fst snd]. replace (3 * 3 + 0 * 0)%R with (3 * 3)%R by ring. rewrite sqrt_square; lra.
Qed.
Theorem C24_agree : forall n s t psi r a, is_state n s t psi -> wf t -> vector_shape n s -> is_op n r (outer psi) -> norm2 n psi = 1%R ->
  measure (Z.of_nat n) r a = measure (Z.of_nat n) t a.
Proof. exact measure_agree_any. Qed.
Print Assumptions C24_agree.
Theorem C24_range : forall n psi i, norm2 n psi = 1%R -> (-1 <= zmean n psi i <= 1)%R.
Proof. exact zmean_range. Qed.
Print Assumptions C24_range.
Theorem C24_range_density : forall n A i, trace_op n A = RtoC 1 -> (forall b, In b (bits n) -> (0 <= Re (A b b))%R) -> (-1 <= zmean_rho n A i <= 1)%R.
Proof. exact zmean_rho_range. Qed.
Print Assumptions C24_range_density.
Example C24_range_case : trace_op 3 (outer bell_psi) = RtoC 1 /\ forall b, (0 <= Re (outer bell_psi b b))%R.
Proof.
  destruct bell_ok as (_ & _ & _ & H & N). split; [now rewrite trace_outer, N|]. intros b. unfold outer. destruct (bell_psi b) as [x y]. cbn. nra.
Qed.
(** a basis state gives the signs of its bits *)
Theorem C24_basis : forall n b, 0 < n -> In b (bits n) -> measure (Z.of_nat n) (state_tensor n (ket b)) INone = Ok (map (fun i => if nth i b 0 =? 0 then 1%R else (-1)%R) (seq 0 n)).
Proof. exact measure_basis. Qed.
Print Assumptions C24_basis.
Example C24_basis_case : In [1; 0; 1] (bits 3) /\ map (fun i => if nth i [1; 0; 1] 0 =? 0 then 1%R else (-1)%R) (seq 0 3) = [-1; 1; -1]%R.
Proof. split; [cbn; tauto|reflexivity]. Qed.
(** expval with any observable *)
Theorem C24_expval_vector : forall n s t psi m M, is_state n s t psi -> wf t -> is_op n m M -> expval t m false = Ok (Re (inner n psi (act n M psi))).
Proof. exact expval_vec. Qed.
Print Assumptions C24_expval_vector.
Theorem C24_expval_density : forall n t A m M, is_op n t A -> is_op n m M -> (Cabs (Csub (trace_op n A) (RtoC 1)) <= 1 / 10000)%R -> expval t m true = Ok (Re (trace_op n (mul_op n A M))).
Proof. exact expval_density. Qed.
Print Assumptions C24_expval_density.
Example C24_expval_case : is_op 3 (op_tensor 3 (lift Y_op [2])) (lift Y_op [2]) /\ is_state 3 [8; 1] bell_vec bell_psi.
Proof. split; [apply is_op_tensor|exact (proj1 bell_ok)]. Qed.
(** a vector whose size is not that of n_qubit qubits is refused *)
Theorem C24_size_refused : forall n m s t psi, 0 < n -> 0 < m -> n <> m -> is_state m s t psi -> wf t -> vector_shape m s -> measure (Z.of_nat n) t INone = Err TorchError.
Proof. exact measure_size. Qed.
Print Assumptions C24_size_refused.
Example C24_case : is_state 3 [8; 1] bell_vec bell_psi /\ wf bell_vec /\ vector_shape 3 [8; 1] /\ is_op 3 (op_tensor 3 (outer bell_psi)) (outer bell_psi) /\ norm2 3 bell_psi = 1%R.
Proof. exact bell_ok. Qed.
Example C24_run : measure 3 bell_vec INone = Ok [0; 0; -1]%R.
Proof. exact bell_run. Qed.

(** C25: the listed qubits only.  The argument None, 0 or [] stands for all qubits *)
Theorem C25_one : forall n s t psi q, is_state n s t psi -> wf t -> vector_shape n s -> 0 < q < n -> measure (Z.of_nat n) t (IInt (Z.of_nat q)) = Ok [zmean n psi q].
Proof. exact measure_one. Qed.
Print Assumptions C25_one.
Theorem C25_list : forall n s t psi qs, is_state n s t psi -> wf t -> vector_shape n s -> qs <> [] -> (forall q, In q qs -> q < n) ->
  measure (Z.of_nat n) t (IList (map Z.of_nat qs)) = Ok (map (zmean n psi) qs).
Proof. exact measure_list. Qed.
Print Assumptions C25_list.
Example C25_list_case : [2; 0; 2] <> [] /\ (forall q, In q [2; 0; 2] -> q < 3) /\ 0 < 2 < 3.
Proof. split; [discriminate|]. split; [cbn; intros q Hq; lia|lia]. Qed.
Theorem C25_density : forall n t A, 0 < n -> is_op n t A -> (Cabs (Csub (trace_op n A) (RtoC 1)) <= 1 / 10000)%R ->
  (forall q, 0 < q < n -> measure (Z.of_nat n) t (IInt (Z.of_nat q)) = Ok [zmean_rho n A q]) /\
  (forall qs, qs <> [] -> (forall q, In q qs -> q < n) -> measure (Z.of_nat n) t (IList (map Z.of_nat qs)) = Ok (map (zmean_rho n A) qs)).
Proof. exact measure_rho_sel. Qed.
Print Assumptions C25_density.
(** refuted for qubit 0: all qubits are measured; an empty list does the same *)
Theorem C25_zero_refuted : forall n s t psi, is_state n s t psi -> wf t -> vector_shape n s ->
  measure (Z.of_nat n) t (IInt 0) = Ok (map (zmean n psi) (seq 0 n)) /\ measure (Z.of_nat n) t (IList []) = Ok (map (zmean n psi) (seq 0 n)).
Proof. exact measure_zero. Qed.
Print Assumptions C25_zero_refuted.
Theorem C25_bad_qubit : forall n t q, (q < 0 \/ Z.of_nat n <= q)%Z -> (0 < n -> measure (Z.of_nat n) t (IInt q) = Err ValueError) /\
  forall l, In q l -> measure (Z.of_nat n) t (IList l) = Err ValueError.
Proof. exact measure_bad_q. Qed.
Print Assumptions C25_bad_qubit.
Example C25_run : measure 3 bell_vec (IInt 2) = Ok [-1]%R /\ measure 3 bell_vec (IList [2; 1]%Z) = Ok [-1; 0]%R /\ measure 3 bell_vec (IInt 0) = Ok [0; 0; -1]%R /\ measure 3 bell_vec (IInt 3) = Err ValueError.
Proof. exact bell_run2. Qed.

(** C39: every defining equation is checked within 1e-6, and nothing else *)
Theorem C39_unitary : forall n t, shape t = [n; n] -> exists b, IsUnitary t = Ok b /\
  (b = true <-> (forall i, i < n -> (Rabs (rsum (seq 0 n) (fun j => Cnorm2 (tget t [i; j])) - 1) <= 1 / 1000000)%R) /\
                (forall i k, i < n -> k < n -> i <> k -> (Cabs (row_dot n t i k) <= 1 / 1000000)%R)).
Proof. exact IsUnitary_char. Qed.
Print Assumptions C39_unitary.
Theorem C39_normalized : forall n t, 0 < n -> shape t = [n] -> exists b, IsNormalized t = Ok b /\
  (b = true <-> (Rabs (rsum (seq 0 n) (fun i => Cnorm2 (tget t [i])) - 1) <= 1 / 1000000)%R).
Proof. exact IsNormalized_char. Qed.
Print Assumptions C39_normalized.
Theorem C39_hermitian : forall n t, shape t = [n; n] -> exists b, IsHermitian t = Ok b /\
  (b = true <-> forall i j, i < n -> j < n -> (Cabs (Csub (tget t [i; j]) (Cconj (tget t [j; i]))) <= 1 / 1000000)%R).
Proof. exact IsHermitian_char. Qed.
Print Assumptions C39_hermitian.
(** exact arguments of any size are accepted *)
Theorem C39_exact : (forall n t, shape t = [n; n] -> (forall i k, i < n -> k < n -> row_dot n t i k = if i =? k then RtoC 1 else RtoC 0) -> IsUnitary t = Ok true) /\
  (forall n t, shape t = [n] -> rsum (seq 0 n) (fun i => Cnorm2 (tget t [i])) = 1%R -> IsNormalized t = Ok true) /\
  (forall n t, shape t = [n; n] -> (forall i j, i < n -> j < n -> tget t [i; j] = Cconj (tget t [j; i])) -> IsHermitian t = Ok true).
Proof. exact (conj IsUnitary_exact (conj IsNormalized_exact IsHermitian_exact)). Qed.
Print Assumptions C39_exact.
(** in particular the matrix of every gate *)
Theorem C39_gates : forall n g, gi_ok n g -> exists o t, build n g = Ok o /\ U_expand o = Ok t /\ IsUnitary t = Ok true.
Proof. exact gates_IsUnitary. Qed.
Print Assumptions C39_gates.
Example C39_gates_case : gi_ok 4 (gi_cu3 1 2 3 3 1) /\ gi_ok 4 (gi_rxx 1 0 2).
Proof. split; (split; [|exact I]); (split; [repeat constructor; cbn; lia|]); cbn; intros w Hw; lia. Qed.
Theorem C39_shapes_refused :
  (forall t n m l, shape t = n :: m :: l -> n <> m -> IsUnitary t = Err ValueError /\ IsHermitian t = Err ValueError) /\
  (forall t, length (shape t) <> 1 -> IsNormalized t = Err ValueError) /\
  (forall t, length (shape t) < 2 -> IsUnitary t = Err IndexError /\ IsHermitian t = Err IndexError) /\
  (forall t, shape t = [0] -> IsNormalized t = Err TypeError).
Proof. exact predicates_shapes. Qed.
Print Assumptions C39_shapes_refused.
Example C39_case : IsUnitary (mkT [2; 2] [RtoC 0; Ci; Ci; RtoC 0]) = Ok true /\ IsUnitary (mkT [2; 2] [RtoC 0; Ci; RtoC 1; RtoC 1]) = Ok false /\
  IsHermitian (mkT [2; 2] [RtoC 1; Ci; Copp Ci; RtoC 0]) = Ok true /\ IsHermitian (mkT [2; 2] [RtoC 0; Ci; Ci; RtoC 0]) = Ok false /\
  IsNormalized (mkT [2] [RtoC 0; Ci]) = Ok true /\ IsNormalized (mkT [2] [RtoC 1; Ci]) = Ok false.
Proof. exact predicates_run. Qed.
