(** The statements of Prop_Measure in their final form; concrete cases. *)
From Coq Require Import List ZArith QArith Qreals Reals Lra Lia Bool Arith.
From Verif Require Import PyBase Scalar CInst BigSum Index Tensor TensorFacts Spec SpecFacts QMath QTN QOperator QGates QMathC GateSpec GateCalls StateFacts PTSpec PTFacts2 MeasSpec MeasFacts.
Import ListNotations.
Local Close Scope Q_scope.
Local Close Scope R_scope.
Local Open Scope nat_scope.

Lemma tol4 : Q2R (1 # 10000) = (1 / 10000)%R.
Proof. unfold Q2R. cbn. lra. Qed.
Lemma tol6 : Q2R (1 # 1000000) = (1 / 1000000)%R.
Proof. unfold Q2R. cbn. lra. Qed.
Lemma zrange_seq : forall n, zrange n = map Z.of_nat (seq 0 n).
Proof. reflexivity. Qed.
Lemma seq_lt : forall n q, In q (seq 0 n) -> q < n.
Proof. intros n q H. apply in_seq in H. lia. Qed.

Lemma measure_all_vec : forall n s t psi, is_state n s t psi -> wf t -> vector_shape n s -> measure (Z.of_nat n) t INone = Ok (map (zmean n psi) (seq 0 n)).
Proof. intros n s t psi H1 H2 H3. apply (measure_vec n s t psi); auto. apply seq_lt. Qed.
Lemma measure_all_rho : forall n t A, 0 < n -> is_op n t A -> (Cabs (Csub (trace_op n A) (RtoC 1)) <= 1 / 10000)%R -> measure (Z.of_nat n) t INone = Ok (map (zmean_rho n A) (seq 0 n)).
Proof. intros n t A H1 H2 H3. apply measure_rho; auto; [|apply seq_lt]. apply Cabsgt_false. now rewrite tol4. Qed.

Lemma ith_split : forall n a, (exists z, In z (ith_list n a) /\ (z < 0 \/ Z.of_nat n <= z)%Z) \/ exists qs, ith_list n a = map Z.of_nat qs /\ forall q, In q qs -> q < n.
Proof.
  intros n a. generalize (ith_list n a). induction l as [|z l IH]; [right; exists []; split; auto; intros q []|].
  destruct IH as [(y & H1 & H2)|(qs & -> & H)]; [left; exists y; split; auto; now right|].
  destruct (Z_lt_dec z 0); [left; exists z; split; [now left|lia]|]. destruct (Z_le_dec (Z.of_nat n) z); [left; exists z; split; [now left|lia]|].
  right. exists (Z.to_nat z :: qs). split; [cbn; rewrite Z2Nat.id by lia; reflexivity|]. intros q [<-|Hq]; auto. lia.
Qed.
Lemma ith_nonempty : forall n a, 0 < n -> ith_list n a <> [].
Proof. intros n a H. destruct n; [lia|]. destruct a as [|[]|[]]; cbn; discriminate. Qed.
Lemma measure_trace_off : forall n t A a, 0 < n -> is_op n t A -> (1 / 10000 < Cabs (Csub (trace_op n A) (RtoC 1)))%R -> measure (Z.of_nat n) t a = Err ValueError.
Proof.
  intros n t A a Hn Ht T. destruct (ith_split n a) as [(z & H1 & H2)|(qs & E & H)]; [apply (measure_bad n t a z); auto|].
  unfold measure. rewrite (Zmeasure_ok n a qs E H). cbn [bind].
  assert (S : squeeze t = t).
  { unfold squeeze. destruct t as [s d]. destruct Ht as (E1 & _). cbn in *. subst s. f_equal. cbn. pose proof (pow2_not1 n Hn) as N. apply Nat.eqb_neq in N. rewrite N. reflexivity. }
  rewrite S. replace (shape t) with [2 ^ n; 2 ^ n] by (symmetry; apply Ht). cbn [length Nat.eqb negb].
  destruct qs as [|q qs]; [exfalso; apply (ith_nonempty n a Hn); exact E|]. cbn [map mmap]. rewrite (expval_rho n t A _ (lift Z_op [q]) Ht) by apply is_op_tensor.
  replace (Cabsgt _ _) with true; [reflexivity|]. symmetry. unfold Cabsgt. rewrite tol4. destruct (Rlt_dec _ _); [reflexivity|contradiction].
Qed.
Lemma measure_agree : forall n s t psi r a qs, is_state n s t psi -> wf t -> vector_shape n s -> is_op n r (outer psi) -> norm2 n psi = 1%R ->
  ith_list n a = map Z.of_nat qs -> (forall q, In q qs -> q < n) -> measure (Z.of_nat n) r a = measure (Z.of_nat n) t a.
Proof.
  intros n s t psi r a qs H1 H2 H3 H4 H5 E H. rewrite (measure_vec n s t psi a qs) by auto.
  assert (0 < n). { destruct n; [|lia]. unfold vector_shape in H3. exfalso. assert (X : In 1 (filter (fun d => negb (d =? 1)) s)) by (rewrite H3; now left). apply filter_In in X. destruct X as [_ X]. discriminate X. }
  rewrite (measure_rho n r (outer psi) a qs); auto.
  - f_equal. apply map_ext. intros. apply zmean_outer.
  - rewrite trace_outer, H5. apply Cabsgt_false. replace (Csub _ _) with (RtoC 0) by (ceq; cbn; ring). rewrite Cabs_0, tol4. lra.
Qed.
Lemma measure_agree_any : forall n s t psi r a, is_state n s t psi -> wf t -> vector_shape n s -> is_op n r (outer psi) -> norm2 n psi = 1%R ->
  measure (Z.of_nat n) r a = measure (Z.of_nat n) t a.
Proof.
  intros n s t psi r a H1 H2 H3 H4 H5. destruct (ith_split n a) as [(z & A & B)|(qs & E & H)]; [rewrite !(measure_bad n _ a z); auto|]. apply (measure_agree n s t psi r a qs); auto.
Qed.
Lemma zmean_range : forall n psi i, norm2 n psi = 1%R -> (-1 <= zmean n psi i <= 1)%R.
Proof. intros n psi i H. pose proof (zmean_bound n psi i). lra. Qed.
Lemma zmean_rho_range : forall n A i, trace_op n A = RtoC 1 -> (forall b, In b (bits n) -> (0 <= Re (A b b))%R) -> (-1 <= zmean_rho n A i <= 1)%R.
Proof. intros n A i H P. pose proof (zmean_rho_bound n A i P) as B. rewrite H in B. cbn in B. lra. Qed.
Lemma expval_density : forall n t A m M, is_op n t A -> is_op n m M -> (Cabs (Csub (trace_op n A) (RtoC 1)) <= 1 / 10000)%R -> expval t m true = Ok (Re (trace_op n (mul_op n A M))).
Proof. intros n t A m M H1 H2 T. rewrite (expval_rho n t A m M) by auto. rewrite <- tol4 in T. apply Cabsgt_false in T. now rewrite T. Qed.

(** the vector of a state *)
Definition state_tensor (n : nat) (psi : qstate) : tensor := mkT [2 ^ n] (map (fun i => psi (bitsof n i)) (seq 0 (2 ^ n))).
Lemma state_tensor_is : forall n psi, is_state n [2 ^ n] (state_tensor n psi) psi /\ wf (state_tensor n psi).
Proof.
  intros n psi. split.
  - split; [reflexivity|]. split; [cbn; now rewrite map_length, seq_length|]. intros b Hb. unfold amp, state_tensor. cbn [data].
    pose proof (bval_lt n b Hb) as L. rewrite (nth_indep _ _ ((fun i => psi (bitsof n i)) 0)) by (now rewrite map_length, seq_length). rewrite (map_nth (fun i => psi (bitsof n i))), seq_nth by auto. cbn [Nat.add]. now rewrite bitsof_bval.
  - unfold wf, state_tensor. cbn [shape data]. rewrite map_length, seq_length. unfold prodn. cbn [fold_right]. lia.
Qed.
Lemma vector_shape_1 : forall n, 0 < n -> vector_shape n [2 ^ n].
Proof. intros n H. unfold vector_shape. cbn [filter]. pose proof (pow2_not1 n H) as N. apply Nat.eqb_neq in N. now rewrite N. Qed.
Lemma measure_basis : forall n b, 0 < n -> In b (bits n) -> measure (Z.of_nat n) (state_tensor n (ket b)) INone = Ok (map (fun i => if nth i b 0 =? 0 then 1%R else (-1)%R) (seq 0 n)).
Proof.
  intros n b H Hb. destruct (state_tensor_is n (ket b)) as [S W]. rewrite (measure_all_vec n _ _ _ S W (vector_shape_1 n H)). f_equal. apply map_ext_in. intros i _. apply zmean_basis; auto.
Qed.
Lemma measure_size : forall n m s t psi, 0 < n -> 0 < m -> n <> m -> is_state m s t psi -> wf t -> vector_shape m s -> measure (Z.of_nat n) t INone = Err TorchError.
Proof.
  intros n m s t psi Hn Hm N H1 H2 H3. unfold measure. rewrite (Zmeasure_ok n INone (seq 0 n) (zrange_seq n) (seq_lt n)). cbn [bind].
  destruct (squeeze_vec m s t psi H1 H2 H3) as [S1 S2]. rewrite (proj1 S1). cbn [length Nat.eqb negb]. destruct n as [|n]; [lia|]. cbn [seq map mmap].
  unfold expval at 1. rewrite (view_col m _ _ psi S1 S2). cbn [bind].
  assert (D : dag (col m psi) = Ok (tconj (row m psi))).
  { unfold dag. unfold col at 1. cbn [shape tbuild length Nat.eqb negb raise_if]. unfold col. rewrite tconj_tbuild. change [1%Z; 0%Z] with (map Z.of_nat [1; 0]). rewrite permute_tbuild by (cbn; apply Permutation.perm_swap).
    unfold row. rewrite tconj_tbuild. reflexivity. }
  rewrite D. cbn [bind]. unfold matmul at 1. replace (shape (tconj (row m psi))) with [1; 2 ^ m] by reflexivity. change (shape (op_tensor (Datatypes.S n) (lift Z_op [0]))) with [2 ^ Datatypes.S n; 2 ^ Datatypes.S n].
  assert (P : 2 ^ m <> 2 ^ Datatypes.S n) by (intros E; apply N; symmetry; apply (Nat.pow_inj_r 2); auto; lia). apply Nat.eqb_neq in P. cbn [rev app]. rewrite P. reflexivity.
Qed.

Lemma measure_one : forall n s t psi q, is_state n s t psi -> wf t -> vector_shape n s -> 0 < q < n -> measure (Z.of_nat n) t (IInt (Z.of_nat q)) = Ok [zmean n psi q].
Proof. intros n s t psi q H1 H2 H3 H. apply (measure_vec n s t psi _ [q]); auto; [destruct q; [lia|reflexivity]|]. intros x [<-|[]]. lia. Qed.
Lemma measure_list : forall n s t psi qs, is_state n s t psi -> wf t -> vector_shape n s -> qs <> [] -> (forall q, In q qs -> q < n) ->
  measure (Z.of_nat n) t (IList (map Z.of_nat qs)) = Ok (map (zmean n psi) qs).
Proof. intros n s t psi qs H1 H2 H3 N H. apply (measure_vec n s t psi); auto. destruct qs; [congruence|reflexivity]. Qed.
Lemma measure_rho_sel : forall n t A, 0 < n -> is_op n t A -> (Cabs (Csub (trace_op n A) (RtoC 1)) <= 1 / 10000)%R ->
  (forall q, 0 < q < n -> measure (Z.of_nat n) t (IInt (Z.of_nat q)) = Ok [zmean_rho n A q]) /\
  (forall qs, qs <> [] -> (forall q, In q qs -> q < n) -> measure (Z.of_nat n) t (IList (map Z.of_nat qs)) = Ok (map (zmean_rho n A) qs)).
Proof.
  intros n t A Hn Ht T. rewrite <- tol4 in T. apply Cabsgt_false in T. split.
  - intros q Hq. apply (measure_rho n t A _ [q]); auto; [destruct q; [lia|reflexivity]|]. intros x [<-|[]]. lia.
  - intros qs N H. apply measure_rho; auto. destruct qs; [congruence|reflexivity].
Qed.
Lemma measure_zero : forall n s t psi, is_state n s t psi -> wf t -> vector_shape n s ->
  measure (Z.of_nat n) t (IInt 0) = Ok (map (zmean n psi) (seq 0 n)) /\ measure (Z.of_nat n) t (IList []) = Ok (map (zmean n psi) (seq 0 n)).
Proof. intros n s t psi H1 H2 H3. split; apply (measure_vec n s t psi); auto; apply seq_lt. Qed.
Lemma measure_bad_q : forall n t q, (q < 0 \/ Z.of_nat n <= q)%Z -> (0 < n -> measure (Z.of_nat n) t (IInt q) = Err ValueError) /\
  forall l, In q l -> measure (Z.of_nat n) t (IList l) = Err ValueError.
Proof.
  intros n t q B. split.
  - intros Hn. apply (measure_bad n t _ q); auto. destruct q; [lia|now left|now left].
  - intros l Hl. apply (measure_bad n t _ q); auto. destruct l; [destruct Hl|]. exact Hl.
Qed.

Lemma IsUnitary_char : forall n t, shape t = [n; n] -> exists b, IsUnitary t = Ok b /\
  (b = true <-> (forall i, i < n -> (Rabs (rsum (seq 0 n) (fun j => Cnorm2 (tget t [i; j])) - 1) <= 1 / 1000000)%R) /\
                (forall i k, i < n -> k < n -> i <> k -> (Cabs (row_dot n t i k) <= 1 / 1000000)%R)).
Proof. rewrite <- tol6. exact IsUnitary_iff. Qed.
Lemma IsNormalized_char : forall n t, 0 < n -> shape t = [n] -> exists b, IsNormalized t = Ok b /\
  (b = true <-> (Rabs (rsum (seq 0 n) (fun i => Cnorm2 (tget t [i])) - 1) <= 1 / 1000000)%R).
Proof. rewrite <- tol6. exact IsNormalized_iff. Qed.
Lemma IsHermitian_char : forall n t, shape t = [n; n] -> exists b, IsHermitian t = Ok b /\
  (b = true <-> forall i j, i < n -> j < n -> (Cabs (Csub (tget t [i; j]) (Cconj (tget t [j; i]))) <= 1 / 1000000)%R).
Proof. rewrite <- tol6. exact IsHermitian_iff. Qed.
Lemma predicates_shapes :
  (forall t n m l, shape t = n :: m :: l -> n <> m -> IsUnitary t = Err ValueError /\ IsHermitian t = Err ValueError) /\
  (forall t, length (shape t) <> 1 -> IsNormalized t = Err ValueError) /\
  (forall t, length (shape t) < 2 -> IsUnitary t = Err IndexError /\ IsHermitian t = Err IndexError) /\
  (forall t, shape t = [0] -> IsNormalized t = Err TypeError).
Proof.
  split; [|split; [|split]].
  - intros t n m l S N. unfold IsUnitary, IsHermitian. rewrite S. apply Nat.eqb_neq in N. destruct l; rewrite N; split; reflexivity.
  - intros t H. unfold IsNormalized. destruct (shape t) as [|x [|y l]]; auto. exfalso. now apply H.
  - intros t H. unfold IsUnitary, IsHermitian. destruct (shape t) as [|x [|y l]]; auto. cbn in H. lia.
  - intros t S. unfold IsNormalized. now rewrite S.
Qed.

(** (|001> + i|111>)/sqrt 2 as a column of shape [8;1] *)
Definition bell_psi : @qstate C_scalar := fun b => match b with [0; 0; 1] => RtoC (/ sqrt 2) | [1; 1; 1] => (0, / sqrt 2)%R | _ => RtoC 0 end.
Definition bell_vec : @tensor C_scalar := mkT [8; 1] [RtoC 0; RtoC (/ sqrt 2); RtoC 0; RtoC 0; RtoC 0; RtoC 0; RtoC 0; (0, / sqrt 2)%R].
Lemma half : (/ sqrt 2 * / sqrt 2 = / 2)%R.
Proof. rewrite <- Rinv_mult. rewrite sqrt_sqrt; lra. Qed.
Lemma bell_ok : is_state 3 [8; 1] bell_vec bell_psi /\ wf bell_vec /\ vector_shape 3 [8; 1] /\ is_op 3 (op_tensor 3 (outer bell_psi)) (outer bell_psi) /\ norm2 3 bell_psi = 1%R.
Proof.
  split; [split; [reflexivity|split; [reflexivity|]]|].
  - intros b Hb. cbn in Hb. repeat (destruct Hb as [<-|Hb]; [reflexivity|]). destruct Hb.
  - split; [reflexivity|]. split; [reflexivity|]. split; [apply is_op_tensor|]. unfold norm2, Cnorm2. cbn. pose proof half. lra.
Qed.
Lemma bell_z : zmean 3 bell_psi 0 = 0%R /\ zmean 3 bell_psi 1 = 0%R /\ zmean 3 bell_psi 2 = (-1)%R.
Proof. pose proof half as H. unfold zmean, zsign, Cnorm2. cbn. repeat split; lra. Qed.
Lemma bell_run : measure 3 bell_vec INone = Ok [0; 0; -1]%R.
Proof. destruct bell_ok as (H1 & H2 & H3 & _). pose proof (measure_all_vec 3 _ _ _ H1 H2 H3) as M. destruct bell_z as (Z0 & Z1 & Z2). cbn [map seq] in M. rewrite Z0, Z1, Z2 in M. exact M. Qed.
Lemma bell_run2 : measure 3 bell_vec (IInt 2) = Ok [-1]%R /\ measure 3 bell_vec (IList [2; 1]%Z) = Ok [-1; 0]%R /\ measure 3 bell_vec (IInt 0) = Ok [0; 0; -1]%R /\ measure 3 bell_vec (IInt 3) = Err ValueError.
Proof.
  destruct bell_ok as (H1 & H2 & H3 & _). destruct bell_z as (Z0 & Z1 & Z2). split; [|split; [|split]].
  - pose proof (measure_one 3 _ _ _ 2 H1 H2 H3 ltac:(lia)) as M. rewrite Z2 in M. exact M.
  - pose proof (measure_list 3 _ _ _ [2; 1] H1 H2 H3 ltac:(discriminate) ltac:(cbn; intros; lia)) as M. cbn [map] in M. rewrite Z1, Z2 in M. exact M.
  - pose proof (proj1 (measure_zero 3 _ _ _ H1 H2 H3)) as M. cbn [map seq] in M. rewrite Z0, Z1, Z2 in M. exact M.
  - apply (proj1 (measure_bad_q 3 bell_vec 3 ltac:(lia))). lia.
Qed.
Ltac kid b B H := f_equal; destruct b; auto; exfalso; assert (H := proj1 B eq_refl).
Lemma Cabs_1 : forall z, Cnorm2 z = 1%R -> Cabs z = 1%R.
Proof. intros z H. unfold Cabs. rewrite H. apply sqrt_1. Qed.
Lemma Cabs_2 : forall z, Cnorm2 z = 4%R -> Cabs z = 2%R.
Proof. intros z H. unfold Cabs. rewrite H. replace 4%R with (2 * 2)%R by ring. apply sqrt_square. lra. Qed.
Lemma predicates_run : IsUnitary (mkT [2; 2] [RtoC 0; Ci; Ci; RtoC 0]) = Ok true /\ IsUnitary (mkT [2; 2] [RtoC 0; Ci; RtoC 1; RtoC 1]) = Ok false /\
  IsHermitian (mkT [2; 2] [RtoC 1; Ci; Copp Ci; RtoC 0]) = Ok true /\ IsHermitian (mkT [2; 2] [RtoC 0; Ci; Ci; RtoC 0]) = Ok false /\
  IsNormalized (mkT [2] [RtoC 0; Ci]) = Ok true /\ IsNormalized (mkT [2] [RtoC 1; Ci]) = Ok false.
Proof.
  split; [|split; [|split; [|split; [|split]]]].
  - apply (IsUnitary_exact 2); [reflexivity|]. intros [|[|i]] [|[|k]] A B; try lia; unfold row_dot; cbn; ceq; cbn; ring.
  - destruct (IsUnitary_char 2 (mkT (SC := C_scalar) [2; 2] [RtoC 0; Ci; RtoC 1; RtoC 1]) eq_refl) as (b & -> & B). kid b B H. destruct H as [H _]. specialize (H 1 ltac:(lia)). unfold Cnorm2 in H. cbn in H.
    unfold Rabs in H; destruct (Rcase_abs _) in H; lra.
  - apply (IsHermitian_exact 2); [reflexivity|]. intros [|[|i]] [|[|k]] A B; try lia; cbn; ceq; cbn; ring.
  - destruct (IsHermitian_char 2 (mkT (SC := C_scalar) [2; 2] [RtoC 0; Ci; Ci; RtoC 0]) eq_refl) as (b & -> & B). kid b B H. specialize (H 0 1 ltac:(lia) ltac:(lia)). rewrite Cabs_2 in H; [lra|]. unfold Cnorm2. cbn. ring.
  - apply (IsNormalized_exact 2); [reflexivity|]. unfold Cnorm2. cbn. ring.
  - destruct (IsNormalized_char 2 (mkT (SC := C_scalar) [2] [RtoC 1; Ci]) ltac:(lia) eq_refl) as (b & -> & B). kid b B H. unfold Cnorm2 in H. cbn in H. unfold Rabs in H; destruct (Rcase_abs _) in H; lra.
Qed.
