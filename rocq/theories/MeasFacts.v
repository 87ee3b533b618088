(** Lemmas: real sums, expval, measure. *)
From Coq Require Import List ZArith QArith Qreals Reals Lra Lia Bool Arith.
From Verif Require Import PyBase Scalar CInst BigSum Index Tensor TensorFacts Spec SpecFacts QMath QTN QOperator QGates QMathC GateSpec GateCalls GateFacts2 GateFacts5 GateProofs StateFacts PTSpec PTFacts2 MeasSpec.
Import ListNotations.
Local Close Scope Q_scope.
Local Close Scope R_scope.
Local Open Scope nat_scope.

Lemma rsum_ext : forall A (l : list A) f g, (forall a, In a l -> f a = g a) -> rsum l f = rsum l g.
Proof. induction l as [|a l IH]; intros f g H; cbn; auto. rewrite H by (now left). f_equal. apply IH. intros; apply H; now right. Qed.
Lemma rsum_le : forall A (l : list A) f g, (forall a, In a l -> (f a <= g a)%R) -> (rsum l f <= rsum l g)%R.
Proof. induction l as [|a l IH]; intros f g H; cbn; [lra|]. pose proof (H a (or_introl eq_refl)). pose proof (IH f g (fun b Hb => H b (or_intror Hb))). lra. Qed.
Lemma rsum_opp : forall A (l : list A) f, rsum l (fun a => - f a)%R = (- rsum l f)%R.
Proof. induction l as [|a l IH]; intros f; cbn; [lra|]. rewrite IH. lra. Qed.
Lemma Re_bigsum_rsum : forall A (l : list A) (f : A -> C), Re (bigsum (SC := C_scalar) l f) = rsum l (fun a => Re (f a)).
Proof. induction l as [|a l IH]; intros f; [reflexivity|]. rewrite bigsum_cons. cbn [rsum]. rewrite <- IH. reflexivity. Qed.
Lemma Im_bigsum_rsum : forall A (l : list A) (f : A -> C), Im (bigsum (SC := C_scalar) l f) = rsum l (fun a => Im (f a)).
Proof. induction l as [|a l IH]; intros f; [reflexivity|]. rewrite bigsum_cons. cbn [rsum]. rewrite <- IH. reflexivity. Qed.
Lemma rsum_0 : forall A (l : list A), rsum l (fun _ => 0%R) = 0%R.
Proof. induction l; cbn; lra. Qed.
Lemma rloop_rsum : forall n f, rloop n f = rsum (seq 0 n) f.
Proof.
  intros n f. unfold rloop. assert (G : forall l s, fold_left (fun s i => (s + f i)%R) l s = (s + rsum l f)%R).
  { induction l as [|a l IH]; intros s; cbn; [lra|]. rewrite IH. lra. }
  rewrite G. lra.
Qed.
Lemma Cabs_nonneg : forall z, (0 <= Cabs z)%R.
Proof. intros. apply sqrt_pos. Qed.
Lemma abs2_norm : forall z, abs2 z = Cnorm2 z.
Proof. intros z. unfold abs2, Cabs. apply sqrt_sqrt, Cnorm2_nonneg. Qed.

(** Z on one qubit *)
Lemma Z_diag : forall n i r c, In r (bits n) -> In c (bits n) -> i < n -> lift Z_op [i] r c = if list_eq_dec Nat.eq_dec r c then RtoC (zsign i r) else RtoC 0.
Proof.
  intros n i r c Hr Hc Hi. unfold lift. pose proof (bits_length _ _ Hr) as Lr. pose proof (bits_length _ _ Hc) as Lc. unfold zsign.
  destruct (list_eq_dec Nat.eq_dec r c) as [->|N].
  - rewrite same_off_refl. unfold rd. cbn [map]. apply in_bits in Hc. destruct Hc as [_ B]. specialize (B i Hi). destruct (nth i c 0) as [|[|]]; [| |lia]; cbn; ceq; lra.
  - destruct (same_off [i] r c) eqn:E; [|reflexivity]. unfold rd. cbn [map].
    assert (X : nth i r 0 <> nth i c 0).
    { intros X. apply N. apply (same_off_rd_eq n [i]); auto; [split; [repeat constructor; auto|intros w [<-|[]]; auto]|]. unfold rd. cbn. now rewrite X. }
    apply in_bits in Hr, Hc. destruct Hr as [_ B1], Hc as [_ B2]. specialize (B1 i Hi). specialize (B2 i Hi). destruct (nth i r 0) as [|[|]], (nth i c 0) as [|[|]]; try lia; reflexivity.
Qed.

Lemma expval_vec : forall n s t psi m M, is_state n s t psi -> wf t -> is_op n m M -> expval t m false = Ok (Re (inner n psi (act n M psi))).
Proof.
  intros n s t psi m M Ht W Hm. apply is_op_eq in Hm. subst m. unfold expval. rewrite (view_col n s t psi Ht W). cbn [bind].
  assert (D : dag (col n psi) = Ok (tconj (row n psi))).
  { unfold dag. unfold col at 1. cbn [shape tbuild length Nat.eqb negb raise_if]. unfold col. rewrite tconj_tbuild. change [1%Z; 0%Z] with (map Z.of_nat [1; 0]). rewrite permute_tbuild by (cbn; apply Permutation.perm_swap).
    unfold row. rewrite tconj_tbuild. reflexivity. }
  rewrite D. cbn [bind]. destruct (quad n psi M) as [Q1 Q2]. rewrite Q1. cbn [bind]. rewrite row_col. cbn [bind diag shape]. rewrite Q2. cbn. reflexivity.
Qed.
Lemma expval_rho : forall n t A m M, is_op n t A -> is_op n m M -> expval t m true = if Cabsgt (Csub (trace_op n A) (RtoC 1)) (1 # 10000) then Err ValueError else Ok (Re (trace_op n (mul_op n A M))).
Proof.
  intros n t A m M Ht Hm. apply is_op_eq in Ht, Hm. subst t m. unfold expval. rewrite trace_op_tensor. cbn [bind]. destruct (Cabsgt _ _); cbn [raise_if]; auto.
  rewrite matmul_op. cbn [bind]. rewrite trace_op_tensor. reflexivity.
Qed.

Lemma Z_inner : forall n psi i, i < n -> Re (inner n psi (act n (lift Z_op [i]) psi)) = zmean n psi i.
Proof.
  intros n psi i Hi. unfold inner, zmean. rewrite Re_bigsum_rsum. apply rsum_ext. intros b Hb. unfold act.
  rewrite (bigsum_single (SC := C_scalar) _ _ b); [|apply bits_NoDup|auto|].
  - rewrite (Z_diag n) by auto. destruct (list_eq_dec Nat.eq_dec b b); [|congruence]. unfold Re, Cnorm2. cbn. ring.
  - intros c Hc N. rewrite (Z_diag n) by auto. destruct (list_eq_dec Nat.eq_dec b c); [congruence|]. ceq; ring.
Qed.
Lemma Z_trace : forall n A i, i < n -> Re (trace_op n (mul_op n A (lift Z_op [i]))) = zmean_rho n A i.
Proof.
  intros n A i Hi. unfold trace_op, zmean_rho. rewrite Re_bigsum_rsum. apply rsum_ext. intros b Hb. unfold mul_op.
  rewrite (bigsum_single (SC := C_scalar) _ _ b); [|apply bits_NoDup|auto|].
  - rewrite (Z_diag n) by auto. destruct (list_eq_dec Nat.eq_dec b b); [|congruence]. unfold Re. cbn. ring.
  - intros c Hc N. rewrite (Z_diag n) by auto. destruct (list_eq_dec Nat.eq_dec c b); [congruence|]. ceq; ring.
Qed.

(** the list of observables *)
Lemma Z_gate : forall n i, i < n -> (do g <- PauliZ (Z.of_nat n) (WInt (Z.of_nat i)); U_expand g) = Ok (op_tensor n (lift Z_op [i])).
Proof.
  intros n i Hi. change (PauliZ (Z.of_nat n) (WInt (Z.of_nat i))) with (build n (gi_Z i)). rewrite build_ok. cbn [bind]. apply (U_expand_obj n (gi_Z i)).
  split; [|exact I]. split; [repeat constructor; auto|intros w [<-|[]]; auto].
Qed.
(** the qubits an argument [ith] stands for *)
Definition ith_list (n : nat) (a : ith_arg) : list Z := match a with INone | IInt 0%Z | IList [] => zrange n | IInt i => [i] | IList l => l end.
Lemma Zmeasure_ok : forall n a qs, ith_list n a = map Z.of_nat qs -> (forall q, In q qs -> q < n) -> Zmeasure (Z.of_nat n) a = Ok (map (fun q => op_tensor n (lift Z_op [q])) qs).
Proof.
  intros n a qs E H.
  assert (G : mmap (fun i => do g <- PauliZ (Z.of_nat n) (WInt i); U_expand g) (map Z.of_nat qs) = Ok (map (fun q => op_tensor n (lift Z_op [q])) qs)).
  { rewrite mmap_map. apply mmap_Ok_ext. intros q Hq. apply Z_gate; auto. }
  unfold Zmeasure. destruct a as [|z|l]; cbn [ith_list] in E.
  - rewrite Nat2Z.id, E. exact G.
  - destruct z; [rewrite Nat2Z.id, E; exact G| |]; rewrite <- E in G; cbn [mmap] in G; destruct (bind (PauliZ _ _) _); cbn [bind] in *; auto.
  - destruct l; [rewrite Nat2Z.id, E; exact G|]. rewrite E. exact G.
Qed.
Lemma Z_gate_bad : forall n z, (z < 0 \/ Z.of_nat n <= z)%Z -> (do g <- PauliZ (Z.of_nat n) (WInt z); U_expand g) = Err ValueError.
Proof.
  intros n z B. destruct (PauliZ (Z.of_nat n) (WInt z)) as [g|e] eqn:E; [|discriminate E]. cbn [bind]. apply (single_rejects g z); [eapply con_Z; exact E| | |];
    unfold PauliZ in E; cbn [bind] in E; inversion E; subst; cbn; auto.
Qed.
Lemma Zmeasure_bad : forall n a z, In z (ith_list n a) -> (z < 0 \/ Z.of_nat n <= z)%Z -> Zmeasure (Z.of_nat n) a = Err ValueError.
Proof.
  intros n a z Hz B.
  assert (M : forall l, In z l -> mmap (fun i => do g <- PauliZ (Z.of_nat n) (WInt i); U_expand g) l = Err ValueError).
  { induction l as [|x l IH]; intros Hl; [destruct Hl|]. cbn [mmap]. destruct (Z_lt_dec x 0) as [X|X]; [rewrite Z_gate_bad by auto; reflexivity|].
    destruct (Z_le_dec (Z.of_nat n) x) as [Y|Y]; [rewrite Z_gate_bad by auto; reflexivity|].
    pose proof (Z_gate n (Z.to_nat x)) as G. rewrite Z2Nat.id in G by lia. rewrite G by lia. cbn [bind]. destruct Hl as [->|Hl]; [lia|]. now rewrite (IH Hl). }
  unfold Zmeasure. destruct a as [|i|l]; cbn [ith_list] in Hz.
  - rewrite Nat2Z.id. auto.
  - destruct i; [rewrite Nat2Z.id; auto| |]; destruct Hz as [->|[]]; rewrite Z_gate_bad by auto; reflexivity.
  - destruct l; [rewrite Nat2Z.id; auto|]. auto.
Qed.
Lemma measure_bad : forall n t a z, In z (ith_list n a) -> (z < 0 \/ Z.of_nat n <= z)%Z -> measure (Z.of_nat n) t a = Err ValueError.
Proof. intros n t a z H B. unfold measure. now rewrite (Zmeasure_bad n a z H B). Qed.

Lemma pow2_not1 : forall n, 0 < n -> 2 ^ n <> 1.
Proof. intros n H E. destruct n; [lia|]. cbn in E. pose proof (pow2_pos n). lia. Qed.
Lemma squeeze_vec : forall n s t psi, is_state n s t psi -> wf t -> vector_shape n s -> is_state n [2 ^ n] (squeeze t) psi /\ wf (squeeze t).
Proof.
  intros n s t psi (E1 & E2 & E3) W F. unfold squeeze. rewrite E1, F. split.
  - split; [reflexivity|]. split; auto.
  - unfold wf. cbn [shape data]. rewrite E2. unfold prodn. cbn [fold_right]. lia.
Qed.
Lemma measure_vec : forall n s t psi a qs, is_state n s t psi -> wf t -> vector_shape n s -> ith_list n a = map Z.of_nat qs -> (forall q, In q qs -> q < n) ->
  measure (Z.of_nat n) t a = Ok (map (zmean n psi) qs).
Proof.
  intros n s t psi a qs Ht W F E H. destruct (squeeze_vec n s t psi Ht W F) as [S1 S2]. unfold measure. rewrite (Zmeasure_ok n a qs E H). cbn [bind].
  rewrite (proj1 S1). cbn [length Nat.eqb negb]. rewrite mmap_map. apply mmap_Ok_ext. intros q Hq.
  rewrite (expval_vec n _ _ psi _ (lift Z_op [q]) S1 S2) by apply is_op_tensor. now rewrite Z_inner by auto.
Qed.
Lemma measure_rho : forall n t A a qs, 0 < n -> is_op n t A -> Cabsgt (Csub (trace_op n A) (RtoC 1)) (1 # 10000) = false -> ith_list n a = map Z.of_nat qs -> (forall q, In q qs -> q < n) ->
  measure (Z.of_nat n) t a = Ok (map (zmean_rho n A) qs).
Proof.
  intros n t A a qs Hn Ht T E H. unfold measure. rewrite (Zmeasure_ok n a qs E H). cbn [bind].
  assert (S : squeeze t = t).
  { unfold squeeze. destruct t as [s d]. destruct Ht as (E1 & _). cbn in *. subst s. f_equal. cbn. pose proof (pow2_not1 n Hn) as N. apply Nat.eqb_neq in N. rewrite N. reflexivity. }
  rewrite S. replace (shape t) with [2 ^ n; 2 ^ n] by (symmetry; apply Ht). cbn [length Nat.eqb negb]. rewrite mmap_map. apply mmap_Ok_ext. intros q Hq.
  rewrite (expval_rho n t A _ (lift Z_op [q]) Ht) by apply is_op_tensor. rewrite T. now rewrite Z_trace by auto.
Qed.

Lemma zsign_cases : forall i b, zsign i b = 1%R \/ zsign i b = (-1)%R.
Proof. intros. unfold zsign. destruct (_ =? 0); auto. Qed.
Lemma zmean_bound : forall n psi i, (- norm2 n psi <= zmean n psi i <= norm2 n psi)%R.
Proof.
  intros. unfold norm2, zmean. split; [rewrite <- rsum_opp|]; apply rsum_le; intros b _; pose proof (Cnorm2_nonneg (psi b)); destruct (zsign_cases i b) as [->| ->]; lra.
Qed.
Lemma zmean_rho_bound : forall n A i, (forall b, In b (bits n) -> (0 <= Re (A b b))%R) -> (- Re (trace_op n A) <= zmean_rho n A i <= Re (trace_op n A))%R.
Proof.
  intros n A i H. unfold trace_op, zmean_rho. rewrite Re_bigsum_rsum. split; [rewrite <- rsum_opp|]; apply rsum_le; intros b Hb; pose proof (H b Hb); destruct (zsign_cases i b) as [->| ->]; lra.
Qed.
Lemma outer_diag : forall psi b, Re (outer psi b b) = Cnorm2 (psi b).
Proof. intros. unfold outer, Re, Cnorm2. cbn. ring. Qed.
Lemma zmean_outer : forall n psi i, zmean_rho n (outer psi) i = zmean n psi i.
Proof. intros. apply rsum_ext. intros. now rewrite outer_diag. Qed.
Lemma trace_outer : forall n psi, trace_op n (outer psi) = RtoC (norm2 n psi).
Proof.
  intros. unfold trace_op. apply C_eq.
  - rewrite Re_bigsum_rsum. apply rsum_ext. intros. apply outer_diag.
  - rewrite Im_bigsum_rsum. transitivity (rsum (bits n) (fun _ => 0%R)); [|rewrite rsum_0; reflexivity]. apply rsum_ext. intros. unfold outer, Im. cbn. ring.
Qed.
Lemma zmean_basis : forall n i b, In b (bits n) -> zmean n (ket b) i = zsign i b.
Proof.
  intros n i b Hb. unfold zmean, ket.
  assert (G : forall l, NoDup l -> rsum l (fun r => zsign i r * Cnorm2 (if list_eq_dec Nat.eq_dec r b then RtoC 1 else RtoC 0))%R = if in_dec (list_eq_dec Nat.eq_dec) b l then zsign i b else 0%R).
  { induction l as [|a l IH]; intros ND; [reflexivity|]. inversion ND as [|x y Na Nl]; subst. cbn [rsum]. rewrite IH by auto.
    destruct (list_eq_dec Nat.eq_dec a b) as [->|N].
    - destruct (in_dec _ b l); [contradiction|]. destruct (in_dec _ b (b :: l)) as [|F]; [|exfalso; apply F; now left]. unfold Cnorm2. cbn. ring.
    - assert (Z0 : Cnorm2 (RtoC 0) = 0%R) by (unfold Cnorm2; cbn; ring). rewrite Z0. destruct (in_dec _ b l), (in_dec _ b (a :: l)) as [[|]|F]; try ring; try congruence; try contradiction. exfalso. apply F. now right. }
  rewrite G by apply bits_NoDup. destruct (in_dec _ b (bits n)); [reflexivity|contradiction].
Qed.

(** the three predicates *)
Lemma rabsgt_false : forall r q, rabsgt r q = false <-> (Rabs r <= Q2R q)%R.
Proof. intros. unfold rabsgt. destruct (Rlt_dec _ _); split; intros; try discriminate; try lra; auto. Qed.
Lemma Cabsgt_false : forall z q, Cabsgt z q = false <-> (Cabs z <= Q2R q)%R.
Proof. intros. unfold Cabsgt. destruct (Rlt_dec _ _); split; intros; try discriminate; try lra; auto. Qed.
Lemma fold_left_bigsum : forall A (l : list A) (f : A -> C) s, fold_left (fun s i => Cadd s (f i)) l s = Cadd s (bigsum (SC := C_scalar) l f).
Proof. induction l as [|a l IH]; intros f s; cbn [fold_left]. - rewrite bigsum_nil. ceq; ring. - rewrite IH, bigsum_cons. ceq; cbn; ring. Qed.

Lemma IsUnitary_iff : forall n t, shape t = [n; n] -> exists b, IsUnitary t = Ok b /\
  (b = true <-> (forall i, i < n -> (Rabs (rsum (seq 0 n) (fun j => Cnorm2 (tget t [i; j])) - 1) <= Q2R (1 # 1000000))%R) /\
                (forall i k, i < n -> k < n -> i <> k -> (Cabs (row_dot n t i k) <= Q2R (1 # 1000000))%R)).
Proof.
  intros n t S. unfold IsUnitary. rewrite S, Nat.eqb_refl. cbn [negb raise_if]. eexists. split; [reflexivity|]. rewrite andb_true_iff, !forallb_forall.
  assert (N : forall i, rloop n (fun j => abs2 (tget t [i; j])) = rsum (seq 0 n) (fun j => Cnorm2 (tget t [i; j]))).
  { intros. rewrite rloop_rsum. apply rsum_ext. intros. apply abs2_norm. }
  assert (D : forall i k, fold_left (fun s j => Cadd s (Cmul (tget t [i; j]) (Cconj (tget t [k; j])))) (seq 0 n) (RtoC 0) = row_dot n t i k).
  { intros. rewrite fold_left_bigsum. unfold row_dot. ceq; cbn; ring. }
  split.
  - intros [H1 H2].
    assert (Lt : forall i k, i < k -> k < n -> (Cabs (row_dot n t i k) <= Q2R (1 # 1000000))%R).
    { intros i k A B. assert (I : In i (seq 0 (n - 1))) by (apply in_seq; lia). specialize (H2 i I). rewrite forallb_forall in H2. specialize (H2 k). rewrite D in H2. apply Cabsgt_false, negb_true_iff, H2, in_seq. lia. }
    split.
    + intros i Hi. rewrite <- N. apply rabsgt_false, negb_true_iff, H1, in_seq. lia.
    + intros i k A B C. destruct (Nat.lt_ge_cases i k) as [E|E]; [apply Lt; auto|]. replace (row_dot n t i k) with (Cconj (row_dot n t k i)).
      * replace (Cabs (Cconj (row_dot n t k i))) with (Cabs (row_dot n t k i)); [apply Lt; lia|]. unfold Cabs. f_equal. unfold Cnorm2. cbn. ring.
      * unfold row_dot. change Cconj with (@kconj C_scalar) at 1. rewrite bigsum_conj. apply (bigsum_ext (SC := C_scalar)). intros j _. ceq; cbn; ring.
  - intros [H1 H2]. split.
    + intros i Hi. apply in_seq in Hi. apply negb_true_iff, rabsgt_false. rewrite N. apply H1. lia.
    + intros i Hi. apply in_seq in Hi. apply forallb_forall. intros k Hk. apply in_seq in Hk. apply negb_true_iff, Cabsgt_false. rewrite D. apply H2; lia.
Qed.
Lemma IsNormalized_iff : forall n t, 0 < n -> shape t = [n] -> exists b, IsNormalized t = Ok b /\
  (b = true <-> (Rabs (rsum (seq 0 n) (fun i => Cnorm2 (tget t [i])) - 1) <= Q2R (1 # 1000000))%R).
Proof.
  intros n t H S. unfold IsNormalized. rewrite S. destruct (Nat.eqb_spec n 0); [lia|]. eexists. split; [reflexivity|].
  rewrite rloop_rsum. erewrite rsum_ext by (intros; apply abs2_norm). rewrite negb_true_iff. apply rabsgt_false.
Qed.
Lemma Cabs_sub_sym : forall a b, Cabs (Csub a (Cconj b)) = Cabs (Csub b (Cconj a)).
Proof. intros. unfold Cabs. f_equal. unfold Cnorm2. cbn. ring. Qed.
Lemma IsHermitian_iff : forall n t, shape t = [n; n] -> exists b, IsHermitian t = Ok b /\
  (b = true <-> forall i j, i < n -> j < n -> (Cabs (Csub (tget t [i; j]) (Cconj (tget t [j; i]))) <= Q2R (1 # 1000000))%R).
Proof.
  intros n t S. unfold IsHermitian. rewrite S, Nat.eqb_refl. cbn [negb raise_if]. eexists. split; [reflexivity|]. rewrite forallb_forall. split.
  - intros H. assert (Le : forall i j, i <= j -> j < n -> (Cabs (Csub (tget t [i; j]) (Cconj (tget t [j; i]))) <= Q2R (1 # 1000000))%R).
    { intros i j A B. assert (I : In i (seq 0 n)) by (apply in_seq; lia). specialize (H i I). rewrite forallb_forall in H. apply Cabsgt_false, negb_true_iff, H, in_seq. lia. }
    intros i j A B. destruct (Nat.le_ge_cases i j); [apply Le; auto|]. rewrite Cabs_sub_sym. apply Le; auto.
  - intros H i Hi. apply in_seq in Hi. apply forallb_forall. intros j Hj. apply in_seq in Hj. apply negb_true_iff, Cabsgt_false, H; lia.
Qed.

Lemma Cabs_0 : Cabs (RtoC 0) = 0%R.
Proof. unfold Cabs. replace (Cnorm2 (RtoC 0)) with 0%R by (unfold Cnorm2; cbn; ring). apply sqrt_0. Qed.
Lemma tol_pos : (0 <= Q2R (1 # 1000000))%R.
Proof. unfold Q2R. cbn. lra. Qed.
Lemma IsHermitian_exact : forall n t, shape t = [n; n] -> (forall i j, i < n -> j < n -> tget t [i; j] = Cconj (tget t [j; i])) -> IsHermitian t = Ok true.
Proof.
  intros n t S H. destruct (IsHermitian_iff n t S) as (b & -> & B). f_equal. apply B. intros i j A D. rewrite (H i j A D). replace (Csub _ _) with (RtoC 0) by (ceq; cbn; ring). rewrite Cabs_0. apply tol_pos.
Qed.
Lemma IsUnitary_exact : forall n t, shape t = [n; n] -> (forall i k, i < n -> k < n -> row_dot n t i k = if i =? k then RtoC 1 else RtoC 0) -> IsUnitary t = Ok true.
Proof.
  intros n t S H. destruct (IsUnitary_iff n t S) as (b & -> & B). f_equal. apply B. split.
  - intros i A. specialize (H i i A A). rewrite Nat.eqb_refl in H. apply (f_equal Re) in H. unfold row_dot in H. rewrite Re_bigsum_rsum in H.
    replace (rsum _ _) with 1%R; [rewrite Rminus_diag_eq by auto; rewrite Rabs_R0; apply tol_pos|]. symmetry. etransitivity; [|exact H]. apply rsum_ext. intros. unfold Re, Cnorm2. cbn. ring.
  - intros i k A D N. rewrite (H i k A D). apply Nat.eqb_neq in N. rewrite N, Cabs_0. apply tol_pos.
Qed.
Lemma IsNormalized_exact : forall n t, shape t = [n] -> rsum (seq 0 n) (fun i => Cnorm2 (tget t [i])) = 1%R -> IsNormalized t = Ok true.
Proof.
  intros n t S H. destruct n as [|n]; [cbn in H; lra|]. destruct (IsNormalized_iff (Datatypes.S n) t) as (b & -> & B); [lia|auto|]. f_equal. apply B. rewrite H, Rminus_diag_eq by auto. rewrite Rabs_R0. apply tol_pos.
Qed.

(** matrices of operators *)
Lemma tget_op : forall n t A i j, is_op n t A -> i < 2 ^ n -> j < 2 ^ n -> tget t [i; j] = A (bitsof n i) (bitsof n j).
Proof. intros n t A i j H Hi Hj. apply is_op_eq in H. subst t. unfold op_tensor. rewrite tget_tbuild; [reflexivity|]. repeat (apply valid_cons; split; [lia|]). constructor. Qed.
Lemma bits_eqb : forall n i k, i < 2 ^ n -> k < 2 ^ n -> (if list_eq_dec Nat.eq_dec (bitsof n i) (bitsof n k) then RtoC 1 else RtoC 0) = if i =? k then RtoC 1 else RtoC 0.
Proof.
  intros n i k Hi Hk. destruct (Nat.eqb_spec i k) as [->|N]; destruct (list_eq_dec _ _ _) as [E|E]; auto; try congruence.
  exfalso. apply N. apply (f_equal bval) in E. now rewrite !bval_bitsof in E.
Qed.
Lemma row_dot_op : forall n t A i k, is_op n t A -> i < 2 ^ n -> k < 2 ^ n -> row_dot (2 ^ n) t i k = mul_op n A (adj_op A) (bitsof n i) (bitsof n k).
Proof.
  intros n t A i k H Hi Hk. unfold row_dot, mul_op, adj_op. rewrite bits_map, bigsum_map. apply (bigsum_ext (SC := C_scalar)). intros j Hj. apply in_seq in Hj.
  rewrite !(tget_op n t A) by (auto; lia). reflexivity.
Qed.
Lemma IsUnitary_op : forall n t A, is_op n t A -> unitary n A -> IsUnitary t = Ok true.
Proof.
  intros n t A H [_ U]. apply (IsUnitary_exact (2 ^ n)); [apply H|]. intros i k Hi Hk. rewrite (row_dot_op n t A) by auto. rewrite U by (apply bitsof_in; auto). apply bits_eqb; auto.
Qed.
Lemma IsHermitian_op : forall n t A, is_op n t A -> (forall r c, In r (bits n) -> In c (bits n) -> A r c = Cconj (A c r)) -> IsHermitian t = Ok true.
Proof.
  intros n t A H S. apply (IsHermitian_exact (2 ^ n)); [apply H|]. intros i j Hi Hj. rewrite !(tget_op n t A) by auto. apply S; apply bitsof_in; auto.
Qed.
Lemma rsum_map : forall A B (l : list A) (g : A -> B) f, rsum (map g l) f = rsum l (fun a => f (g a)).
Proof. induction l; intros; cbn; auto. now rewrite IHl. Qed.
Lemma IsNormalized_state : forall n t psi, is_state n [2 ^ n] t psi -> norm2 n psi = 1%R -> IsNormalized t = Ok true.
Proof.
  intros n t psi (H1 & H2 & H3) N. apply (IsNormalized_exact (2 ^ n)); auto. rewrite <- N. unfold norm2. rewrite bits_map, rsum_map. apply rsum_ext. intros i Hi. apply in_seq in Hi.
  rewrite <- H3 by (apply bitsof_in; lia). f_equal. unfold amp. rewrite bval_bitsof by lia. destruct t as [s d]. cbn [shape data] in *. subst s. unfold tget. cbn. f_equal. lia.
Qed.
Lemma gates_IsUnitary : forall n g, gi_ok n g -> exists o t, build n g = Ok o /\ U_expand o = Ok t /\ IsUnitary t = Ok true.
Proof.
  intros n g H. destruct (gate_unitary n g H) as (o & t & B & U & S & W & X). exists o, t. split; auto. split; auto. apply (IsUnitary_op n t (op_of t)); auto. split; auto. split; auto. intros r c _ _. reflexivity.
Qed.
