(** Lemmas: sequences of gates as operators; single-qubit layers. *)
From Coq Require Import List ZArith QArith Reals Lra Lia ZifyBool Bool Arith Ring Setoid Morphisms.
From Verif Require Import PyBase Scalar CInst BigSum Index Tensor TensorFacts Spec SpecFacts QMath QTN QOperator
  ExpandFacts ExpandFacts2 ContractFacts ContractFacts2 GateSpec QGates GateCalls GateFacts GateFacts2 GateFacts3 GateFacts4 RunSpec
  MPSSpec MPSFacts1 MPSFacts2 MPSFacts4 MPSFacts5 MPSFacts6 MPSFacts8 MPSFacts9 LayerSpec QLayers LayerCalls.
Import ListNotations.
Local Close Scope Q_scope.
Local Close Scope R_scope.
Local Open Scope nat_scope.

Section Generic.
  Context {SC : Scalar}.
  Add Ring KR : k_ring.
  Local Open Scope k_scope.

  Lemma prod_of_S : forall n F x y r c, prod_of (S n) F (x :: r) (y :: c) = F 0%nat [x] [y] * prod_of n (fun i => F (S i)) r c.
  Proof. intros. unfold prod_of. rewrite bigprod_seq_shift. reflexivity. Qed.

  Lemma prod_mul : forall n F G, op_eq n (mul_op n (prod_of n F) (prod_of n G)) (prod_of n (fun i => mul_op 1 (F i) (G i))).
  Proof.
    induction n as [|n IH]; intros F G r c Hr Hc.
    - destruct Hr as [<-|[]], Hc as [<-|[]]. unfold mul_op, prod_of. cbn. ring.
    - destruct r as [|x r]; [apply bits_length in Hr; discriminate|]. destruct c as [|y c]; [apply bits_length in Hc; discriminate|].
      apply bits_cons in Hr, Hc. destruct Hr as [Hx Hr], Hc as [Hy Hc].
      rewrite prod_of_S. rewrite <- (IH (fun i => F (S i)) (fun i => G (S i)) r c Hr Hc). unfold mul_op at 1 3.
      rewrite bigsum_bits_S. unfold mul_op. rewrite bigsum_bits_1.
      set (S0 := bigsum (bits n) (fun m => prod_of n (fun i => F (S i)) r m * prod_of n (fun i => G (S i)) m c)).
      transitivity (F 0%nat [x] [0%nat] * G 0%nat [0%nat] [y] * S0 + F 0%nat [x] [1%nat] * G 0%nat [1%nat] [y] * S0); [|ring].
      unfold S0. rewrite <- !bigsum_mul_l.
      f_equal; apply bigsum_ext; intros m _; rewrite !prod_of_S; ring.
  Qed.

  Lemma mul_op_id1 : forall A, op_eq 1 (mul_op 1 A id_op) A. Proof. intros. apply mul_op_id_r. Qed.

  Lemma prod_upd : forall n Fs w G, length Fs = n -> (w < n)%nat -> fac Fs w = id_op ->
    op_eq n (prod_of n (fac (set_nth w G Fs))) (mul_op n (lift G [w]) (prod_of n (fac Fs))).
  Proof.
    intros n Fs w G L Hw Hi. rewrite <- (prod_of_1 n G w (fun i => if (i =? w)%nat then G else id_op) Hw) by auto.
    rewrite prod_mul. apply prod_of_ext. intros i Hn. rewrite fac_set by lia. destruct (i =? w)%nat eqn:E.
    - apply Nat.eqb_eq in E. subst. rewrite Hi. symmetry. apply mul_op_id_r.
    - symmetry. apply mul_op_id_l.
  Qed.

  Lemma obs_op_gen : forall n ws As B,
    op_eq n (fold_left (fun B (wa : nat * qop) => mul_op n (lift (snd wa) [fst wa]) B) (combine ws As) B) (mul_op n (obs_op n ws As) B).
  Proof.
    intros n. unfold obs_op. induction ws as [|w ws IH]; intros [|A As] B; cbn [combine fold_left]; try (symmetry; apply mul_op_id_l).
    rewrite (IH As (mul_op n (lift (snd (w, A)) [fst (w, A)]) B)), (IH As (mul_op n (lift (snd (w, A)) [fst (w, A)]) id_op)).
    now rewrite mul_op_id_r, mul_op_assoc.
  Qed.
  Lemma obs_op_cons : forall n w ws A As, op_eq n (obs_op n (w :: ws) (A :: As)) (mul_op n (obs_op n ws As) (lift A [w])).
  Proof. intros. unfold obs_op at 1. cbn [combine fold_left fst snd]. rewrite obs_op_gen. now rewrite mul_op_id_r. Qed.

  (** the factor list of a single-qubit layer *)
  Definition lfac (ws : list nat) (Gs : list qop) (Fs : list qop) : list qop :=
    fold_left (fun l (wg : nat * qop) => set_nth (fst wg) (snd wg) l) (combine ws Gs) Fs.

  Lemma lfac_length : forall ws Gs Fs, length (lfac ws Gs Fs) = length Fs.
  Proof. induction ws; intros [|G Gs] Fs; cbn; auto. unfold lfac in IHws. rewrite IHws. apply set_nth_length. Qed.

  Lemma lfac_prod : forall n ws Gs Fs, length Fs = n -> NoDup ws -> (forall w, In w ws -> w < n)%nat ->
    (forall w, In w ws -> fac Fs w = id_op) -> 
    op_eq n (prod_of n (fac (lfac ws Gs Fs))) (mul_op n (obs_op n ws Gs) (prod_of n (fac Fs))).
  Proof.
    intros n. induction ws as [|w ws IH]; intros [|G Gs] Fs L HN HW HF; try (cbn; symmetry; apply mul_op_id_l).
    inversion HN; subst. change (lfac (w :: ws) (G :: Gs) Fs) with (lfac ws Gs (set_nth w G Fs)).
    rewrite obs_op_cons, mul_op_assoc, <- prod_upd; [| reflexivity | apply HW; simpl; auto | apply HF; simpl; auto ].
    rewrite (IH Gs (set_nth w G Fs)); [reflexivity | apply set_nth_length | auto | intros; apply HW; simpl; auto |].
    intros v Hv. rewrite fac_set by (apply HW; simpl; auto). destruct (v =? w)%nat eqn:E; [|apply HF; simpl; auto].
    apply Nat.eqb_eq in E. subst. contradiction.
  Qed.

  Lemma lfac_obs : forall n ws Gs, good_wires n ws -> op_eq n (prod_of n (fac (lfac ws Gs (repeat id_op n)))) (obs_op n ws Gs).
  Proof.
    intros n ws Gs [H1 H2]. rewrite lfac_prod; auto.
    - rewrite (prod_of_id n (fac (repeat id_op n))). { apply mul_op_id_r. } intros; apply fac_repeat.
    - apply repeat_length.
    - intros; apply fac_repeat.
  Qed.

  Lemma lfac_out : forall ws Gs Fs w, (forall v, In v ws -> v < length Fs)%nat -> ~ In w ws -> fac (lfac ws Gs Fs) w = fac Fs w.
  Proof.
    induction ws as [|v ws IH]; intros [|G Gs] Fs w HW HI; auto. change (lfac (v :: ws) (G :: Gs) Fs) with (lfac ws Gs (set_nth v G Fs)).
    rewrite IH. 
    - rewrite fac_set by (apply HW; simpl; auto). destruct (w =? v)%nat eqn:E; auto. apply Nat.eqb_eq in E. subst. exfalso. apply HI. simpl; auto.
    - intros. rewrite set_nth_length. apply HW; simpl; auto.
    - intros X; apply HI; simpl; auto.
  Qed.
  Lemma lfac_in : forall ws Gs Fs i, length Gs = length ws -> NoDup ws -> (forall v, In v ws -> v < length Fs)%nat -> (i < length ws)%nat ->
    fac (lfac ws Gs Fs) (nth i ws 0%nat) = nth i Gs id_op.
  Proof.
    induction ws as [|v ws IH]; intros [|G Gs] Fs i HL HN HW Hi; try discriminate; cbn [length] in *; try lia.
    inversion HN; subst. change (lfac (v :: ws) (G :: Gs) Fs) with (lfac ws Gs (set_nth v G Fs)).
    assert (HW' : forall v0, In v0 ws -> (v0 < length (set_nth v G Fs))%nat) by (intros; rewrite set_nth_length; apply HW; simpl; auto).
    destruct i as [|i]; cbn [nth].
    - rewrite lfac_out by auto. rewrite fac_set by (apply HW; simpl; auto). now rewrite Nat.eqb_refl.
    - apply IH; auto; lia.
  Qed.
End Generic.

(** * Sequences of gates *)
Lemma gs_op_fold : forall n gs A, op_eq n (fold_left (fun A g => mul_op n (gi_op n g) A) gs A) (mul_op n (gs_op n gs) A).
Proof.
  intros n. unfold gs_op. induction gs as [|g gs IH]; intros A; cbn [fold_left].
  - symmetry. apply mul_op_id_l.
  - rewrite (IH (mul_op n (gi_op n g) A)), (IH (mul_op n (gi_op n g) id_op)). now rewrite mul_op_id_r, mul_op_assoc.
Qed.
Lemma gs_op_cons : forall n g gs, op_eq n (gs_op n (g :: gs)) (mul_op n (gs_op n gs) (gi_op n g)).
Proof. intros. unfold gs_op at 1. cbn [fold_left]. rewrite gs_op_fold. now rewrite mul_op_id_r. Qed.
Lemma gs_op_app : forall n g h, op_eq n (gs_op n (g ++ h)) (mul_op n (gs_op n h) (gs_op n g)).
Proof. intros. unfold gs_op at 1. rewrite fold_left_app. apply gs_op_fold. Qed.
Lemma gs_op_1 : forall n g, op_eq n (gs_op n [g]) (gi_op n g).
Proof. intros. unfold gs_op. cbn [fold_left]. apply mul_op_id_r. Qed.
Lemma gs_op_snoc : forall n g gs, op_eq n (gs_op n (gs ++ [g])) (mul_op n (gi_op n g) (gs_op n gs)).
Proof. intros. rewrite gs_op_app. now rewrite gs_op_1. Qed.

Lemma gs_unitary : forall n gs, Forall (gi_ok n) gs -> unitary n (gs_op n gs).
Proof.
  intros n gs H. induction H as [|g gs H HF IH]; [apply unitary_id|]. rewrite gs_op_cons. apply unitary_mul; auto. now apply gi_unitary.
Qed.
Lemma gs_op_rev_inv : forall n gs, Forall (gi_ok n) gs -> op_eq n (gs_op n (map gi_inv (rev gs))) (adj_op (gs_op n gs)).
Proof.
  intros n gs H. induction H as [|g gs H HF IH]; [symmetry; apply adj_id|].
  cbn [rev]. rewrite map_app. cbn [map]. rewrite gs_op_snoc, gs_op_cons, adj_mul, IH. now rewrite gi_inv_ok.
Qed.

Lemma skipn_skipn' : forall A a b (l : list A), skipn a (skipn b l) = skipn (b + a) l.
Proof. intros A a b. induction b as [|b IH]; intros l; [reflexivity|]. destruct l; [now rewrite !skipn_nil|]. cbn [skipn plus]. apply IH. Qed.
Lemma skipn_nth : forall A k (l : list A) d, k < length l -> skipn k l = nth k l d :: skipn (S k) l.
Proof. intros A. induction k as [|k IH]; intros [|x l] d H; cbn [length] in H; try lia; [reflexivity|]. cbn [skipn nth]. rewrite (IH l d) by lia. reflexivity. Qed.

(** * The matrix of each wire *)
Definition axes_op (l : list (axis * R)) : qop := fold_left (fun A ap => mul_op 1 (axis_op (fst ap) (snd ap)) A) l id_op.

Lemma axis_gate_op : forall n a t w, gi_op n (axis_gate a t w) = lift (axis_op a t) [w].
Proof. intros n [] t w; reflexivity. Qed.
Lemma axes_gates : forall n w l, (w < n) ->
  op_eq n (gs_op n (map (fun ap => axis_gate (fst ap) (snd ap) w) l)) (lift (axes_op l) [w]).
Proof.
  intros n w l Hw. pose proof (good_wires_1 n w Hw) as W. unfold axes_op.
  assert (G : forall l A, op_eq n (mul_op n (gs_op n (map (fun ap => axis_gate (fst ap) (snd ap) w) l)) (lift A [w]))
    (lift (fold_left (fun A ap => mul_op 1 (axis_op (fst ap) (snd ap)) A) l A) [w])).
  { clear l. induction l as [|[a t] l IH]; intros A; [apply mul_op_id_l|]. cbn [map fold_left]. rewrite gs_op_cons, axis_gate_op, mul_op_assoc.
    cbn [fst snd]. rewrite <- IH. apply mul_op_proper; [reflexivity|]. now rewrite (lift_mul n [w]). }
  rewrite <- G. rewrite lift_id by exact W. symmetry. apply mul_op_id_r.
Qed.

Lemma rot_gates_obs : forall n axes ws ps, (forall w, In w ws -> w < n) ->
  op_eq n (gs_op n (rot_gates axes ws ps))
    (obs_op n ws (map (fun i => axes_op (combine axes (skipn (length axes * i) ps))) (seq 0 (length ws)))).
Proof.
  intros n axes ws. induction ws as [|w ws IH]; intros ps HW; [reflexivity|].
  cbn [rot_gates length seq map]. rewrite gs_op_app, obs_op_cons, Nat.mul_0_r. cbn [skipn].
  rewrite axes_gates by (apply HW; simpl; auto). apply mul_op_proper; [|reflexivity].
  rewrite IH by (intros; apply HW; simpl; auto). rewrite <- seq_shift, map_map.
  assert (X : map (fun i => axes_op (combine axes (skipn (length axes * i) (skipn (length axes) ps)))) (seq 0 (length ws))
    = map (fun x => axes_op (combine axes (skipn (length axes * S x) ps))) (seq 0 (length ws))).
  { apply map_ext. intros i. rewrite skipn_skipn'. do 3 f_equal. lia. }
  now rewrite X.
Qed.

Lemma H_gates_obs : forall n ws, op_eq n (gs_op n (map gi_H ws)) (obs_op n ws (map (fun _ => H_op) (seq 0 (length ws)))).
Proof.
  intros n ws. induction ws as [|w ws IH]; [reflexivity|]. cbn [map length seq]. rewrite gs_op_cons, obs_op_cons, IH.
  rewrite <- seq_shift, map_map. reflexivity.
Qed.

Lemma half_rot_ok : forall a P ps k, k < length ps -> rot_m P 2 (nth k ps 0%R) = Ok (op_tensor 1 (axis_op a (nth k ps 0%R))) ->
  half_rot P ps k = Ok (op_tensor 1 (axis_op a (nth k ps 0%R))).
Proof.
  intros a P ps k H E. unfold half_rot. rewrite (py_nth_nat _ _ k 0%R) by auto. cbn [bind].
  replace (1 / 2 * nth k ps 0)%R with (nth k ps 0 / 2)%R by lra. exact E.
Qed.
Lemma half_rx : forall ps k, k < length ps -> half_rot PauliX_m ps k = Ok (op_tensor 1 (rx_op (nth k ps 0%R))).
Proof. intros. apply (half_rot_ok AX); auto. apply rx_m_ok. Qed.
Lemma half_ry : forall ps k, k < length ps -> half_rot PauliY_m ps k = Ok (op_tensor 1 (ry_op (nth k ps 0%R))).
Proof. intros. apply (half_rot_ok AY); auto. apply ry_m_ok. Qed.
Lemma half_rz : forall ps k, k < length ps -> half_rot PauliZ_m ps k = Ok (op_tensor 1 (rz_op (nth k ps 0%R))).
Proof. intros. apply (half_rot_ok AZ); auto. apply rz_m_ok. Qed.

Definition rot_ops (k : rot_kind) (ps : list R) (L : nat) : list qop :=
  map (fun i => axes_op (combine (kind_axes k) (skipn (length (kind_axes k) * i) ps))) (seq 0 L).

Lemma skipn3 : forall (ps : list R) i, i + 2 < length ps -> skipn i ps = nth i ps 0%R :: nth (i + 1) ps 0%R :: nth (i + 2) ps 0%R :: skipn (i + 3) ps.
Proof.
  intros ps i H. rewrite (skipn_nth _ i ps 0%R) by lia. rewrite (skipn_nth _ (S i) ps 0%R) by lia. rewrite (skipn_nth _ (S (S i)) ps 0%R) by lia.
  now rewrite <- !Nat.add_succ_comm, !Nat.add_0_r.
Qed.
Lemma skipn2 : forall (ps : list R) i, i + 1 < length ps -> skipn i ps = nth i ps 0%R :: nth (i + 1) ps 0%R :: skipn (i + 2) ps.
Proof.
  intros ps i H. rewrite (skipn_nth _ i ps 0%R) by lia. rewrite (skipn_nth _ (S i) ps 0%R) by lia.
  now rewrite <- !Nat.add_succ_comm, !Nat.add_0_r.
Qed.

Lemma wire_rot : forall k ps L i, length ps = length (kind_axes k) * L -> i < L ->
  wire_matrix (kind_cls k) ps i = Ok (op_tensor 1 (nth i (rot_ops k ps L) id_op)).
Proof.
  intros k ps L i HL Hi. unfold rot_ops.
  rewrite (nth_indep _ id_op (axes_op (combine (kind_axes k) (skipn (length (kind_axes k) * 0) ps)))) by (rewrite map_length, seq_length; lia).
  rewrite (map_nth (fun i => axes_op (combine (kind_axes k) (skipn (length (kind_axes k) * i) ps)))), seq_nth by lia. cbn [plus].
  destruct k; cbn [kind_axes length kind_cls wire_matrix] in *; rewrite ?Nat.add_0_r;
    (rewrite skipn3 by lia) || (rewrite skipn2 by lia); rewrite ?half_rx, ?half_ry, ?half_rz by lia; cbn [bind]; rewrite !matmul_op; cbn [bind];
    rewrite ?matmul_op; f_equal; apply op_tensor_ext; unfold axes_op; cbn [combine fold_left fst snd axis_op];
    rewrite ?mul_op_id_r; rewrite ?mul_op_assoc; reflexivity.
Qed.

Lemma wire_H : forall ps L i, i < L -> wire_matrix HLayer ps i = Ok (op_tensor 1 (nth i (map (fun _ => H_op) (seq 0 L)) id_op)).
Proof.
  intros ps L i Hi. rewrite (nth_indep _ id_op ((fun _ : nat => H_op) 0)).
  - rewrite (map_nth (fun _ : nat => H_op) (seq 0 L) 0 i). cbn [wire_matrix]. now rewrite H_m_ok.
  - now rewrite map_length, seq_length.
Qed.

(** * Single-qubit layers: one operator per wire *)
Section Base.
  Variables (wm : nat -> res tensor) (n : nat) (ws : list nat) (Gs : list qop).
  Hypothesis W : good_wires n ws.
  Hypothesis LG : length Gs = length ws.
  Hypothesis WM : forall i, i < length ws -> wm i = Ok (op_tensor 1 (nth i Gs id_op)).

  Lemma fill_ok : fill_wires wm (Z.of_nat n) (map Z.of_nat ws) = Ok (map (op_tensor 1) (lfac ws Gs (repeat id_op n))).
  Proof.
    unfold fill_wires. rewrite eyes_op. unfold enumerate. rewrite map_length.
    assert (X : forall us Hs j Fs, length Fs = n -> (forall u, In u us -> u < n) -> length Hs = length us ->
      (forall i, i < length us -> wm (j + i) = Ok (op_tensor 1 (nth i Hs id_op))) ->
      mfold (fun lst1 (iq : nat * Z) => do m <- wm (fst iq); py_set lst1 (snd iq) m)
        (combine (seq j (length us)) (map Z.of_nat us)) (map (op_tensor 1) Fs) = Ok (map (op_tensor 1) (lfac us Hs Fs))).
    { induction us as [|u us IH]; intros [|H Hs] j Fs HF HU HL HM; try discriminate; [reflexivity|].
      cbn [length seq map combine mfold fst snd]. pose proof (HM 0) as M0. rewrite Nat.add_0_r in M0. cbn [nth length] in M0. rewrite M0 by lia. cbn [bind].
      rewrite (py_set_op Fs n) by (auto; apply HU; simpl; auto). cbn [bind].
      change (lfac (u :: us) (H :: Hs) Fs) with (lfac us Hs (set_nth u H Fs)). apply IH.
      - now rewrite set_nth_length.
      - intros; apply HU; simpl; auto.
      - cbn [length] in HL. lia.
      - intros i Hi. rewrite Nat.add_succ_comm. apply (HM (S i)). cbn [length]. lia. }
    apply X; auto. { apply repeat_length. } apply W.
  Qed.

  Lemma fill_U_ok : 0 < n -> (do lst1 <- fill_wires wm (Z.of_nat n) (map Z.of_nat ws); multi_kron lst1) = Ok (op_tensor n (obs_op n ws Gs)).
  Proof.
    intros Hn. rewrite fill_ok. cbn [bind]. rewrite (multi_kron_fac _ n); auto.
    - f_equal. apply op_tensor_ext. now apply lfac_obs.
    - rewrite lfac_length. apply repeat_length.
  Qed.

  Lemma lst1_nth : forall i, i < length ws -> py_nth (map (op_tensor 1) (lfac ws Gs (repeat id_op n))) (Z.of_nat (nth i ws 0)) = Ok (op_tensor 1 (nth i Gs id_op)).
  Proof.
    intros i Hi. assert (Hw : nth i ws 0 < n) by (apply W, nth_In; auto).
    rewrite (py_nth_nat _ _ _ (op_tensor 1 id_op)) by (rewrite map_length, lfac_length, repeat_length; auto).
    rewrite map_nth. f_equal. f_equal. apply (lfac_in ws Gs (repeat id_op n)); auto. { apply W. } intros. rewrite repeat_length. now apply W.
  Qed.
  Lemma lst1_In : forall w, In w ws -> exists A, py_nth (map (op_tensor 1) (lfac ws Gs (repeat id_op n))) (Z.of_nat w) = Ok (op_tensor 1 A).
  Proof. intros w Hw. apply (In_nth _ _ 0) in Hw. destruct Hw as (i & Hi & <-). eexists. now apply lst1_nth. Qed.

  (** a fold over the wires that applies the matrix of every wire *)
  Lemma wires_fold : forall A (step : A -> Z -> res A) (P : qstate -> A -> Prop) (a : A) psi,
    (forall i a psi, i < length ws -> P psi a -> exists a', step a (Z.of_nat (nth i ws 0)) = Ok a' /\
       P (act n (lift (nth i Gs id_op) [nth i ws 0]) psi) a') ->
    (forall f g a, st_eq n f g -> P f a -> P g a) ->
    P psi a -> exists a', mfold step (map Z.of_nat ws) a = Ok a' /\ P (act n (obs_op n ws Gs) psi) a'.
  Proof.
    intros A step P a psi HS HE HP. clear WM W.
    assert (X : forall us Hs a psi, length Hs = length us ->
      (forall i a psi, i < length us -> P psi a -> exists a', step a (Z.of_nat (nth i us 0)) = Ok a' /\
       P (act n (lift (nth i Hs id_op) [nth i us 0]) psi) a') ->
      P psi a -> exists a', mfold step (map Z.of_nat us) a = Ok a' /\ P (act n (obs_op n us Hs) psi) a').
    { clear - HE. induction us as [|u us IH]; intros [|H Hs] a psi HL HS HP; try discriminate.
      - exists a. split; [reflexivity|]. eapply HE; [|exact HP]. apply st_sym. exact (act_id n psi).
      - destruct (HS 0 a psi) as (a1 & E1 & P1); [cbn [length]; lia|exact HP|]. cbn [nth] in E1, P1.
        destruct (IH Hs a1 (act n (lift H [u]) psi)) as (a2 & E2 & P2); [cbn [length] in HL; lia| |exact P1|].
        { intros i b phi Hi Hb. apply (HS (S i) b phi); [cbn [length]; lia|exact Hb]. }
        exists a2. cbn [map mfold]. rewrite E1. cbn [bind]. split; [exact E2|]. eapply HE; [|exact P2].
        rewrite obs_op_cons. symmetry. apply act_mul. }
    apply X; auto.
  Qed.

  Lemma base_contract_ok : forall f, base_TN_contract (map (op_tensor 1) (lfac ws Gs (repeat id_op n))) (Z.of_nat n) (map Z.of_nat ws) (tbuild (repeat 2 n) f) false = Ok (tbuild (repeat 2 n) (act n (obs_op n ws Gs) f)).
  Proof.
    intros f. unfold base_TN_contract. cbn iota.
    destruct (wires_fold tensor (fun MPS qbit => do m <- py_nth (map (op_tensor 1) (lfac ws Gs (repeat id_op n))) qbit; contract1_at m (Z.of_nat n) qbit MPS)
      (fun psi t => t = tbuild (repeat 2 n) psi) (tbuild (repeat 2 n) f) f) as (a & E & ->).
    - intros i a psi Hi ->. assert (Hw : nth i ws 0 < n) by (apply W, nth_In; auto). rewrite lst1_nth by auto. cbn [bind].
      pose proof (contract1_ok (repeat 2 n) (nth i ws 0) (nth i Gs id_op) psi) as C. rewrite repeat_length in C.
      rewrite C by (auto; now apply nth_repeat_lt). eexists. split; [reflexivity|]. apply tbuild_st_ext. symmetry. apply act_lift. now apply good_wires_1.
    - intros g h a E ->. now apply tbuild_st_ext.
    - reflexivity.
    - exact E.
  Qed.

  Lemma base_contract_batch_ok : forall B F, base_TN_contract (map (op_tensor 1) (lfac ws Gs (repeat id_op n))) (Z.of_nat n) (map Z.of_nat ws) (tbuild (B :: repeat 2 n) F) true = Ok (tbuild (B :: repeat 2 n) (batched (act n (obs_op n ws Gs)) F)).
  Proof.
    intros B F. unfold base_TN_contract. cbn iota.
    assert (X : forall us Hs G, length Hs = length us ->
      (forall i, i < length us -> py_nth (map (op_tensor 1) (lfac ws Gs (repeat id_op n))) (Z.of_nat (nth i us 0)) = Ok (op_tensor 1 (nth i Hs id_op))) ->
      (forall u, In u us -> u < n) ->
      mfold (fun MPS qbit => do m <- py_nth (map (op_tensor 1) (lfac ws Gs (repeat id_op n))) qbit; contract1_at m (Z.of_nat n + 1) (qbit + 1) MPS)
        (map Z.of_nat us) (tbuild (B :: repeat 2 n) G) = Ok (tbuild (B :: repeat 2 n) (batched (act n (obs_op n us Hs)) G))).
    { induction us as [|u us IH]; intros [|H Hs] G HL HN HU; try discriminate.
      - cbn [map mfold]. f_equal. apply tbuild_ext. intros idx Hi. destruct idx as [|j idx]; [inversion Hi|]. unfold batched. cbn [hd tl]. symmetry.
        apply (act_id n (fun b => G (j :: b))). apply valid_cons in Hi. rewrite bits_all_idx. apply in_all_idx, Hi.
      - cbn [map mfold]. pose proof (HN 0 ltac:(cbn [length]; lia)) as E0. cbn [nth] in E0. rewrite E0. cbn [bind].
        assert (Hu : u < n) by (apply HU; simpl; auto).
        pose proof (single_contract_batch B n u H G Hu) as C. unfold single_TN_contract, raise_if in C.
        rewrite sentinel_n in C by lia. cbn [wire_int bind] in C. rewrite C. cbn [bind].
        rewrite (IH Hs).
        + f_equal. transitivity (tbuild (B :: repeat 2 n) (batched (fun f => act n (obs_op n us Hs) (act n (lift H [u]) f)) G)).
          * apply tbuild_ext. intros idx Hi. destruct idx as [|j idx]; [inversion Hi|]. unfold batched. cbn [hd tl].
            apply act_proper; [reflexivity| |apply valid_cons in Hi; rewrite bits_all_idx; apply in_all_idx, Hi].
            symmetry. apply act_lift. now apply good_wires_1.
          * apply batched_ext. intros f. rewrite obs_op_cons. symmetry. apply act_mul.
        + cbn [length] in HL. lia.
        + intros i Hi. apply (HN (S i)). cbn [length]. lia.
        + intros; apply HU; simpl; auto. }
    apply X; auto. { exact lst1_nth. } apply W.
  Qed.

  Lemma base_TN_ok : forall l psi, is_mps n l psi -> exists l', base_TN_operation (map (op_tensor 1) (lfac ws Gs (repeat id_op n))) (map Z.of_nat ws) l = Ok l' /\ is_mps n l' (act n (obs_op n ws Gs) psi).
  Proof.
    intros l psi HM. unfold base_TN_operation.
    apply (wires_fold (list tensor) _ (fun psi l => is_mps n l psi)).
    - intros i a phi Hi HP. assert (Hw : nth i ws 0 < n) by (apply W, nth_In; auto). rewrite lst1_nth by auto. cbn [bind].
      destruct (single_site_ok n (nth i Gs id_op) a phi (nth i ws 0) HP Hw) as (x & x' & E1 & E2 & l' & E3 & M). exists l'. rewrite E1. cbn [bind]. rewrite E2. cbn [bind].
      split; [exact E3|]. eapply is_mps_st; [exact M|]. apply st_sym, act_lift. now apply good_wires_1.
    - intros f g a E H. eapply is_mps_st; eauto.
    - exact HM.
  Qed.

  Lemma base_TN_shape : forall l l', mps_shape n l -> base_TN_operation (map (op_tensor 1) (lfac ws Gs (repeat id_op n))) (map Z.of_nat ws) l = Ok l' -> mps_shape n l'.
  Proof.
    intros l l' HS. unfold base_TN_operation.
    assert (X : forall us l, (forall u, In u us -> In u ws) -> mps_shape n l ->
      mfold (fun MPS qbit => do m <- py_nth (map (op_tensor 1) (lfac ws Gs (repeat id_op n))) qbit; do s <- py_nth MPS qbit; do s' <- einsum_ab_bcd m s; py_set MPS qbit s')
        (map Z.of_nat us) l = Ok l' -> mps_shape n l').
    { induction us as [|u us IH]; intros m HU HM E; cbn [map mfold] in E; [injection E as <-; exact HM|].
      apply bind_inv in E. destruct E as (m1 & E1 & E2). apply (IH m1); auto. { intros; apply HU; simpl; auto. }
      destruct (lst1_In u (HU u (or_introl eq_refl))) as (A & EA). rewrite EA in E1. cbn [bind] in E1.
      assert (Hu : u < n) by (apply W, HU; simpl; auto).
      eapply (single_shape n A m m1 u HM Hu). unfold single_TN_operation, unset, wires_unset. replace (Z.of_nat n =? -1)%Z with false by lia.
      replace (Z.of_nat u =? -1)%Z with false by lia. cbn [orb raise_if wire_int bind]. exact E1. }
    apply (X ws); auto.
  Qed.
End Base.

Section Single.
  Variables (k : skind) (n : nat) (ws : list nat) (ps : list R) (Gs : list qop).
  Hypothesis W : good_wires n ws.
  Hypothesis LG : length Gs = length ws.
  Hypothesis WM : forall i, i < length ws -> wire_matrix k ps i = Ok (op_tensor 1 (nth i Gs id_op)).
  Let s := mkSL k (Z.of_nat n) (map Z.of_nat ws) ps.

  Lemma cal_ok : cal_single_gates s = Ok (map (op_tensor 1) (lfac ws Gs (repeat id_op n))).
  Proof. exact (fill_ok _ n ws Gs W LG WM). Qed.
  Lemma slayer_U_ok : 0 < n -> slayer_U s = Ok (op_tensor n (obs_op n ws Gs)).
  Proof. exact (fill_U_ok _ n ws Gs W LG WM). Qed.
  Lemma slayer_contract_ok : forall f, slayer_TN_contract s (tbuild (repeat 2 n) f) false = Ok (tbuild (repeat 2 n) (act n (obs_op n ws Gs) f)).
  Proof. intros f. unfold slayer_TN_contract. rewrite cal_ok. cbn [bind s sl_N sl_wires]. now apply base_contract_ok. Qed.
  Lemma slayer_contract_batch_ok : forall B F, slayer_TN_contract s (tbuild (B :: repeat 2 n) F) true = Ok (tbuild (B :: repeat 2 n) (batched (act n (obs_op n ws Gs)) F)).
  Proof. intros B F. unfold slayer_TN_contract. rewrite cal_ok. cbn [bind s sl_N sl_wires]. now apply base_contract_batch_ok. Qed.
  Lemma slayer_TN_ok : forall l psi, is_mps n l psi -> exists l', slayer_TN_operation s l = Ok l' /\ is_mps n l' (act n (obs_op n ws Gs) psi).
  Proof. intros l psi HM. unfold slayer_TN_operation. rewrite cal_ok. cbn [bind s sl_wires]. now apply base_TN_ok. Qed.
  Lemma slayer_TN_shape : forall l l', mps_shape n l -> slayer_TN_operation s l = Ok l' -> mps_shape n l'.
  Proof. intros l l' HM. unfold slayer_TN_operation. rewrite cal_ok. cbn [bind s sl_wires]. now apply base_TN_shape. Qed.
End Single.
