(** Lemmas: circuits on some of the wires. *)
From Coq Require Import List ZArith QArith Reals Lra Lia Bool Arith Setoid Morphisms.
From Verif Require Import PyBase Scalar CInst BigSum Index Tensor TensorFacts Spec SpecFacts QMath QTN QOperator ExpandFacts ExpandFacts2 GateSpec QGates GateCalls GateFacts6
  RunSpec MPSSpec MPSFacts1 MPSFacts5 MPSFacts6 LayerSpec QLayers LayerCalls LayerFacts1 CircuitSpec QCircuit CircuitFacts1 CircuitProofs PlaceSpec PlaceFacts ApartSpec
  PTSpec PTFacts1 PTFacts4 PTProofs MeasSpec MeasFacts MeasCases StateFacts GradFacts2.
Import ListNotations.
Local Close Scope Q_scope.
Local Close Scope R_scope.
Local Open Scope nat_scope.

(** the partial trace and products *)
Section Trace.
  Context {SC : Scalar}.
  Add Ring KR : k_ring.
  Local Open Scope k_scope.
  Variables (n : nat) (ts : list nat).
  Hypothesis T : good_wires n ts.
  Notation m := (n - length ts)%nat.
  Notation k := (length ts).

  Lemma same_off_kept : forall x y, length x = n -> length y = n -> same_off ts x y = true <-> rd x (kept n ts) = rd y (kept n ts).
  Proof.
    intros x y Lx Ly. rewrite (same_off_spec n) by auto. split.
    - intros H. unfold rd. apply map_ext_in. intros i Hi. apply in_kept in Hi. now apply H.
    - intros H i Hi N. assert (In i (kept n ts)) by (now apply in_kept). unfold rd in H. exact (ext_in_map H i H0).
  Qed.
  Lemma lift_ts_put : forall W r t r' t', In r (bits m) -> In r' (bits m) -> In t (bits k) -> In t' (bits k) ->
    lift W ts (put n ts r t) (put n ts r' t') = if list_eq_dec Nat.eq_dec r r' then W t t' else 0.
  Proof.
    intros W r t r' t' Hr Hr' Ht Ht'. unfold lift. rewrite !rd_put_ts by (auto using bits_length).
    pose proof (same_off_kept (put n ts r t) (put n ts r' t') (put_length _ _ _ _) (put_length _ _ _ _)) as S. rewrite !rd_put_kept in S by (auto using bits_length).
    destruct (same_off _ _ _); destruct (list_eq_dec _ _ _) as [E|E]; auto; [exfalso; apply E; now apply S|]. apply S in E. discriminate.
  Qed.
  Lemma same_off_ts : forall x y, length x = n -> length y = n -> same_off (kept n ts) x y = true <-> rd x ts = rd y ts.
  Proof.
    intros x y Lx Ly. rewrite (same_off_spec n) by auto. split.
    - intros H. unfold rd. apply map_ext_in. intros i Hi. apply H; [now apply T|]. intros Q. apply in_kept in Q. tauto.
    - intros H i Hi N. assert (In i ts). { destruct (in_dec Nat.eq_dec i ts) as [Q|Q]; auto. exfalso. apply N. now apply in_kept. } unfold rd in H. exact (ext_in_map H i H0).
  Qed.
  Lemma lift_kept_put : forall W r t r' t', In r (bits m) -> In r' (bits m) -> In t (bits k) -> In t' (bits k) ->
    lift W (kept n ts) (put n ts r t) (put n ts r' t') = if list_eq_dec Nat.eq_dec t t' then W r r' else 0.
  Proof.
    intros W r t r' t' Hr Hr' Ht Ht'. unfold lift. rewrite !rd_put_kept by (auto using bits_length).
    pose proof (same_off_ts (put n ts r t) (put n ts r' t') (put_length _ _ _ _) (put_length _ _ _ _)) as S. rewrite !rd_put_ts in S by (auto using bits_length).
    destruct (same_off _ _ _); destruct (list_eq_dec _ _ _) as [E|E]; auto; [exfalso; apply E; now apply S|]. apply S in E. discriminate.
  Qed.
  Lemma pick_one : forall j (x : list nat) (f : list nat -> K), In x (bits j) -> bigsum (bits j) (fun y => if list_eq_dec Nat.eq_dec x y then f y else 0) = f x.
  Proof.
    intros j x f H. rewrite (bigsum_single _ _ x); auto using bits_NoDup; [destruct (list_eq_dec _ x x); congruence|]. intros y Hy N. destruct (list_eq_dec _ x y); congruence.
  Qed.
  Lemma pick_one' : forall j (x : list nat) (f : list nat -> K), In x (bits j) -> bigsum (bits j) (fun y => if list_eq_dec Nat.eq_dec y x then f y else 0) = f x.
  Proof.
    intros j x f H. rewrite (bigsum_single _ _ x); auto using bits_NoDup; [destruct (list_eq_dec _ x x); congruence|]. intros y Hy N. destruct (list_eq_dec _ y x); congruence.
  Qed.
  Lemma ts_mul_l : forall W A r t y, In r (bits m) -> In t (bits k) -> mul_op n (lift W ts) A (put n ts r t) y = bigsum (bits k) (fun t' => W t t' * A (put n ts r t') y).
  Proof.
    intros W A r t y Hr Ht. unfold mul_op. rewrite (bigsum_put n ts) by auto.
    rewrite <- (pick_one m r (fun r' => bigsum (bits k) (fun t' => W t t' * A (put n ts r' t') y))) by auto. apply bigsum_ext. intros r' Hr'.
    destruct (list_eq_dec _ _ _) as [E|E].
    - apply bigsum_ext. intros t' Ht'. rewrite lift_ts_put by auto. destruct (list_eq_dec _ _ _); [reflexivity|contradiction].
    - apply bigsum_zero. intros t' Ht'. rewrite lift_ts_put by auto. destruct (list_eq_dec _ _ _); [contradiction|ring].
  Qed.
  Lemma ts_mul_r : forall W A r t y, In r (bits m) -> In t (bits k) -> mul_op n A (lift W ts) y (put n ts r t) = bigsum (bits k) (fun t' => A y (put n ts r t') * W t' t).
  Proof.
    intros W A r t y Hr Ht. unfold mul_op. rewrite (bigsum_put n ts) by auto.
    rewrite <- (pick_one' m r (fun r' => bigsum (bits k) (fun t' => A y (put n ts r' t') * W t' t))) by auto. apply bigsum_ext. intros r' Hr'.
    destruct (list_eq_dec _ _ _) as [E|E].
    - apply bigsum_ext. intros t' Ht'. rewrite lift_ts_put by auto. destruct (list_eq_dec _ _ _); [reflexivity|contradiction].
    - apply bigsum_zero. intros t' Ht'. rewrite lift_ts_put by auto. destruct (list_eq_dec _ _ _); [contradiction|ring].
  Qed.
  (** cyclic in the traced-out qubits *)
  Lemma ptr_cyclic : forall W A, op_eq m (ptr n ts (mul_op n (lift W ts) A)) (ptr n ts (mul_op n A (lift W ts))).
  Proof.
    intros W A r c Hr Hc. rewrite !ptr_put by auto.
    transitivity (bigsum (bits k) (fun t => bigsum (bits k) (fun t' => W t t' * A (put n ts r t') (put n ts c t)))).
    { apply bigsum_ext. intros t Ht. now apply ts_mul_l. }
    rewrite bigsum_swap. apply bigsum_ext. intros t Ht. rewrite ts_mul_r by auto. apply bigsum_ext. intros t' Ht'. ring.
  Qed.
  (** linear in the kept qubits *)
  Lemma ptr_kept_l : forall W A, op_eq m (ptr n ts (mul_op n (lift W (kept n ts)) A)) (mul_op m W (ptr n ts A)).
  Proof.
    intros W A r c Hr Hc. rewrite ptr_put by auto. unfold mul_op at 2.
    transitivity (bigsum (bits k) (fun t => bigsum (bits m) (fun r' => W r r' * A (put n ts r' t) (put n ts c t)))).
    { apply bigsum_ext. intros t Ht. unfold mul_op. rewrite (bigsum_put n ts) by auto. apply bigsum_ext. intros r' Hr'.
      rewrite <- (pick_one k t (fun t' => W r r' * A (put n ts r' t') (put n ts c t))) by auto. apply bigsum_ext. intros t' Ht'. rewrite lift_kept_put by auto.
      destruct (list_eq_dec _ _ _); [reflexivity|ring]. }
    rewrite bigsum_swap. apply bigsum_ext. intros r' Hr'. rewrite ptr_put by auto. now rewrite bigsum_mul_l.
  Qed.
  Lemma ptr_kept_r : forall W A, op_eq m (ptr n ts (mul_op n A (lift W (kept n ts)))) (mul_op m (ptr n ts A) W).
  Proof.
    intros W A r c Hr Hc. rewrite ptr_put by auto. unfold mul_op at 2.
    transitivity (bigsum (bits k) (fun t => bigsum (bits m) (fun r' => A (put n ts r t) (put n ts r' t) * W r' c))).
    { apply bigsum_ext. intros t Ht. unfold mul_op. rewrite (bigsum_put n ts) by auto. apply bigsum_ext. intros r' Hr'.
      rewrite <- (pick_one' k t (fun t' => A (put n ts r t) (put n ts r' t') * W r' c)) by auto. apply bigsum_ext. intros t' Ht'. rewrite lift_kept_put by auto.
      destruct (list_eq_dec _ _ _); [reflexivity|ring]. }
    rewrite bigsum_swap. apply bigsum_ext. intros r' Hr'. rewrite ptr_put by auto. now rewrite bigsum_mul_r.
  Qed.
End Trace.

(** a circuit on some of the wires is a circuit moved there *)
Fixpoint pos (ws : list nat) (w : nat) : nat := match ws with [] => 0 | v :: ws' => if v =? w then 0 else S (pos ws' w) end.
Lemma pos_spec : forall ws w, In w ws -> pos ws w < length ws /\ nth (pos ws w) ws 0 = w.
Proof.
  induction ws as [|v ws IH]; intros w H; [contradiction|]. cbn [pos length]. destruct (Nat.eqb_spec v w) as [->|N]; [split; [lia|reflexivity]|].
  destruct H as [H|H]; [contradiction|]. destruct (IH w H). split; [lia|auto].
Qed.
Lemma pos_wires : forall n ws vs, good_wires n vs -> (forall v, In v vs -> In v ws) -> good_wires (length ws) (map (pos ws) vs) /\ map (fun i => nth i ws 0) (map (pos ws) vs) = vs.
Proof.
  intros n ws vs [D B] S. assert (E : map (fun i => nth i ws 0) (map (pos ws) vs) = vs).
  { rewrite map_map. rewrite <- (map_id vs) at 2. apply map_ext_in. intros v Hv. now apply pos_spec, S. }
  split; [|exact E]. split.
  - apply (NoDup_map_inv (fun i => nth i ws 0)). now rewrite E.
  - intros w Hw. apply in_map_iff in Hw. destruct Hw as (v & <- & Hv). now apply pos_spec, S.
Qed.
Definition back (ws : list nat) (c : ci) : ci := match c with CG g => CG (move_gate (pos ws) g) | CL l => CL (move_layer (pos ws) l) end.
Lemma back_gate : forall n ws g, gi_ok n g -> (forall w, In w (gi_wires g) -> In w ws) ->
  gi_ok (length ws) (move_gate (pos ws) g) /\ move_gate (fun i => nth i ws 0) (move_gate (pos ws) g) = g.
Proof.
  intros n ws g [G1 G2] S. destruct (pos_wires n ws _ G1 S) as [P1 P2].
  assert (GW : forall f h, gi_wires (move_gate f h) = map f (gi_wires h)) by (intros f []; cbn; try reflexivity; now rewrite map_app).
  split; [split; [now rewrite GW|destruct g; cbn in *; auto; destruct cs; [contradiction|discriminate]]|].
  destruct g; cbn [gi_wires map move_gate] in *; try (now injection P2 as ?; congruence); try congruence.
  - rewrite !map_app in P2. cbn [map] in P2. apply app_inj_tail in P2. destruct P2. congruence.
Qed.
Lemma back_ok : forall n ws c, ci_ok n c -> (forall w, In w (ci_wires c) -> In w ws) -> ci_ok (length ws) (back ws c) /\ move ws (back ws c) = c.
Proof.
  intros n ws [g|l] H S; cbn [ci_ok ci_wires back move] in *.
  - destruct (back_gate n ws g H S). split; [auto|now f_equal].
  - destruct l as [k vs ps|vs|vs|vs|vs|rep vs ps]; cbn [li_ok li_wires move_layer] in *;
    (destruct (pos_wires n ws vs ltac:(tauto) S) as [P1 P2]; rewrite ?map_length; split; [tauto|now rewrite P2]).
Qed.
Lemma backs_ok : forall n ws cs, Forall (ci_ok n) cs -> within ws cs -> Forall (ci_ok (length ws)) (map (back ws) cs) /\ map (move ws) (map (back ws) cs) = cs.
Proof.
  intros n ws cs H S. rewrite Forall_forall in H. split.
  - rewrite Forall_map, Forall_forall. intros c Hc. apply (back_ok n); auto. intros w Hw. now apply (S c).
  - rewrite map_map. rewrite <- (map_id cs) at 2. apply map_ext_in. intros c Hc. apply (back_ok n); auto. intros w Hw. now apply (S c).
Qed.
Lemma within_op : forall n ws cs, good_wires n ws -> Forall (ci_ok n) cs -> within ws cs -> exists A, unitary (SC := C_scalar) (length ws) A /\ op_eq n (cs_op n cs) (lift A ws).
Proof.
  intros n ws cs W H S. destruct (backs_ok n ws cs H S) as [B1 B2]. exists (cs_op (length ws) (map (back ws) cs)). split; [now apply cs_unitary|].
  rewrite <- B2 at 1. now apply moves_op.
Qed.
Lemma apart_within : forall n ws cs, Forall (ci_ok n) cs -> apart ws cs -> within (kept n ws) cs.
Proof.
  intros n ws cs H S c w Hc Hw. apply in_kept. split; [|now apply (S c)]. rewrite Forall_forall in H. specialize (H c Hc).
  destruct c as [g|l]; cbn [ci_ok ci_wires] in *; [now apply H|]. destruct l; cbn [li_ok li_wires] in *; now apply H.
Qed.
(** it commutes with everything on the other wires *)
Lemma apart_comm : forall n ms cs (M : @qop C_scalar), good_wires n ms -> Forall (ci_ok n) cs -> apart ms cs -> op_eq n (mul_op n (lift M ms) (cs_op n cs)) (mul_op n (cs_op n cs) (lift M ms)).
Proof.
  intros n ms cs M W H S. destruct (within_op n (kept n ms) cs (kept_good n ms) H (apart_within n ms cs H S)) as (A & _ & E). rewrite E.
  apply lift_comm; auto using kept_good. intros w H1 H2. apply in_kept in H2. tauto.
Qed.
Lemma comm_expect : forall n (U O : @qop C_scalar) psi, unitary n U -> op_eq n (mul_op n O U) (mul_op n U O) -> inner n (act n U psi) (act n O (act n U psi)) = inner n psi (act n O psi).
Proof.
  intros n U O psi HU E. rewrite <- (unitary_inner n U psi (act n O psi) HU). unfold inner. apply bigsum_ext. intros b Hb. f_equal.
  rewrite <- (act_mul n O U psi b Hb), <- (act_mul n U O psi b Hb). unfold act. apply bigsum_ext. intros c Hc. now rewrite (E b c Hb Hc).
Qed.
