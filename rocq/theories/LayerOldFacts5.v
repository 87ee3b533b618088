(** Lemmas: the combined layers of layers/qlayer.py with gate functions that return the documented matrices. *)
From Coq Require Import List ZArith Reals Lra Lia ZifyBool Bool Arith Setoid Morphisms String.
From Verif Require Import PyBase Scalar CInst BigSum Index Tensor TensorFacts Spec SpecFacts QMath QTN QOperator ExpandFacts ExpandFacts2 GateSpec QGates GateCalls GateFacts GateFacts2 RunSpec MPSSpec
  LayerSpec QLayers LayerFacts1 LayerFacts2 LayerFacts3 LayerFacts4 MPSFacts4 LayerOldSpec QLayerOld LayerOldFacts2 LayerOldFacts3 LayerOldFacts4.
Import ListNotations.
Local Close Scope R_scope.
Local Open Scope nat_scope.

Lemma py_bound_in : forall n a, a <= n -> py_bound n (Z.of_nat a) = a.
Proof. intros n a H. unfold py_bound. replace (Z.of_nat a <? 0)%Z with false by lia. lia. Qed.
Lemma py_slice_in : forall X (l : list X) a b, a <= b -> b <= len l -> py_slice l (Z.of_nat a) (Z.of_nat b) = firstn (b - a) (skipn a l).
Proof. intros X l a b Ha Hb. unfold py_slice, pslice. now rewrite !py_bound_in by lia. Qed.
Lemma py_from_in : forall X (l : list X) a, a <= len l -> py_from l (Z.of_nat a) = skipn a l.
Proof. intros X l a H. unfold py_from. now rewrite py_bound_in. Qed.

Lemma word_cases : forall s w, gate_angles s = Some w -> (s = "YZY" /\ w = 3%Z \/ s = "XZX" /\ w = 3%Z \/ s = "XYZ" /\ w = 3%Z \/ s = "XZ" /\ w = 2%Z)%string.
Proof.
  intros s w. unfold gate_angles. cbn [existsb].
  destruct (String.eqb_spec s "YZY") as [->|]; [intros [= <-]; auto|]. destruct (String.eqb_spec s "XZX") as [->|]; [intros [= <-]; auto|].
  destruct (String.eqb_spec s "XYZ") as [->|]; [intros [= <-]; auto|]. cbn [orb]. destruct (String.eqb_spec s "XZ") as [->|]; [intros [= <-]; auto 6|discriminate].
Qed.
Lemma word_none : forall s, gate_angles s = None -> (String.eqb s "YZY" = false /\ String.eqb s "XZX" = false /\ String.eqb s "XYZ" = false /\ String.eqb s "XZ" = false)%string.
Proof.
  intros s. unfold gate_angles. cbn [existsb]. destruct (String.eqb s "YZY"), (String.eqb s "XZX"), (String.eqb s "XYZ"), (String.eqb s "XZ"); cbn; try discriminate; auto.
Qed.
Lemma word_len : forall s w, gate_angles s = Some w -> w = Z.of_nat (String.length s) /\ len (word_axes s) = String.length s /\ (String.length s = 2 \/ String.length s = 3).
Proof. intros s w H. destruct (word_cases s w H) as [[-> ->]|[[-> ->]|[[-> ->]|[-> ->]]]]; cbn; auto. Qed.

Section With.
  Variable G : gatefns.
  Hypothesis D : documented G.

  (** the rotation layer chosen by single_gate *)
  Definition rotl (s : string) (N : Z) (ps : list R) : res tensor :=
    if String.eqb s "YZY" then old_YZY G N ps else if String.eqb s "XZX" then old_XZX G N ps else if String.eqb s "XYZ" then old_XYZ G N ps
    else if String.eqb s "XZ" then old_XZ G N ps else Err ValueError.
  Lemma rotl_ok : forall s w n ps, gate_angles s = Some w -> 0 < n -> len ps = String.length s * n -> gives (rotl s (Z.of_nat n) ps) n (gs_op n (rot_gates (word_axes s) (seq 0 n) ps)).
  Proof.
    intros s w n ps H Hn L. destruct (word_cases s w H) as [[-> ->]|[[-> ->]|[[-> ->]|[-> ->]]]].
    - exact (old3_ok G D KYZY AY AZ AY n ps eq_refl Hn L).
    - exact (old3_ok G D KXZX AX AZ AX n ps eq_refl Hn L).
    - exact (old3_ok G D KXYZ AX AY AZ n ps eq_refl Hn L).
    - exact (old_XZ_ok G D n ps Hn L).
  Qed.
  Lemma rotl_small : forall s N ps, (N < 1)%Z -> rotl s N ps = Err ValueError.
  Proof.
    intros s N ps H. unfold rotl, old_YZY, old_XZX, old_XYZ, old_XZ, old3, raise_if. replace (N <? 1)%Z with true by lia.
    destruct (String.eqb s "YZY"), (String.eqb s "XZX"), (String.eqb s "XYZ"), (String.eqb s "XZ"); reflexivity.
  Qed.
  Lemma count_ok : forall A s w m N ps (k : res A), gate_angles s = Some w -> Z.of_nat (len ps) = (w * m * N)%Z -> old_count m N ps s k = k.
  Proof.
    intros A s w m N ps k H L. unfold old_count, raise_if. destruct (word_cases s w H) as [[-> ->]|[[-> ->]|[[-> ->]|[-> ->]]]]; cbn [String.length Nat.eqb andb];
      rewrite L, Z.eqb_refl; reflexivity.
  Qed.
  Lemma count_err : forall A s w m N ps (k : res A), gate_angles s = Some w -> Z.of_nat (len ps) <> (w * m * N)%Z -> old_count m N ps s k = Err ValueError.
  Proof.
    intros A s w m N ps k H L. apply Z.eqb_neq in L. unfold old_count, raise_if. destruct (word_cases s w H) as [[-> ->]|[[-> ->]|[[-> ->]|[-> ->]]]]; cbn [String.length Nat.eqb andb];
      rewrite L; reflexivity.
  Qed.
  Lemma count_any : forall A s m N ps, old_count m N ps s (Err (A := A) ValueError) = Err ValueError.
  Proof. intros. unfold old_count, raise_if. repeat match goal with |- context [if ?b then _ else _] => destruct b end; reflexivity. Qed.

  Lemma basic_some : forall s w N ps, gate_angles s = Some w -> old_basic G N ps s =
    old_count 1 N ps s (do S1 <- rotl s N (py_slice ps 0 (w * N)); do C1 <- old_ring_of_cnot G N true; matmul C1 S1).
  Proof. intros s w N ps H. destruct (word_cases s w H) as [[-> ->]|[[-> ->]|[[-> ->]|[-> ->]]]]; reflexivity. Qed.
  Lemma basic_none : forall s N ps, gate_angles s = None -> old_basic G N ps s = Err ValueError.
  Proof. intros s N ps H. destruct (word_none s H) as (E1 & E2 & E3 & E4). unfold old_basic. rewrite E1, E2, E3, E4. apply count_any. Qed.
  Lemma strong_some : forall s w N ps, gate_angles s = Some w -> old_strong G N ps s =
    old_count 2 N ps s (do (S1, S2) <- (do a <- rotl s N (py_slice ps 0 (w * N)); do b <- rotl s N (py_slice ps (w * N) (2 * w * N)); Ok (a, b));
      do C1 <- old_ring_of_cnot G N true; do C2 <- old_ring_of_cnot2 G N true; do a <- matmul C2 S2; do b <- matmul a C1; matmul b S1).
  Proof. intros s w N ps H. destruct (word_cases s w H) as [[-> ->]|[[-> ->]|[[-> ->]|[-> ->]]]]; reflexivity. Qed.
  Lemma strong_none : forall s N ps, gate_angles s = None -> old_strong G N ps s = Err ValueError.
  Proof. intros s N ps H. destruct (word_none s H) as (E1 & E2 & E3 & E4). unfold old_strong. rewrite E1, E2, E3, E4. apply count_any. Qed.

  Lemma cnot_doc : forall n c t, good_wires n [c; t] -> gives (g_cnot G (Z.of_nat n) (Z.of_nat c) (Z.of_nat t)) n (gi_op n (gi_cnot c t)).
  Proof. exact (doc_cnot G D). Qed.
  Lemma ring1 : forall n, 2 <= n -> gives (old_ring_of_cnot G (Z.of_nat n) true) n (gs_op n (pair_gates gi_cnot (ring_pairs 1 n))).
  Proof. intros n H. exact (old_ring_ok n (g_cnot G) gi_cnot 1 true (cnot_doc n) H ltac:(lia)). Qed.
  Lemma ring2 : forall n, 2 <= n -> gives (old_ring_of_cnot2 G (Z.of_nat n) true) n (gs_op n (pair_gates gi_cnot (ring_pairs 2 n))).
  Proof. intros n H. exact (old_ring_ok n (g_cnot G) gi_cnot 2 true (cnot_doc n) H ltac:(lia)). Qed.
  Lemma ring_small : forall gate d N b, (N < 2)%Z -> old_ring gate d N b = Err ValueError.
  Proof. intros gate d N b H. unfold old_ring, old_pairs, raise_if. now replace (N <? 2)%Z with true by lia. Qed.

  Lemma basic_ok : forall s w n ps, gate_angles s = Some w -> 2 <= n -> len ps = String.length s * n ->
    gives (old_basic G (Z.of_nat n) ps s) n (gs_op n (entangle_gates s 1 n ps)).
  Proof.
    intros s w n ps H Hn L. destruct (word_len s w H) as (Ew & La & Ls). rewrite (basic_some s w) by exact H. rewrite (count_ok _ s w) by (auto; lia).
    replace (w * Z.of_nat n)%Z with (Z.of_nat (len ps)) by lia. rewrite (py_slice_in _ ps 0) by lia. rewrite Nat.sub_0_r, firstn_all2 by (cbn [skipn]; lia). cbn [skipn].
    rewrite (gives_eq _ _ _ (rotl_ok s w n ps H ltac:(lia) L)). cbn [bind]. rewrite (gives_eq _ _ _ (ring1 n Hn)). cbn [bind]. rewrite matmul_op.
    eapply gives_ext; [apply gives_tensor|]. unfold entangle_gates. rewrite gs_op_app. reflexivity.
  Qed.
  Lemma basic_bad : forall s w N ps, gate_angles s = Some w -> ~ (2 <= N /\ Z.of_nat (len ps) = w * N)%Z -> old_basic G N ps s = Err ValueError.
  Proof.
    intros s w N ps H Hb. rewrite (basic_some s w) by exact H. destruct (Z.eq_dec (Z.of_nat (len ps)) (w * 1 * N)) as [E|E]; [|now apply (count_err _ s w)].
    rewrite (count_ok _ s w) by auto. destruct (Z.ltb_spec N 1) as [L|L]; [now rewrite rotl_small|].
    assert (N = 1)%Z by lia. subst N. destruct (word_len s w H) as (Ew & La & Ls).
    replace (w * 1)%Z with (Z.of_nat (len ps)) by lia. rewrite (py_slice_in _ ps 0) by lia. rewrite Nat.sub_0_r, firstn_all2 by (cbn [skipn]; lia). cbn [skipn].
    change 1%Z with (Z.of_nat 1). rewrite (gives_eq _ _ _ (rotl_ok s w 1 ps H ltac:(lia) ltac:(lia))). cbn [bind]. unfold old_ring_of_cnot. now rewrite ring_small by lia.
  Qed.
  Lemma gates_firstn : forall s w n d ps, gate_angles s = Some w -> entangle_gates s d n (firstn (String.length s * n) ps) = entangle_gates s d n ps.
  Proof. intros s w n d ps H. destruct (word_len s w H) as (_ & La & _). unfold entangle_gates. rewrite rot_gates_firstn; [reflexivity|]. rewrite La, seq_length. lia. Qed.

  Lemma basic2_ok : forall s w n ps, gate_angles s = Some w -> 2 <= n -> len ps = 2 * (String.length s * n) ->
    gives (old_basic2 G (Z.of_nat n) ps s) n (gs_op n (entangle_gates s 1 n ps ++ entangle_gates s 1 n (skipn (String.length s * n) ps))).
  Proof.
    intros s w n ps H Hn L. destruct (word_len s w H) as (Ew & La & Ls). unfold old_basic2. rewrite (count_ok _ s w) by (auto; lia). cbv zeta.
    rewrite <- Nat2Z.inj_mul. rewrite (py_slice_in _ ps 0) by lia. rewrite py_from_in by lia. rewrite Nat.sub_0_r. cbn [skipn].
    rewrite (gives_eq _ _ _ (basic_ok s w n (firstn (String.length s * n) ps) H Hn ltac:(rewrite firstn_length; lia))). cbn [bind].
    rewrite (gives_eq _ _ _ (basic_ok s w n (skipn (String.length s * n) ps) H Hn ltac:(rewrite skipn_length; lia))). cbn [bind]. rewrite matmul_op.
    rewrite (gates_firstn s w) by exact H. eapply gives_ext; [apply gives_tensor|]. rewrite gs_op_app. reflexivity.
  Qed.
  Lemma basic_small : forall s N ps, (N < 2)%Z -> old_basic G N ps s = Err ValueError.
  Proof. intros s N ps L. destruct (gate_angles s) as [w|] eqn:H; [|now apply basic_none]. apply (basic_bad s w); [exact H|lia]. Qed.
  Lemma basic2_bad : forall s N ps, ~ (2 <= N /\ exists w, gate_angles s = Some w /\ Z.of_nat (len ps) = 2 * w * N)%Z -> old_basic2 G N ps s = Err ValueError.
  Proof.
    intros s N ps Hb. destruct (gate_angles s) as [w|] eqn:H.
    - destruct (Z.eq_dec (Z.of_nat (len ps)) (w * 2 * N)) as [E|E]; [|unfold old_basic2; now apply (count_err _ s w)].
      unfold old_basic2. rewrite (count_ok _ s w) by auto. cbv zeta. rewrite basic_small; [reflexivity|].
      destruct (Z.ltb_spec N 2); [assumption|]. exfalso. apply Hb. split; [lia|]. exists w. split; [reflexivity|lia].
    - unfold old_basic2. cbv zeta. rewrite basic_none by exact H. cbn [bind]. apply count_any.
  Qed.

  Lemma strong_ok : forall s w n ps, gate_angles s = Some w -> 2 <= n -> len ps = 2 * (String.length s * n) ->
    gives (old_strong G (Z.of_nat n) ps s) n (gs_op n (entangle_gates s 1 n ps ++ entangle_gates s 2 n (skipn (String.length s * n) ps))).
  Proof.
    intros s w n ps H Hn L. destruct (word_len s w H) as (Ew & La & Ls). rewrite (strong_some s w) by exact H. rewrite (count_ok _ s w) by (auto; lia).
    replace (w * Z.of_nat n)%Z with (Z.of_nat (String.length s * n)) by lia. replace (2 * w * Z.of_nat n)%Z with (Z.of_nat (len ps)) by lia.
    rewrite (py_slice_in _ ps 0) by lia. rewrite py_slice_in by lia. rewrite Nat.sub_0_r. cbn [skipn]. rewrite (firstn_all2 (skipn _ ps)) by (rewrite skipn_length; lia).
    rewrite (gives_eq _ _ _ (rotl_ok s w n (firstn (String.length s * n) ps) H ltac:(lia) ltac:(rewrite firstn_length; lia))). cbn [bind].
    rewrite (gives_eq _ _ _ (rotl_ok s w n (skipn (String.length s * n) ps) H ltac:(lia) ltac:(rewrite skipn_length; lia))). cbn [bind].
    rewrite (gives_eq _ _ _ (ring1 n Hn)). cbn [bind]. rewrite (gives_eq _ _ _ (ring2 n Hn)). cbn [bind]. rewrite matmul_op. cbn [bind]. rewrite matmul_op. cbn [bind]. rewrite matmul_op.
    eapply gives_ext; [apply gives_tensor|]. rewrite rot_gates_firstn by (rewrite La, seq_length; lia).
    unfold entangle_gates. rewrite !gs_op_app. rewrite !mul_op_assoc. reflexivity.
  Qed.
  Lemma strong_bad : forall s N ps, ~ (2 <= N /\ exists w, gate_angles s = Some w /\ Z.of_nat (len ps) = 2 * w * N)%Z -> old_strong G N ps s = Err ValueError.
  Proof.
    intros s N ps Hb. destruct (gate_angles s) as [w|] eqn:H; [|now apply strong_none]. rewrite (strong_some s w) by exact H.
    destruct (Z.eq_dec (Z.of_nat (len ps)) (w * 2 * N)) as [E|E]; [|now apply (count_err _ s w)].
    rewrite (count_ok _ s w) by auto. assert (L2 : (N < 2)%Z).
    { destruct (Z.ltb_spec N 2); [assumption|]. exfalso. apply Hb. split; [lia|]. exists w. split; [reflexivity|lia]. }
    destruct (Z.ltb_spec N 1) as [L|L]; [now rewrite rotl_small|]. assert (N = 1)%Z by lia. subst N. destruct (word_len s w H) as (Ew & La & Ls).
    replace (w * 1)%Z with (Z.of_nat (String.length s)) by lia. replace (2 * w * 1)%Z with (Z.of_nat (len ps)) by lia.
    rewrite (py_slice_in _ ps 0) by lia. rewrite py_slice_in by lia. rewrite Nat.sub_0_r. cbn [skipn]. rewrite (firstn_all2 (skipn _ ps)) by (rewrite skipn_length; lia).
    change 1%Z with (Z.of_nat 1). rewrite (gives_eq _ _ _ (rotl_ok s w 1 (firstn (String.length s) ps) H ltac:(lia) ltac:(rewrite firstn_length; lia))). cbn [bind].
    change 1%Z with (Z.of_nat 1). rewrite (gives_eq _ _ _ (rotl_ok s w 1 (skipn (String.length s) ps) H ltac:(lia) ltac:(rewrite skipn_length; lia))). cbn [bind].
    unfold old_ring_of_cnot. now rewrite ring_small by lia.
  Qed.
End With.
