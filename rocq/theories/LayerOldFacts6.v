(** Lemmas: the layers of two-qubit rotations of layers/qlayer.py, and all functions of the module together. *)
From Coq Require Import List ZArith Reals Lra Lia ZifyBool Bool Arith Setoid Morphisms String.
From Verif Require Import PyBase Scalar CInst BigSum Index Tensor TensorFacts Spec SpecFacts QMath QTN QOperator ExpandFacts ExpandFacts2 GateSpec QGates GateCalls GateFacts GateFacts2 RunSpec MPSSpec
  LayerSpec QLayers LayerFacts1 LayerFacts2 LayerFacts3 LayerFacts4 MPSFacts4 LayerOldSpec QLayerOld LayerOldFacts2 LayerOldFacts3 LayerOldFacts4 LayerOldFacts5.
Import ListNotations.
Local Close Scope R_scope.
Local Open Scope nat_scope.

Lemma blocks_app : forall l l' off, blocks off (l ++ l') = blocks off l ++ blocks (off + list_sum (map fst l)) l'.
Proof.
  induction l as [|[k A] l IH]; intros l' off; cbn [app blocks map fst].
  - f_equal. cbn. lia.
  - rewrite IH. cbn [app]. do 2 f_equal. change (list_sum (k :: map fst l)) with (k + list_sum (map fst l)). f_equal. lia.
Qed.
Lemma nth_skip : forall X (d : X) h k l, nth k (skipn h l) d = nth (h + k) l d.
Proof. induction h as [|h IH]; intros k l; [reflexivity|]. destruct l as [|x l]; [now destruct k|]. apply IH. Qed.
Definition ids (m : nat) : list (nat * @qop C_scalar) := repeat (1, id_op) m.
Lemma ids_sum : forall m, list_sum (map fst (ids m)) = m.
Proof. induction m as [|m IH]; [reflexivity|]. unfold ids in *. cbn [repeat map fst]. change (list_sum (1 :: map fst (repeat (1, id_op (SC := C_scalar)) m))) with (1 + list_sum (map fst (repeat (1, id_op (SC := C_scalar)) m))). now rewrite IH. Qed.
Lemma lprod_ids : forall n m l l' off, off + m <= n -> op_eq (SC := C_scalar) n (lprod n (l ++ blocks off (ids m) ++ l')) (lprod n (l ++ l')).
Proof.
  intros n m. induction m as [|m IH]; intros l l' off H; [reflexivity|]. unfold ids in *. cbn [repeat blocks app].
  rewrite (lprod_one (SC := C_scalar)) by (apply MPSFacts4.good_seq; lia). apply IH. lia.
Qed.

Section With.
  Variable G : gatefns.
  Hypothesis D : documented G.
  Variables (g : R -> res tensor) (gg : R -> nat -> nat -> gi).
  Hypothesis Hg : forall t, gives (g t) 2 (gi_op 2 (gg t 0 1)).
  Hypothesis Hl : forall n t a b, a < n -> b < n -> a <> b -> op_eq n (gi_op n (gg t a b)) (lift (gi_op 2 (gg t 0 1)) [a; b]).

  Definition twos (qs : list R) : list (nat * qop) := map (fun t => (2, gi_op 2 (gg t 0 1))) qs.
  Lemma twos_sum : forall qs, list_sum (map fst (twos qs)) = 2 * len qs.
  Proof.
    induction qs as [|t qs IH]; [reflexivity|]. unfold twos in *. cbn [map fst List.length].
    change (list_sum (2 :: ?l)) with (2 + list_sum l). rewrite IH. lia.
  Qed.
  Lemma brick : forall n qs off, off + 2 * len qs <= n ->
    Forall2 (fun x wa => op_eq (SC := C_scalar) n (gi_op n x) (lift (snd wa) (fst wa)))
      (map (fun k => gg (nth k qs 0%R) (off + 2 * k) (off + 2 * k + 1)) (seq 0 (len qs))) (blocks off (twos qs)).
  Proof.
    intros n. induction qs as [|t qs IH]; intros off H; [constructor|]. cbn [List.length] in H. unfold twos in *. cbn [List.length seq map blocks]. constructor.
    - cbn [fst snd nth seq]. rewrite Nat.mul_0_r, Nat.add_0_r, Nat.add_1_r. apply Hl; lia.
    - rewrite <- seq_shift, map_map. specialize (IH (off + 2) ltac:(lia)).
      rewrite (map_ext _ (fun k => gg (nth k qs 0%R) (off + 2 + 2 * k) (off + 2 + 2 * k + 1))); [exact IH|].
      intros k. cbn [nth]. f_equal; lia.
  Qed.
  Lemma brick_ok : forall qs pre post n, n = pre + 2 * len qs + post -> 0 < n ->
    gives (g_kron G (repeat eye2 pre ++ map (fun t => op_tensor 2 (gi_op 2 (gg t 0 1))) qs ++ repeat eye2 post)) n
      (gs_op n (map (fun k => gg (nth k qs 0%R) (pre + 2 * k) (pre + 2 * k + 1)) (seq 0 (len qs)))).
  Proof.
    intros qs pre post n En Hn. set (fs := ids pre ++ twos qs ++ ids post).
    assert (S1 : list_sum (map fst fs) = n) by (unfold fs; rewrite !map_app, !list_sum_app, !ids_sum, twos_sum; lia).
    assert (E2 : forall m, Forall2 (fun t f => is_op (SC := C_scalar) (fst f) t (snd f)) (repeat eye2 m) (ids m)).
    { induction m as [|m IH]; constructor; [|exact IH]. cbn [fst snd]. unfold eye2. rewrite eye2_op. apply is_op_tensor. }
    pose proof (doc_kron G D (repeat eye2 pre ++ map (fun t => op_tensor 2 (gi_op 2 (gg t 0 1))) qs ++ repeat eye2 post) fs) as K. rewrite S1 in K.
    eapply gives_ext; [apply K|].
    - intros E. rewrite E in S1. cbn in S1. lia.
    - unfold fs. apply Forall2_app; [apply E2|]. apply Forall2_app; [|apply E2]. unfold twos. apply Forall2_map2. intros t _. apply is_op_tensor.
    - pose proof (kron_lprod fs) as X. rewrite S1 in X. rewrite X. unfold fs. rewrite !blocks_app. cbn [Nat.add]. rewrite ids_sum, twos_sum.
      pose proof (lprod_ids n pre [] (blocks pre (twos qs) ++ blocks (pre + 2 * len qs) (ids post)) 0 ltac:(lia)) as Y. cbn [app] in Y. rewrite Y. clear Y.
      pose proof (lprod_ids n post (blocks pre (twos qs)) [] (pre + 2 * len qs) ltac:(lia)) as Y. rewrite !app_nil_r in Y. rewrite Y.
      symmetry. apply gs_lprod. apply brick. lia.
  Qed.

  Lemma mmap_g : forall qs, mmap g qs = Ok (map (fun t => op_tensor 2 (gi_op 2 (gg t 0 1))) qs).
  Proof. intros qs. apply mmap_Ok_ext. intros t _. apply gives_eq, Hg. Qed.
  Lemma rot2_ok : forall n ps, 2 <= n -> len ps = n - 1 -> gives (old_rot2 G g (Z.of_nat n) ps) n (gs_op n (brick_gates gg n ps)).
  Proof.
    intros n ps Hn L. unfold old_rot2, raise_if. replace (Z.of_nat n - 1 =? Z.of_nat (len ps))%Z with true by lia. cbn [negb]. replace (Z.of_nat n <? 2)%Z with false by lia.
    destruct (Z.eqb_spec (Z.of_nat n) 2) as [E|E].
    - assert (n = 2) by lia. subst n. change 0%Z with (Z.of_nat 0). rewrite (py_nth_nat _ ps 0 0%R) by lia. cbn [bind]. eapply gives_ext; [apply Hg|]. unfold brick_gates. cbn [Nat.div Nat.divmod fst Nat.sub seq map app Nat.mul Nat.add].
      symmetry. apply gs_op_1.
    - assert (F : forall h, h <= len ps -> forall f : R -> nat -> gi, map (fun k => f (nth k (firstn h ps) 0%R) k) (seq 0 h) = map (fun k => f (nth k ps 0%R) k) (seq 0 h)).
      { intros h Hh f. apply map_ext_in. intros k Hk. apply in_seq in Hk. f_equal. rewrite <- (firstn_skipn h ps) at 2. rewrite app_nth1; [reflexivity|]. rewrite firstn_length. lia. }
      assert (S' : forall h (f : R -> nat -> gi) m, map (fun k => f (nth k (skipn h ps) 0%R) k) (seq 0 m) = map (fun k => f (nth (h + k) ps 0%R) k) (seq 0 m)).
      { intros h f m. apply map_ext. intros k. f_equal. apply nth_skip. }
      destruct (Nat.even n) eqn:Ev.
      + apply Nat.even_spec in Ev. destruct Ev as [h Eh].
        replace (Z.of_nat n mod 2 =? 0)%Z with true by (rewrite Eh, Nat2Z.inj_mul, Z.mul_comm, Z.mod_mul; lia).
        replace (Z.of_nat n / 2)%Z with (Z.of_nat h) by (rewrite Eh, Nat2Z.inj_mul, Z.mul_comm, Z.div_mul; lia).
        replace (Z.of_nat n - 1)%Z with (Z.of_nat (len ps)) by lia. rewrite (py_slice_in _ ps 0) by lia. rewrite py_slice_in by lia. rewrite Nat.sub_0_r. cbn [skipn].
        rewrite (firstn_all2 (skipn h ps)) by (rewrite skipn_length; lia). rewrite !mmap_g. cbn [bind].
        pose proof (brick_ok (firstn h ps) 0 0 n ltac:(rewrite firstn_length; lia) ltac:(lia)) as B1. cbn [repeat app] in B1. rewrite app_nil_r in B1.
        pose proof (brick_ok (skipn h ps) 1 1 n ltac:(rewrite skipn_length; lia) ltac:(lia)) as B2. cbn [repeat] in B2.
        rewrite (gives_eq _ _ _ B1). cbn [bind]. rewrite (gives_eq _ _ _ B2). cbn [bind]. rewrite matmul_op. eapply gives_ext; [apply gives_tensor|].
        unfold brick_gates. rewrite gs_op_app.
        replace (n / 2) with h by (rewrite Eh, Nat.mul_comm, Nat.div_mul; lia).
        replace ((n - 1) / 2) with (h - 1) by (replace (n - 1) with (1 + (h - 1) * 2) by lia; rewrite Nat.div_add; [reflexivity|lia]).
        rewrite firstn_length, skipn_length. replace (Nat.min h (len ps)) with h by lia. replace (len ps - h) with (h - 1) by lia.
        rewrite (F h ltac:(lia) (fun t k => gg t (0 + 2 * k) (0 + 2 * k + 1))). rewrite (S' h (fun t k => gg t (1 + 2 * k) (1 + 2 * k + 1))).
        rewrite (map_ext (fun k => gg (nth (h + k) ps 0%R) (1 + 2 * k) (1 + 2 * k + 1)) (fun k => gg (nth (h + k) ps 0%R) (2 * k + 1) (2 * k + 2))) by (intros k; f_equal; lia).
        reflexivity.
      + assert (O : Nat.odd n = true) by (unfold Nat.odd; now rewrite Ev). apply Nat.odd_spec in O. destruct O as [h Eh].
        replace (Z.of_nat n mod 2 =? 0)%Z with false by (rewrite Eh, Nat2Z.inj_add, Nat2Z.inj_mul, Z.add_comm, (Z.mul_comm (Z.of_nat 2)), Z.mod_add; [reflexivity|lia]).
        replace ((Z.of_nat n - 1) / 2)%Z with (Z.of_nat h) by (replace (Z.of_nat n - 1)%Z with (Z.of_nat h * 2)%Z by lia; rewrite Z.div_mul; lia).
        replace (Z.of_nat n - 1)%Z with (Z.of_nat (len ps)) by lia. rewrite (py_slice_in _ ps 0) by lia. rewrite py_slice_in by lia. rewrite Nat.sub_0_r. cbn [skipn].
        rewrite (firstn_all2 (skipn h ps)) by (rewrite skipn_length; lia). rewrite !mmap_g. cbn [bind].
        pose proof (brick_ok (firstn h ps) 0 1 n ltac:(rewrite firstn_length; lia) ltac:(lia)) as B1. cbn [repeat app] in B1.
        pose proof (brick_ok (skipn h ps) 1 0 n ltac:(rewrite skipn_length; lia) ltac:(lia)) as B2. cbn [repeat] in B2. rewrite app_nil_r in B2.
        rewrite (gives_eq _ _ _ B1). cbn [bind]. rewrite (gives_eq _ _ _ B2). cbn [bind]. rewrite matmul_op. eapply gives_ext; [apply gives_tensor|].
        unfold brick_gates. rewrite gs_op_app.
        replace (n / 2) with h by (rewrite Eh, Nat.add_comm, Nat.mul_comm, Nat.div_add; [reflexivity|lia]).
        replace ((n - 1) / 2) with h by (replace (n - 1) with (h * 2) by lia; now rewrite Nat.div_mul by lia).
        rewrite firstn_length, skipn_length. replace (Nat.min h (len ps)) with h by lia. replace (len ps - h) with h by lia.
        rewrite (F h ltac:(lia) (fun t k => gg t (0 + 2 * k) (0 + 2 * k + 1))). rewrite (S' h (fun t k => gg t (1 + 2 * k) (1 + 2 * k + 1))).
        rewrite (map_ext (fun k => gg (nth (h + k) ps 0%R) (1 + 2 * k) (1 + 2 * k + 1)) (fun k => gg (nth (h + k) ps 0%R) (2 * k + 1) (2 * k + 2))) by (intros k; f_equal; lia).
        reflexivity.
  Qed.
End With.

Lemma rot2_bad : forall G g N ps, ~ (2 <= N /\ Z.of_nat (len ps) = N - 1)%Z -> old_rot2 G g N ps = Err ValueError.
Proof.
  intros G g N ps H. unfold old_rot2, raise_if. destruct (Z.eqb_spec (N - 1) (Z.of_nat (len ps))); [|reflexivity]. cbn [negb]. now replace (N <? 2)%Z with true by lia.
Qed.

(** ** all functions *)
Lemma old_valid_gives : forall G c, documented G -> old_valid c -> gives (run_old G c) (old_qubits c) (gs_op (old_qubits c) (old_gates c)).
Proof.
  intros G c D V.
  assert (NN : forall N, (0 <= N)%Z -> exists n, N = Z.of_nat n) by (intros N HN; exists (Z.to_nat N); lia).
  destruct c as [N ps|N ps|N ps|N ps|N|N b|N b|N b|N b|N b|N b|N ps s|N ps s|N ps s|N ps|N ps|N ps]; cbn [old_valid] in V;
    (destruct (NN N ltac:(lia)) as [n ->]); unfold old_gates, old_qubits; cbn [run_old]; rewrite Nat2Z.id; cbv zeta.
  - exact (old3_ok G D KXYZ AX AY AZ n ps eq_refl ltac:(lia) ltac:(lia)).
  - exact (old3_ok G D KYZY AY AZ AY n ps eq_refl ltac:(lia) ltac:(lia)).
  - exact (old3_ok G D KXZX AX AZ AX n ps eq_refl ltac:(lia) ltac:(lia)).
  - exact (old_XZ_ok G D n ps ltac:(lia) ltac:(lia)).
  - exact (old_H_ok G D n ltac:(lia)).
  - exact (old_ring_ok n (g_cnot G) gi_cnot 1 b (fun c t => doc_cnot G D n c t) ltac:(lia) ltac:(lia)).
  - exact (old_ring_ok n (g_cnot G) gi_cnot 2 b (fun c t => doc_cnot G D n c t) ltac:(lia) ltac:(lia)).
  - exact (old_ring_ok n (g_cz G) gi_cz 1 b (fun c t => doc_cz G D n c t) ltac:(lia) ltac:(lia)).
  - exact (old_nearest_ok n (g_cnot G) gi_cnot b (fun c t => doc_cnot G D n c t) ltac:(lia)).
  - exact (old_nearest_ok n (g_cz G) gi_cz b (fun c t => doc_cz G D n c t) ltac:(lia)).
  - exact (old_all_ok G n b D ltac:(lia)).
  - destruct V as (Hn & w & H & L). destruct (word_len s w H) as (Ew & _). apply (basic_ok G D s w); [exact H|lia|lia].
  - destruct V as (Hn & w & H & L). destruct (word_len s w H) as (Ew & _). apply (basic2_ok G D s w); [exact H|lia|lia].
  - destruct V as (Hn & w & H & L). destruct (word_len s w H) as (Ew & _). apply (strong_ok G D s w); [exact H|lia|lia].
  - apply (rot2_ok G D (g_rxx G) gi_rxx (doc_rxx G D)); [|lia|lia]. intros m t a b' Ha Hb Hab. exact (rpp_lift X_op m t a b' Ha Hb Hab).
  - apply (rot2_ok G D (g_ryy G) gi_ryy (doc_ryy G D)); [|lia|lia]. intros m t a b' Ha Hb Hab. exact (rpp_lift Y_op m t a b' Ha Hb Hab).
  - apply (rot2_ok G D (g_rzz G) gi_rzz (doc_rzz G D)); [|lia|lia]. intros m t a b' Ha Hb Hab. exact (rpp_lift Z_op m t a b' Ha Hb Hab).
Qed.

Lemma old_invalid_raises : forall G c, documented G -> ~ old_valid c -> run_old G c = Err ValueError.
Proof.
  intros G c D V.
  destruct c as [N ps|N ps|N ps|N ps|N|N b|N b|N b|N b|N b|N b|N ps s|N ps s|N ps s|N ps|N ps|N ps]; cbn [old_valid] in V; cbn [run_old].
  1-3: unfold old_XYZ, old_YZY, old_XZX, old3, raise_if; destruct (Z.ltb_spec N 1); [reflexivity|]; destruct (Z.eqb_spec (Z.of_nat (len ps)) (3 * N)); [lia|reflexivity].
  - unfold old_XZ, raise_if; destruct (Z.ltb_spec N 1); [reflexivity|]; destruct (Z.eqb_spec (Z.of_nat (len ps)) (2 * N)); [lia|reflexivity].
  - unfold old_H, raise_if; destruct (Z.ltb_spec N 1); [reflexivity|lia].
  - apply ring_small. lia.
  - apply ring_small. lia.
  - apply ring_small. lia.
  - unfold old_nearest_cnot, old_nearest, old_pairs, raise_if. now replace (N <? 2)%Z with true by lia.
  - unfold old_nearest_cz, old_nearest, old_pairs, raise_if. now replace (N <? 2)%Z with true by lia.
  - unfold old_all2all, old_pairs, raise_if. now replace (N <? 2)%Z with true by lia.
  - destruct (gate_angles s) as [w|] eqn:H; [|now apply basic_none]. apply (basic_bad G D s w); [exact H|]. intros [Hn L]. apply V. split; [exact Hn|]. now exists w.
  - now apply (basic2_bad G D).
  - now apply (strong_bad G D).
  - now apply rot2_bad.
  - now apply rot2_bad.
  - now apply rot2_bad.
Qed.
