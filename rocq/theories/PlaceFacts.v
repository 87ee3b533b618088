(** Lemmas: moving circuits to other wires. *)
From Coq Require Import List ZArith Reals Lia Bool Arith Setoid Morphisms.
From Verif Require Import PyBase Scalar CInst BigSum Index Tensor TensorFacts Spec SpecFacts QMath QTN QOperator ExpandFacts ExpandFacts2 ContractFacts ContractFacts2 GateSpec QGates GateCalls
  GateFacts GateFacts2 GateProofs RunSpec MPSSpec MPSFacts1 MPSFacts2 MPSFacts4 MPSFacts5 MPSFacts6 LayerSpec QLayers LayerCalls LayerFacts1 LayerFacts4 LayerProofs CircuitSpec QCircuit
  CircuitFacts1 CircuitProofs PlaceSpec StateFacts.
Import ListNotations.
Local Close Scope R_scope.
Local Open Scope nat_scope.

Section Move.
  Variables (n : nat) (ws : list nat).
  Hypothesis W : good_wires n ws.
  Notation k := (length ws).
  Notation f := (fun i => nth i ws 0).

  Lemma move_lt : forall w, w < k -> f w < n.
  Proof. intros w H. apply W. now apply nth_In. Qed.
  Lemma move_wires : forall vs, good_wires k vs -> good_wires n (map f vs).
  Proof. intros vs H. now apply good_wires_map. Qed.
  Lemma gate_wires : forall g, gi_wires (move_gate f g) = map f (gi_wires g).
  Proof. intros []; cbn; try reflexivity. now rewrite map_app. Qed.
  Lemma gate_ok : forall g, gi_ok k g -> gi_ok n (move_gate f g).
  Proof.
    intros g [H1 H2]. split; [rewrite gate_wires; now apply move_wires|]. destruct g; auto. cbn. destruct cs; [contradiction|discriminate].
  Qed.
  Lemma lift_move : forall A vs, (forall v, In v vs -> v < k) -> op_eq (SC := C_scalar) n (lift A (map f vs)) (lift (lift A vs) ws).
  Proof. intros A vs H. symmetry. now apply lift_lift. Qed.
  Lemma ctrl_move : forall A cs vs, (forall v, In v cs -> v < k) -> (forall v, In v vs -> v < k) ->
    op_eq (SC := C_scalar) n (ctrl (map f cs) (lift A (map f vs))) (lift (ctrl cs (lift A vs)) ws).
  Proof. intros A cs vs H1 H2. rewrite lift_ctrl by auto. apply ctrl_ext. now apply lift_move. Qed.
  Lemma rpp_move : forall P t a b, a < k -> b < k -> op_eq n (rpp_op P n t (f a) (f b)) (lift (rpp_op P k t a b) ws).
  Proof.
    intros P t a b Ha Hb. unfold rpp_op. rewrite lift_comb by auto. intros r c Hr Hc. unfold add_op, scale_op.
    rewrite (lift_id n ws W r c Hr Hc), (lift_mul_sub n ws a b P P W Ha Hb r c Hr Hc). reflexivity.
  Qed.
  Lemma swap_move : forall a b, a < k -> b < k -> a <> b -> op_eq (SC := C_scalar) n (swap_op (f a) (f b)) (lift (swap_op a b) ws).
  Proof.
    intros a b Ha Hb Hab. rewrite swap_lift by (auto using move_lt; intros E; apply Hab; apply (NoDup_nth ws 0); auto; apply W).
    assert (V : forall v, In v [a; b] -> v < k) by (intros v [<-|[<-|[]]]; auto). rewrite <- (lift_lift n ws [a; b]) by auto.
    symmetry. apply lift_ext; [apply W|]. now apply swap_lift.
  Qed.
  Lemma gate_move : forall g, gi_ok k g -> op_eq n (gi_op n (move_gate f g)) (lift (gi_op k g) ws).
  Proof.
    intros g [[D B] _]. destruct g; cbn [gi_wires gi_op move_gate] in *;
    try (match goal with |- op_eq _ (lift ?A [nth ?w ws 0]) _ => exact (lift_move A [w] B) end);
    try (match goal with |- op_eq _ (ctrl [nth ?c ws 0] (lift ?A [nth ?t ws 0])) _ => apply (ctrl_move A [c] [t]); cbn; intros v [<-|[]]; apply B; cbn; auto end);
    try (apply rpp_move; apply B; cbn; auto).
    - apply swap_move; try (apply B; cbn; auto). inversion_clear D as [|? ? N _]. intros ->. apply N. now left.
    - apply (ctrl_move X_op [c1; c2] [t]); cbn; intros v Hv; apply B; cbn; tauto.
    - apply (ctrl_move X_op cs [t]); intros v Hv; apply B, in_or_app; auto.
  Qed.
  Lemma gates_move : forall gs, Forall (gi_ok k) gs -> op_eq n (gs_op n (map (move_gate f) gs)) (lift (gs_op k gs) ws).
  Proof.
    intros gs. induction gs as [|g gs IH] using rev_ind; intros H; [cbn; symmetry; now apply lift_id|].
    apply Forall_app in H. destruct H as [H1 H2]. inversion_clear H2 as [|? ? Hg _]. unfold gs_op in *. rewrite map_app, !fold_left_app. cbn [map fold_left].
    rewrite IH, gate_move by auto. now apply lift_mul.
  Qed.

  Lemma rot_move : forall axes vs ps, rot_gates axes (map f vs) ps = map (move_gate f) (rot_gates axes vs ps).
  Proof.
    intros axes vs. induction vs as [|v vs IH]; intros ps; [reflexivity|]. cbn [map rot_gates]. rewrite map_app, IH, map_map. f_equal.
    apply map_ext. intros [[] t]; reflexivity.
  Qed.
  Lemma ring_move : forall d vs, ring_gates d (map f vs) = map (move_gate f) (ring_gates d vs).
  Proof.
    intros d vs. assert (X : forall (l : list nat), 0 < length l -> map (fun i => gi_cnot (nth i (map f l) 0) (nth ((i + d) mod length (map f l)) (map f l) 0)) (seq 0 (length (map f l))) =
      map (move_gate f) (map (fun i => gi_cnot (nth i l 0) (nth ((i + d) mod length l) l 0)) (seq 0 (length l)))).
    { intros l Hl. rewrite map_map, map_length. apply map_ext_in. intros i Hi. apply in_seq in Hi. cbn [move_gate].
      rewrite (nth_indep (map f l) 0 (f 0)) by (rewrite map_length; lia).
      rewrite (nth_indep (map f l) 0 (f 0)) by (rewrite map_length; apply Nat.mod_upper_bound; lia). now rewrite !(map_nth f). }
    destruct vs as [|a [|b [|c vs]]]; [reflexivity|apply X; cbn; lia|reflexivity|apply X; cbn; lia].
  Qed.
  Lemma basic_move : forall rep vs ps, basic_gates rep (map f vs) ps = map (move_gate f) (basic_gates rep vs ps).
  Proof.
    induction rep as [|rep IH]; intros vs ps; [reflexivity|]. cbn [basic_gates]. now rewrite !map_app, map_length, IH, rot_move, ring_move.
  Qed.
  Lemma layer_gates_move : forall l, li_gates (move_layer f l) = map (move_gate f) (li_gates l).
  Proof.
    intros []; cbn [li_gates move_layer]; auto using rot_move, ring_move, basic_move.
    - now rewrite !map_map.
    - now rewrite ring_move, map_rev.
  Qed.
  Lemma layer_ok_move : forall l, li_ok k l -> li_ok n (move_layer f l).
  Proof.
    pose proof move_wires as M. intros []; cbn [li_ok move_layer]; rewrite ?map_length; intuition auto.
  Qed.
  Lemma move_ok : forall c, ci_ok k c -> ci_ok n (move ws c).
  Proof. intros [g|l] H; cbn [ci_ok move] in *; [now apply gate_ok|now apply layer_ok_move]. Qed.
  Lemma move_op : forall c, ci_ok k c -> op_eq n (ci_op n (move ws c)) (lift (ci_op k c) ws).
  Proof.
    intros [g|l] H; cbn [ci_ok ci_op move] in *; [now apply gate_move|]. unfold li_op. rewrite layer_gates_move. apply gates_move. now apply li_gates_ok.
  Qed.
  Lemma moves_ok : forall cs, Forall (ci_ok k) cs -> Forall (ci_ok n) (map (move ws) cs).
  Proof. intros cs H. rewrite Forall_map. eapply Forall_impl; [|exact H]. apply move_ok. Qed.
  Lemma moves_op : forall cs, Forall (ci_ok k) cs -> op_eq n (cs_op n (map (move ws) cs)) (lift (cs_op k cs) ws).
  Proof.
    intros cs. induction cs as [|c cs IH] using rev_ind; intros H; [cbn; symmetry; now apply lift_id|].
    apply Forall_app in H. destruct H as [H1 H2]. inversion_clear H2 as [|? ? Hc _]. rewrite map_app. cbn [map]. rewrite !cs_op_snoc, IH, move_op by auto. now apply lift_mul.
  Qed.
End Move.

Lemma place_matrix : forall n ws cs, 0 < n -> ws <> [] -> good_wires n ws -> Forall (ci_ok (length ws)) cs -> exists c u c' u',
  circuit_of (length ws) cs = Ok c /\ cU c true = Ok u /\ circuit_of n (map (move ws) cs) = Ok c' /\ cU c' true = Ok u' /\ is_op n u' (lift (op_of u) ws).
Proof.
  intros n ws cs Hn Hw W H. assert (0 < length ws) by (destruct ws; [contradiction|cbn; lia]). do 4 eexists.
  split; [now apply circuit_of_ok|]. split; [now apply cU_ok|]. split; [apply circuit_of_ok; now apply moves_ok|]. split; [apply cU_ok; auto; now apply moves_ok|].
  eapply is_op_ext; [apply is_op_tensor|]. rewrite moves_op by auto. apply lift_ext; [apply W|]. intros r c Hr Hc. symmetry. now apply (is_op_tensor (length ws) (cs_op (length ws) cs)).
Qed.
Lemma all_wires : forall n ws, good_wires n ws -> length ws = n -> forall i, i < n -> In i ws.
Proof.
  intros n ws [D B] L i Hi. assert (I : incl (seq 0 n) ws).
  { apply NoDup_length_incl; [exact D|rewrite seq_length; lia|]. intros w Hw. apply in_seq. specialize (B w Hw). lia. }
  apply I, in_seq. lia.
Qed.
Lemma place_rename : forall n ws cs, 0 < n -> good_wires n ws -> length ws = n -> Forall (ci_ok n) cs -> exists c u c' u',
  circuit_of n cs = Ok c /\ cU c true = Ok u /\ circuit_of n (map (move ws) cs) = Ok c' /\ cU c' true = Ok u' /\
  forall r s, In r (bits n) -> In s (bits n) -> tget u' [bval r; bval s] = tget u [bval (rd r ws); bval (rd s ws)].
Proof.
  intros n ws cs Hn W L H. destruct (place_matrix n ws cs Hn) as (c & u & c' & u' & E1 & E2 & E3 & E4 & E5); [destruct ws; [cbn in L; lia|discriminate]|auto|now rewrite L|].
  rewrite L in E1. exists c, u, c', u'. repeat (split; [assumption|]). intros r s Hr Hs. destruct E5 as (_ & _ & E5). specialize (E5 r s Hr Hs). unfold op_of in E5 at 1. rewrite E5.
  unfold lift. replace (same_off ws r s) with true; [reflexivity|]. symmetry. unfold same_off. apply forallb_forall. intros i Hi. apply in_seq in Hi. rewrite (bits_length n r Hr) in Hi.
  apply orb_true_iff. left. apply existsb_eqb_In. apply (all_wires n ws W L). lia.
Qed.
Lemma place_contract : forall n ws cs s, ws <> [] -> good_wires n ws -> Forall (ci_ok (length ws)) cs -> forallb (ci_con n) (map (move ws) cs) = true ->
  shape s = repeat 2 n -> wf s -> exists c u c' s',
  circuit_of (length ws) cs = Ok c /\ cU c true = Ok u /\ circuit_of n (map (move ws) cs) = Ok c' /\ TN_contract_evolution c' s false = Ok s' /\
  is_state n (repeat 2 n) s' (apply_on (op_of u) ws (amp s)).
Proof.
  intros n ws cs s Hw W H HC S F. assert (Hk : 0 < length ws) by (destruct ws; [contradiction|cbn; lia]).
  destruct (contraction_product n (map (move ws) cs) s (moves_ok n ws W cs H) HC S F) as (c' & s' & E1 & E2 & E3). exists (circ (length ws) cs). eexists. exists c', s'.
  split; [now apply circuit_of_ok|]. split; [now apply cU_ok|]. split; [exact E1|]. split; [exact E2|].
  destruct E3 as (A & B & D). split; [exact A|]. split; [exact B|]. intros b Hb. rewrite (D b Hb).
  assert (X : st_eq (SC := C_scalar) n (act n (cs_op n (map (move ws) cs)) (amp s)) (act n (lift (cs_op (length ws) cs) ws) (amp s))) by (now rewrite (moves_op n ws W cs H)).
  rewrite (X b Hb). rewrite (act_lift n _ ws (amp s) W b Hb). unfold apply_on. apply bigsum_ext. intros x Hx. f_equal.
  symmetry. apply (is_op_tensor (length ws) (cs_op (length ws) cs)); [|exact Hx]. apply (rd_in_bits n); auto. apply W.
Qed.
Lemma place_act : forall n ws cs psi, good_wires n ws -> Forall (ci_ok (length ws)) cs ->
  st_eq (SC := C_scalar) n (act n (cs_op n (map (move ws) cs)) psi) (apply_on (op_of (op_tensor (length ws) (cs_op (length ws) cs))) ws psi).
Proof.
  intros n ws cs psi W H b Hb.
  assert (X : st_eq (SC := C_scalar) n (act n (cs_op n (map (move ws) cs)) psi) (act n (lift (cs_op (length ws) cs) ws) psi)) by (now rewrite (moves_op n ws W cs H)).
  rewrite (X b Hb). rewrite (act_lift n _ ws psi W b Hb). unfold apply_on. apply bigsum_ext. intros x Hx. f_equal.
  symmetry. apply (is_op_tensor (length ws) (cs_op (length ws) cs)); [|exact Hx]. apply (rd_in_bits n); auto. apply W.
Qed.
Lemma place_mps : forall svd n ws cs l psi, exact_svd svd -> ws <> [] -> good_wires n ws -> Forall (ci_ok (length ws)) cs -> forallb (ci_TN n) (map (move ws) cs) = true ->
  is_mps n l psi -> nonzero n psi -> exists c u c' l',
  circuit_of (length ws) cs = Ok c /\ cU c true = Ok u /\ circuit_of n (map (move ws) cs) = Ok c' /\ TN_evolution svd c' l = Ok l' /\
  is_mps n l' (apply_on (op_of u) ws psi).
Proof.
  intros svd n ws cs l psi Hs Hw W H HT M Z. assert (Hk : 0 < length ws) by (destruct ws; [contradiction|cbn; lia]).
  destruct (mps_product svd n (map (move ws) cs) l psi Hs (moves_ok n ws W cs H) HT M Z) as (c' & l' & E1 & E2 & E3). exists (circ (length ws) cs). eexists. exists c', l'.
  split; [now apply circuit_of_ok|]. split; [now apply cU_ok|]. split; [exact E1|]. split; [exact E2|]. eapply is_mps_st; [exact E3|]. now apply place_act.
Qed.

(** * Replacing a part of a circuit *)
Section Scale.
  Context {SC : Scalar}.
  Add Ring KR : k_ring.
  Local Open Scope k_scope.
  Lemma mul_scale_r : forall n z (A B : qop), op_eq n (mul_op n A (scale_op z B)) (scale_op z (mul_op n A B)).
  Proof. intros n z A B r c _ _. unfold mul_op, scale_op. rewrite <- bigsum_mul_l. apply bigsum_ext. intros x _. ring. Qed.
  Lemma mul_scale_l : forall n z (A B : qop), op_eq n (mul_op n (scale_op z A) B) (scale_op z (mul_op n A B)).
  Proof. intros n z A B r c _ _. unfold mul_op, scale_op. rewrite <- bigsum_mul_l. apply bigsum_ext. intros x _. ring. Qed.
  Lemma act_scale : forall n z (A : qop) psi, st_eq n (act n (scale_op z A) psi) (fun b => z * act n A psi b).
  Proof. intros n z A psi b _. unfold act, scale_op. rewrite <- bigsum_mul_l. apply bigsum_ext. intros x _. ring. Qed.
  Lemma scale_ext : forall n z (A B : qop), op_eq n A B -> op_eq n (scale_op z A) (scale_op z B).
  Proof. intros n z A B H r c Hr Hc. unfold scale_op. now rewrite H. Qed.
  Lemma lift_scaled : forall n z ws (A : qop), op_eq n (lift (scale_op z A) ws) (scale_op z (lift A ws)).
  Proof. intros n z ws A r c _ _. unfold lift, scale_op. destruct same_off; ring. Qed.
End Scale.
Lemma swap_part : forall n z pre a b post, op_eq n (cs_op n a) (scale_op z (cs_op n b)) -> op_eq n (cs_op n (pre ++ a ++ post)) (scale_op z (cs_op n (pre ++ b ++ post))).
Proof.
  intros n z pre a b post H. rewrite cs_op_app, cs_op_app, H, mul_scale_r, mul_scale_l. apply scale_ext. now rewrite !cs_op_app.
Qed.
Lemma moved_part : forall n ws z pre a b post, good_wires n ws -> Forall (ci_ok (length ws)) a -> Forall (ci_ok (length ws)) b ->
  op_eq (length ws) (cs_op (length ws) a) (scale_op z (cs_op (length ws) b)) ->
  op_eq n (cs_op n (pre ++ map (move ws) a ++ post)) (scale_op z (cs_op n (pre ++ map (move ws) b ++ post))).
Proof.
  intros n ws z pre a b post W A B H. apply swap_part. rewrite !moves_op by auto. rewrite (lift_ext n ws _ _ (proj2 W) H), lift_scaled. reflexivity.
Qed.
Lemma parts_ok : forall n ws pre a post, good_wires n ws -> Forall (ci_ok n) pre -> Forall (ci_ok (length ws)) a -> Forall (ci_ok n) post ->
  Forall (ci_ok n) (pre ++ map (move ws) a ++ post).
Proof. intros n ws pre a post W H1 H2 H3. apply Forall_app. split; [exact H1|]. apply Forall_app. split; [now apply moves_ok|exact H3]. Qed.
Lemma same_matrix_op : forall k a b u c1 c2, 0 < k -> Forall (ci_ok k) a -> Forall (ci_ok k) b -> circuit_of k a = Ok c1 -> circuit_of k b = Ok c2 ->
  cU c1 true = Ok u -> cU c2 true = Ok u -> op_eq k (cs_op k a) (cs_op k b).
Proof.
  intros k a b u c1 c2 Hk A B E1 E2 U1 U2. rewrite circuit_of_ok in E1, E2 by auto. injection E1 as <-. injection E2 as <-. rewrite cU_ok in U1, U2 by auto.
  apply op_tensor_inj. congruence.
Qed.
Lemma replace_part : forall n ws pre a b post c1 c2 u, ws <> [] -> good_wires n ws -> Forall (ci_ok n) pre -> Forall (ci_ok n) post ->
  Forall (ci_ok (length ws)) a -> Forall (ci_ok (length ws)) b ->
  circuit_of (length ws) a = Ok c1 -> circuit_of (length ws) b = Ok c2 -> cU c1 true = Ok u -> cU c2 true = Ok u ->
  exists d1 d2 v, circuit_of n (pre ++ map (move ws) a ++ post) = Ok d1 /\ circuit_of n (pre ++ map (move ws) b ++ post) = Ok d2 /\ cU d1 true = Ok v /\ cU d2 true = Ok v.
Proof.
  intros n ws pre a b post c1 c2 u Hw W P1 P2 A B E1 E2 U1 U2. assert (Hk : 0 < length ws) by (destruct ws; [contradiction|cbn; lia]).
  assert (Hn : 0 < n) by (destruct ws as [|w ws']; [contradiction|pose proof (proj2 W w (or_introl eq_refl)); lia]).
  pose proof (same_matrix_op (length ws) a b u c1 c2 Hk A B E1 E2 U1 U2) as E. do 3 eexists. split; [apply circuit_of_ok; now apply parts_ok|]. split; [apply circuit_of_ok; now apply parts_ok|].
  split; [apply cU_ok; auto; now apply parts_ok|]. rewrite cU_ok by (auto; now apply parts_ok). f_equal. apply op_tensor_ext. rewrite !cs_op_app, !moves_op by auto.
  rewrite (lift_ext n ws _ _ (proj2 W) E). reflexivity.
Qed.
