(** The gate lemmas in the form the property files use. *)
From Coq Require Import List ZArith Reals Lra Lia Bool Arith Ring Morphisms ZifyBool.
From Verif Require Import PyBase Scalar CInst BigSum Index Tensor TensorFacts Spec SpecFacts QMath QTN QOperator
  ExpandFacts ExpandFacts2 ContractFacts ContractFacts2 GateSpec QGates GateCalls GateFacts GateFacts2 GateFacts3 GateFacts4 GateFacts5 GateFacts6.
Import ListNotations.

Lemma gate_matrix : forall n g, gi_ok n g ->
  exists o t, build n g = Ok o /\ U_expand o = Ok t /\ is_op n t (gi_op n g).
Proof.
  intros n g W. exists (obj n g), (op_tensor n (gi_op n g)).
  split; [apply build_ok|]. split; [now apply U_expand_obj|apply is_op_tensor].
Qed.


Lemma one_qubit_matrix : forall n w th ph la c A, w < n -> In (c, A) (one_qubit_calls n w th ph la) ->
  exists o t, c = Ok o /\ U_expand o = Ok t /\ is_op n t (lift A [w]).
Proof.
  intros n w th ph la c A Hw H. pose proof (good_wires_1 n w Hw) as W.
  cbn [one_qubit_calls In] in H.
  destruct H as [H|[H|[H|[H|[H|[H|[H|[H|[H|[]]]]]]]]]]; injection H as <- <-.
  - exact (gate_matrix n (gi_H w) (conj W I)).
  - exact (gate_matrix n (gi_X w) (conj W I)).
  - exact (gate_matrix n (gi_Y w) (conj W I)).
  - exact (gate_matrix n (gi_Z w) (conj W I)).
  - exact (gate_matrix n (gi_rx th w) (conj W I)).
  - exact (gate_matrix n (gi_ry th w) (conj W I)).
  - exact (gate_matrix n (gi_rz th w) (conj W I)).
  - exact (gate_matrix n (gi_u1 th w) (conj W I)).
  - exact (gate_matrix n (gi_u3 th ph la w) (conj W I)).
Qed.


Lemma controlled_matrix : forall n c t th ph la k A, c < n -> t < n -> c <> t -> In (k, A) (controlled_calls n c t th ph la) ->
  exists o u, k = Ok o /\ U_expand o = Ok u /\ is_op n u (ctrl [c] (lift A [t])).
Proof.
  intros n c t th ph la k A Hc Ht Hn H. pose proof (good_wires_2 n c t Hc Ht Hn) as W.
  cbn [controlled_calls In] in H.
  destruct H as [H|[H|[H|[H|[]]]]]; injection H as <- <-.
  - exact (gate_matrix n (gi_cnot c t) (conj W I)).
  - exact (gate_matrix n (gi_cz c t) (conj W I)).
  - exact (gate_matrix n (gi_cphase th c t) (conj W I)).
  - exact (gate_matrix n (gi_cu3 th ph la c t) (conj W I)).
Qed.


Lemma rotation2_matrix : forall n a b th k P, a < n -> b < n -> a <> b -> In (k, P) (rotation2_calls n a b th) ->
  exists o u, k = Ok o /\ U_expand o = Ok u /\
    is_op n u (add_op (scale_op (RtoC (cos (th / 2))) id_op)
                      (scale_op (0, - sin (th / 2))%R (mul_op n (lift P [a]) (lift P [b])))) /\
    is_op n u (lift (op_of (g_matrix o)) [a; b]).
Proof.
  intros n a b th k P Ha Hb Hn H. pose proof (good_wires_2 n a b Ha Hb Hn) as W.
  assert (X : exists g, gi_ok n g /\ k = build n g /\ gi_op n g = rpp_op P n th a b /\ gi_wires g = [a; b] /\ is_mcx g = false).
  { cbn [rotation2_calls In] in H. destruct H as [H|[H|[H|[]]]]; injection H as <- <-.
    - exists (gi_rxx th a b). repeat split; auto; apply W.
    - exists (gi_ryy th a b). repeat split; auto; apply W.
    - exists (gi_rzz th a b). repeat split; auto; apply W. }
  destruct X as (g & G & -> & E & EW & NM).
  exists (obj n g), (op_tensor n (gi_op n g)).
  split; [apply build_ok|]. split; [now apply U_expand_obj|].
  split; [rewrite E; apply is_op_tensor|].
  apply is_op_eq, op_tensor_ext. rewrite (gi_op_lift n g G), EW.
  apply lift_ext; [apply W|]. symmetry.
  assert (M : g_matrix (obj n g) = op_tensor (length [a; b]) (gi_loc g)).
  { rewrite <- EW. destruct g; try reflexivity. discriminate NM. }
  rewrite M. apply (is_op_tensor (length [a; b])).
Qed.

Lemma swap_matrix_ok : forall n a b, a < n -> b < n -> a <> b ->
  exists o u, SWAP (Z.of_nat n) (WList [Z.of_nat a; Z.of_nat b]) = Ok o /\ U_expand o = Ok u /\ is_op n u (swap_op a b).
Proof.
  intros n a b Ha Hb Hn. exact (gate_matrix n (gi_swap a b) (conj (good_wires_2 n a b Ha Hb Hn) I)).
Qed.

Lemma toffoli_matrix_ok : forall n a b t, a < n -> b < n -> t < n -> ~ In t [a; b] ->
  exists o u, toffoli (Z.of_nat n) (WList [Z.of_nat a; Z.of_nat b; Z.of_nat t]) = Ok o /\ U_expand o = Ok u /\
    is_op n u (ctrl [a; b] (lift X_op [t])).
Proof.
  intros n a b t Ha Hb Ht Hn. eexists. eexists. split; [reflexivity|]. split; [|apply is_op_tensor].
  unfold U_expand, raise_if. cbn [g_cls g_N g_wires]. unfold unset. cbn [wires_unset].
  replace (Z.of_nat n =? -1)%Z with false by lia. cbn [orb].
  change (wire_at (WList [Z.of_nat a; Z.of_nat b; Z.of_nat t]) 0) with (Ok (Z.of_nat a)).
  change (wire_at (WList [Z.of_nat a; Z.of_nat b; Z.of_nat t]) 1) with (Ok (Z.of_nat b)).
  change (wire_at (WList [Z.of_nat a; Z.of_nat b; Z.of_nat t]) 2) with (Ok (Z.of_nat t)). cbn [bind].
  rewrite sigma_x_op. apply (multi_control_ok n [a; b] t); auto; [discriminate|].
  intros w [<-|[<-|[]]]; auto.
Qed.

Lemma py_nth_last : forall (cs : list Z) t, py_nth (cs ++ [t]) (-1) = Ok t.
Proof.
  intros cs t. unfold py_nth. rewrite app_length. cbn [length]. replace (-1)%Z with (- Z.of_nat 1)%Z by reflexivity.
  rewrite py_index_neg by lia. cbn [bind]. rewrite nth_error_app2 by lia.
  replace (_ - _) with 0 by lia. reflexivity.
Qed.

Lemma mcx_matrix_ok : forall n cs t, cs <> [] -> (forall w, In w cs -> w < n) -> t < n -> ~ In t cs ->
  exists o u, multi_control_cnot (Z.of_nat n) (WList (map Z.of_nat cs ++ [Z.of_nat t])) = Ok o /\ U_expand o = Ok u /\
    is_op n u (ctrl cs (lift X_op [t])).
Proof.
  intros n cs t Hc B Ht Hn. unfold multi_control_cnot. cbn [wire_list bind]. rewrite py_nth_last. cbn [bind].
  eexists. eexists. split; [reflexivity|]. split; [|apply is_op_tensor].
  unfold U_expand, raise_if. cbn [g_cls g_N g_wires]. unfold unset. cbn [wires_unset].
  replace (Z.of_nat n =? -1)%Z with false by lia. cbn [orb wire_list bind]. rewrite py_nth_last. cbn [bind].
  rewrite app_length. cbn [length]. replace (length (map Z.of_nat cs) + 1 - 1) with (length (map Z.of_nat cs)) by lia.
  rewrite firstn_app, Nat.sub_diag, firstn_all. cbn [firstn]. rewrite app_nil_r. rewrite sigma_x_op. now apply multi_control_ok.
Qed.

Lemma bad_wires : forall g t, constructed g -> g_cls g <> cSWAP -> U_expand g = Ok t ->
  exists n, g_N g = Z.of_nat n /\ shape t = [2 ^ n; 2 ^ n] /\ wf t /\ unitary n (op_of t).
Proof.
  intros g t C NS H. destruct (U_expand_unitary g t C NS H) as (n & A & EN & U & ->).
  exists n. split; [exact EN|]. pose proof (is_op_tensor n A) as (S & W & E).
  split; [exact S|]. split; [exact W|]. now rewrite E.
Qed.

Lemma swap_bad_wires : forall N a b g t, SWAP N (WList [a; b]) = Ok g -> U_expand g = Ok t ->
  exists n, N = Z.of_nat n /\ (unitary n (op_of t) <-> (a mod N <> b mod N)%Z).
Proof.
  intros N a b g t E H. destruct (swap_any N a b g E) as [(e & X)|(n & a' & b' & t' & EN & La & Lb & Ea & Eb & X & D)]; [congruence|].
  rewrite X in H. injection H as ->. exists n. split; [exact EN|].
  destruct D as [[Hn ->]|[He ->]].
  - split; [intros _; lia|]. intros _. rewrite (proj2 (proj2 (is_op_tensor n (swap_op a' b')))). now apply swap_unitary_op.
  - split; [|lia]. intros U. exfalso. rewrite (proj2 (proj2 (is_op_tensor n (lift _ [a'])))) in U. now apply ones_not_unitary in U.
Qed.

Lemma swap_equal_ok : forall n a, a < n -> exists g t, SWAP (Z.of_nat n) (WList [Z.of_nat a; Z.of_nat a]) = Ok g /\
  U_expand g = Ok t /\ ~ unitary n (op_of t).
Proof.
  intros n a Ha. eexists. eexists. split; [reflexivity|]. split.
  - unfold U_expand, raise_if. cbn [g_cls g_N g_wires]. unfold unset. cbn [wires_unset].
    replace (Z.of_nat n =? -1)%Z with false by lia. cbn [orb].
    change (wire_at (WList [Z.of_nat a; Z.of_nat a]) 0) with (Ok (Z.of_nat a)).
    change (wire_at (WList [Z.of_nat a; Z.of_nat a]) 1) with (Ok (Z.of_nat a)). cbn [bind]. now apply swap_U_equal.
  - intros U. rewrite (proj2 (proj2 (is_op_tensor n (lift _ [a])))) in U. now apply ones_not_unitary in U.
Qed.

Lemma gate_unitary : forall n g, gi_ok n g ->
  exists o t, build n g = Ok o /\ U_expand o = Ok t /\ shape t = [2 ^ n; 2 ^ n] /\ wf t /\ unitary n (op_of t).
Proof.
  intros n g W. exists (obj n g), (op_tensor n (gi_op n g)).
  split; [apply build_ok|]. split; [now apply U_expand_obj|]. pose proof (is_op_tensor n (gi_op n g)) as (S & F & E).
  split; [exact S|]. split; [exact F|]. rewrite E. now apply gi_unitary.
Qed.

Lemma gate_dagger : forall n g, gi_ok n g ->
  exists o od t td, build n g = Ok o /\ operation_dagger o = Ok od /\ U_expand o = Ok t /\ U_expand od = Ok td /\
    is_op n td (adj_op (op_of t)).
Proof.
  intros n g W. exists (obj n g), (obj n (gi_inv g)), (op_tensor n (gi_op n g)), (op_tensor n (gi_op n (gi_inv g))).
  split; [apply build_ok|]. split; [apply operation_dagger_obj|]. split; [now apply U_expand_obj|].
  split; [now apply U_expand_obj, gi_inv_ok_ok|].
  eapply is_op_ext; [apply is_op_tensor|]. rewrite (gi_inv_ok n g W).
  pose proof (is_op_tensor n (gi_op n g)) as (_ & _ & E). now rewrite E.
Qed.

Lemma gate_dagger_obj : forall n g o, build n g = Ok o -> operation_dagger o = build n (gi_inv g).
Proof. intros n g o H. rewrite build_ok in H. injection H as <-. now rewrite operation_dagger_obj, build_ok. Qed.

Lemma amp_tget : forall n t, shape t = repeat 2 n -> forall b, In b (bits n) -> amp t b = tget t b.
Proof. intros n t S b Hb. unfold amp, tget. rewrite S, <- (bval_flat_n n b) by (now apply bits_length). reflexivity. Qed.

Lemma gate_contract : forall n g s, gi_ok n g -> is_mcx g = false -> shape s = repeat 2 n -> wf s ->
  exists o u s', build n g = Ok o /\ U_expand o = Ok u /\ TN_contract o s false = Ok s' /\
    is_state n (repeat 2 n) s' (act n (op_of u) (amp s)).
Proof.
  intros n g s W M S F. exists (obj n g), (op_tensor n (gi_op n g)).
  assert (E : s = tbuild (repeat 2 n) (amp s)).
  { apply state_eta. split; [exact S|]. split; [|intros b _; reflexivity]. unfold wf in F. rewrite F, S, prodn_repeat. reflexivity. }
  exists (tbuild (repeat 2 n) (act n (gi_op n g) (amp s))).
  split; [apply build_ok|]. split; [now apply U_expand_obj|].
  split; [rewrite E at 1; now apply TN_contract_obj_act|].
  apply state_eta. apply tbuild_st_ext. pose proof (is_op_tensor n (gi_op n g)) as (_ & _ & X). now rewrite X.
Qed.

Lemma wf_tbuild : forall t s, shape t = s -> wf t -> exists T, t = tbuild s T.
Proof. intros t s S W. exists (tget t). rewrite <- S. now apply tensor_eta. Qed.

Lemma sample_select : forall B n t i, shape t = B :: repeat 2 n -> wf t -> i < B ->
  exists u, tselect t (Z.of_nat i) = Ok u /\ sample n i t u.
Proof.
  intros B n t i S W Hi. rewrite (tensor_eta t W), S. exists (tbuild (repeat 2 n) (fun idx => tget t (i :: idx))).
  split; [now apply select_tbuild|]. apply state_eta. apply tbuild_ext. intros idx Hv.
  rewrite tget_tbuild; [reflexivity|]. apply valid_cons; auto.
Qed.

Lemma gate_batch : forall B n g t, gi_ok n g -> is_mcx g = false -> shape t = B :: repeat 2 n -> wf t ->
  exists o t', build n g = Ok o /\ TN_contract o t true = Ok t' /\ shape t' = B :: repeat 2 n /\ wf t' /\
    forall i u, i < B -> sample n i t u -> exists u', TN_contract o u false = Ok u' /\ sample n i t' u'.
Proof.
  intros B n g t W M S F. destruct (wf_tbuild t _ S F) as (T & ->). exists (obj n g). eexists. split; [apply build_ok|].
  split; [now apply TN_contract_obj_batch_act|].
  split; [apply tbuild_shape|]. split; [apply tbuild_wf|].
  intros i u Hi Hu. apply state_eta in Hu. subst u. eexists. split; [now apply TN_contract_obj_act|].
  apply state_eta. apply tbuild_ext. intros idx Hv. symmetry. rewrite tget_tbuild; [|apply valid_cons; auto].
  unfold batched. cbn [hd tl]. apply act_proper; [reflexivity| |now apply bits_valid].
  intros b Hb. rewrite tget_tbuild; [reflexivity|]. apply valid_cons; split; [exact Hi|now apply bits_valid].
Qed.

Lemma gate_update : forall n ps g g' o, gi_sets g ps = Some g' -> build n g = Ok o -> mfold params_update ps o = build n g'.
Proof.
  intros n ps. induction ps as [|p ps IH]; intros g g' o H E; cbn [gi_sets mfold] in *.
  - injection H as <-. now symmetry.
  - destruct (gi_set g p) as [g1|] eqn:G; [|discriminate]. rewrite build_ok in E. injection E as <-.
    rewrite (params_update_obj n g p g1 G). cbn [bind]. apply (IH g1 g'); auto. apply build_ok.
Qed.

Lemma gates_commute : forall n g h, gi_ok n g -> gi_ok n h -> (forall w, In w (gi_wires g) -> ~ In w (gi_wires h)) ->
  exists a b u v p, build n g = Ok a /\ build n h = Ok b /\ U_expand a = Ok u /\ U_expand b = Ok v /\
    matmul u v = Ok p /\ matmul v u = Ok p.
Proof.
  intros n g h G H D. exists (obj n g), (obj n h), (op_tensor n (gi_op n g)), (op_tensor n (gi_op n h)).
  eexists. split; [apply build_ok|]. split; [apply build_ok|]. split; [now apply U_expand_obj|].
  split; [now apply U_expand_obj|]. split; [apply matmul_op|]. rewrite matmul_op. f_equal. apply op_tensor_ext.
  symmetry. now apply gi_comm.
Qed.

Lemma gates_commute_contract : forall n g h s, gi_ok n g -> gi_ok n h -> is_mcx g = false -> is_mcx h = false ->
  (forall w, In w (gi_wires g) -> ~ In w (gi_wires h)) -> shape s = repeat 2 n -> wf s ->
  exists a b s1 s2 r, build n g = Ok a /\ build n h = Ok b /\
    TN_contract a s false = Ok s1 /\ TN_contract b s1 false = Ok r /\
    TN_contract b s false = Ok s2 /\ TN_contract a s2 false = Ok r.
Proof.
  intros n g h s G H MG MH D S F. exists (obj n g), (obj n h). destruct (wf_tbuild s _ S F) as (T & ->).
  do 3 eexists. split; [apply build_ok|]. split; [apply build_ok|].
  split; [now apply TN_contract_obj_act|]. split; [now apply TN_contract_obj_act|].
  split; [now apply TN_contract_obj_act|]. rewrite TN_contract_obj_act by auto. f_equal. apply tbuild_st_ext.
  rewrite <- !act_mul. now rewrite (gi_comm n g h G H D).
Qed.

Lemma gates_commute_batch : forall B n g h s, gi_ok n g -> gi_ok n h -> is_mcx g = false -> is_mcx h = false ->
  (forall w, In w (gi_wires g) -> ~ In w (gi_wires h)) -> shape s = B :: repeat 2 n -> wf s ->
  exists a b s1 s2 r, build n g = Ok a /\ build n h = Ok b /\
    TN_contract a s true = Ok s1 /\ TN_contract b s1 true = Ok r /\
    TN_contract b s true = Ok s2 /\ TN_contract a s2 true = Ok r.
Proof.
  intros B n g h s G H MG MH D S F. exists (obj n g), (obj n h). destruct (wf_tbuild s _ S F) as (T & ->).
  do 3 eexists. split; [apply build_ok|]. split; [apply build_ok|].
  split; [now apply TN_contract_obj_batch_act|]. split; [now apply TN_contract_obj_batch_act|].
  split; [now apply TN_contract_obj_batch_act|]. rewrite TN_contract_obj_batch_act by auto. f_equal. apply tbuild_ext.
  intros idx Hv. destruct idx as [|i idx]; [inversion Hv|]. unfold batched. cbn [hd tl].
  apply valid_cons in Hv. rewrite <- bits_valid in Hv. destruct Hv as [_ Hv].
  transitivity (act n (mul_op n (gi_op n g) (gi_op n h)) (fun b => T (i :: b)) idx).
  - symmetry. now apply act_mul.
  - transitivity (act n (mul_op n (gi_op n h) (gi_op n g)) (fun b => T (i :: b)) idx).
    + apply act_proper; [now apply gi_comm|reflexivity|exact Hv].
    + now apply act_mul.
Qed.
