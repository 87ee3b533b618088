(** Lemmas: gates constructed with too few, too many or the wrong kind of wires. *)
From Coq Require Import List ZArith Reals Lia Bool Arith.
From Verif Require Import PyBase Scalar CInst BigSum Index Tensor TensorFacts Spec SpecFacts QMath QTN QOperator ExpandFacts ExpandFacts2 GateSpec QGates GateCalls
  GateFacts GateFacts2 GateFacts4 GateProofs MPSSpec MPSFacts6 MPSFacts12 QuanvClosed WireCalls.
Import ListNotations.
Local Close Scope R_scope.
Local Open Scope nat_scope.

Lemma at_0 : forall (A : Type) (a : A) l, py_nth (a :: l) 0 = Ok a.
Proof.
  intros. unfold py_nth, py_index. cbn [length]. destruct (Z.ltb_spec 0 (Z.of_nat (S (length l)))) as [_|H]; [reflexivity|lia].
Qed.
Lemma at_1 : forall (A : Type) (a b : A) l, py_nth (a :: b :: l) 1 = Ok b.
Proof.
  intros. unfold py_nth, py_index. cbn [length]. destruct (Z.ltb_spec 1 (Z.of_nat (S (S (length l))))) as [_|H]; [reflexivity|lia].
Qed.
Lemma at_1_none : forall (A : Type) (l : list A), length l < 2 -> py_nth l 1 = Err IndexError.
Proof. intros A [|a [|b l]] H; try reflexivity. cbn in H. lia. Qed.

(** only the first two wires are read *)
Section Read.
  Variables (N : Z) (w w' : pywires).
  Hypothesis U : wires_unset w = wires_unset w'.
  Hypothesis E0 : wire_at w 0 = wire_at w' 0.
  Hypothesis E1 : wire_at w 1 = wire_at w' 1.
  Lemma two_reads : forall c p m um, In c [crxx; cryy; crzz; ccnot; ccz; ccphase; ccu3; cSWAP] ->
    U_expand (mkG c N w p m um) = U_expand (mkG c N w' p m um) /\
    forall s b, TN_contract (mkG c N w p m um) s b = TN_contract (mkG c N w' p m um) s b.
  Proof.
    intros c p m um H. cbn [In] in H.
    assert (Un : unset N w = unset N w') by (unfold unset; now rewrite U).
    destruct H as [<-|[<-|[<-|[<-|[<-|[<-|[<-|[<-|[]]]]]]]]]; (split; [|intros s b]);
      unfold U_expand, TN_contract; cbn [g_cls g_N g_wires g_matrix g_params g_umatrix];
      unfold rpp_U_expand, ctrl_U_expand, double_TN_contract, swap_TN_contract, p_scalar; cbn [g_cls g_N g_wires g_matrix g_params g_umatrix];
      now rewrite Un, E0, E1.
  Qed.
End Read.

(** what the constructors make *)
Lemma two_wire_made : forall N w w' th ph la c c', In (c, c') (combine (two_wire_calls N w th ph la) (two_wire_calls N w' th ph la)) ->
  exists k p m um, In k [crxx; cryy; crzz; ccnot; ccz; ccphase; ccu3; cSWAP] /\ c = Ok (mkG k N w p m um) /\ c' = Ok (mkG k N w' p m um).
Proof.
  intros N w w' th ph la c c' H. unfold two_wire_calls in H. cbn [combine In] in H.
  destruct H as [H|[H|[H|[H|[H|[H|[H|[H|[]]]]]]]]]; injection H as <- <-.
  - exists crxx. unfold rxx. rewrite PauliX_op, rpp_m_ok. do 3 eexists. split; [cbn; tauto|]. split; reflexivity.
  - exists cryy. unfold ryy. rewrite PauliY_op, rpp_m_ok. do 3 eexists. split; [cbn; tauto|]. split; reflexivity.
  - exists crzz. unfold rzz. rewrite PauliZ_op, rpp_m_ok. do 3 eexists. split; [cbn; tauto|]. split; reflexivity.
  - exists ccnot. do 3 eexists. split; [cbn; tauto|]. split; reflexivity.
  - exists ccz. do 3 eexists. split; [cbn; tauto|]. split; reflexivity.
  - exists ccphase. unfold cphase. rewrite cphase_m_ok. do 3 eexists. split; [cbn; tauto|]. split; reflexivity.
  - exists ccu3. unfold cu3. rewrite u3_m_ok. cbn [bind]. rewrite cu3_m_ok. do 3 eexists. split; [cbn; tauto|]. split; reflexivity.
  - exists cSWAP. do 3 eexists. split; [cbn; tauto|]. split; reflexivity.
Qed.
Lemma two_wire_one : forall N w th ph la c, In c (two_wire_calls N w th ph la) ->
  exists k p m um, In k [crxx; cryy; crzz; ccnot; ccz; ccphase; ccu3; cSWAP] /\ c = Ok (mkG k N w p m um).
Proof.
  intros N w th ph la c H.
  assert (X : In (c, c) (combine (two_wire_calls N w th ph la) (two_wire_calls N w th ph la))).
  { revert H. generalize (two_wire_calls N w th ph la). intros l. induction l as [|x l IH]; [intros []|].
    intros [->|H]; [left; reflexivity|right; auto]. }
  destruct (two_wire_made _ _ _ _ _ _ _ _ X) as (k & p & m & um & H1 & H2 & _). eauto 8.
Qed.

(** surplus wires are ignored by the matrix and the contraction *)
Lemma surplus_ignored : forall N a b rest th ph la c c',
  In (c, c') (combine (two_wire_calls N (WList (a :: b :: rest)) th ph la) (two_wire_calls N (WList [a; b]) th ph la)) ->
  exists g g', c = Ok g /\ c' = Ok g' /\ U_expand g = U_expand g' /\ forall s bm, TN_contract g s bm = TN_contract g' s bm.
Proof.
  intros N a b rest th ph la c c' H. destruct (two_wire_made _ _ _ _ _ _ _ _ H) as (k & p & m & um & K & -> & ->).
  do 2 eexists. split; [reflexivity|]. split; [reflexivity|]. refine (two_reads N _ _ _ _ _ _ _ _ _ K); cbn [wire_at]; [reflexivity|now rewrite !at_0|now rewrite !at_1].
Qed.

(** too few wires *)
Lemma few_refused : forall N l th ph la c, length l < 2 -> In c (two_wire_calls N (WList l) th ph la) ->
  exists g, c = Ok g /\ (forall u, U_expand g <> Ok u) /\ forall s bm t, TN_contract g s bm <> Ok t.
Proof.
  intros N l th ph la c Hl H. destruct (two_wire_one _ _ _ _ _ _ H) as (k & p & m & um & K & ->).
  eexists. split; [reflexivity|]. pose proof (at_1_none Z l Hl) as E1. cbn [In] in K.
  destruct K as [<-|[<-|[<-|[<-|[<-|[<-|[<-|[<-|[]]]]]]]]]; (split; [intros u|intros s bm t]);
    unfold U_expand, TN_contract; cbn [g_cls g_N g_wires g_matrix g_params g_umatrix];
    unfold rpp_U_expand, ctrl_U_expand, double_TN_contract, swap_TN_contract, p_scalar; cbn [g_cls g_N g_wires g_matrix g_params g_umatrix wire_at];
    rewrite E1; unfold raise_if; repeat (match goal with |- context [if ?x then _ else _] => destruct x end); try discriminate;
    try (destruct p as [[?|?]|]; cbn [bind]); try discriminate;
    (destruct (py_nth l 0); cbn [bind]); try discriminate; destruct ((_ || _)%bool); discriminate.
Qed.

(** an integer instead of a list *)
Lemma int_refused : forall N z th ph la c, In c (two_wire_calls N (WInt z) th ph la) ->
  exists g, c = Ok g /\ (forall u, U_expand g <> Ok u) /\ (forall s bm t, TN_contract g s bm <> Ok t) /\ forall svd l m, TN_operation svd g l <> Ok m.
Proof.
  intros N z th ph la c H. destruct (two_wire_one _ _ _ _ _ _ H) as (k & p & m & um & K & ->).
  eexists. split; [reflexivity|]. cbn [In] in K.
  destruct K as [<-|[<-|[<-|[<-|[<-|[<-|[<-|[<-|[]]]]]]]]]; (split; [intros u|split; [intros s bm t|intros svd l t]]);
    unfold U_expand, TN_contract, TN_operation; cbn [g_cls g_N g_wires g_matrix g_params g_umatrix];
    unfold rpp_U_expand, ctrl_U_expand, double_TN_contract, swap_TN_contract, p_scalar, cnot_TN_operation, ctrl_TN_operation, swap_TN_operation;
    cbn [g_cls g_N g_wires g_matrix g_params g_umatrix wire_at wire_list];
    unfold raise_if; repeat (match goal with |- context [if ?x then _ else _] => destruct x end); try discriminate;
    try (destruct p as [[?|?]|]; cbn [bind]); discriminate.
Qed.

(** a list for a gate on one wire *)
Lemma list_refused : forall g l, one_qubit_cls (g_cls g) = true -> g_wires g = WList l ->
  (forall u, U_expand g <> Ok u) /\ (forall s bm t, TN_contract g s bm <> Ok t) /\ forall svd m t, TN_operation svd g m <> Ok t.
Proof.
  intros g l H W. split; [intros u|split; [intros s bm t|intros svd m t]]; unfold U_expand, TN_contract, TN_operation;
    destruct (g_cls g); try discriminate H; unfold single_U_expand, single_TN_contract, single_TN_operation; rewrite W; cbn [wire_int bind];
    unfold raise_if; repeat (match goal with |- context [if ?x then _ else _] => destruct x end); discriminate.
Qed.

(** the matrix product state forms *)
Lemma mps_two_wires : forall svd N l th ph la c m, length l <> 2 ->
  In c [cz N (WList l); cphase th N (WList l); cu3 [th; ph; la] N (WList l); SWAP N (WList l)] ->
  exists g, c = Ok g /\ TN_operation svd g m = Err ValueError.
Proof.
  intros svd N l th ph la c m Hl H.
  assert (X : exists k p t um, In k [ccz; ccphase; ccu3; cSWAP] /\ c = Ok (mkG k N (WList l) p t um)).
  { cbn [In] in H. destruct H as [<-|[<-|[<-|[<-|[]]]]].
    - exists ccz. do 3 eexists. split; [cbn; tauto|reflexivity].
    - exists ccphase. unfold cphase. rewrite cphase_m_ok. do 3 eexists. split; [cbn; tauto|reflexivity].
    - exists ccu3. unfold cu3. rewrite u3_m_ok. cbn [bind]. rewrite cu3_m_ok. do 3 eexists. split; [cbn; tauto|reflexivity].
    - exists cSWAP. do 3 eexists. split; [cbn; tauto|reflexivity]. }
  destruct X as (k & p & t & um & K & ->). eexists. split; [reflexivity|]. cbn [In] in K.
  destruct K as [<-|[<-|[<-|[<-|[]]]]]; unfold TN_operation; cbn [g_cls g_N g_wires g_matrix g_params g_umatrix];
    unfold ctrl_TN_operation, swap_TN_operation; cbn [wire_list bind]; destruct (Nat.eqb_spec (length l) 2) as [E|_]; try contradiction;
    unfold raise_if; cbn [negb]; destruct (unset _ _); reflexivity.
Qed.

Lemma py_min_is : forall l lo, In lo l -> Forall (fun x => (lo <= x)%Z) l -> py_min l = Ok lo.
Proof.
  intros [|x l] lo H F; [destruct H|]. cbn [py_min]. f_equal. revert x H F. induction l as [|y l IH]; intros x H F; cbn [fold_left].
  - destruct H as [H|[]]. exact H.
  - apply IH.
    + inversion_clear F as [|? ? Fx F']. inversion_clear F' as [|? ? Fy F'']. destruct H as [->|[->|H]]; [left; lia|left; lia|right; exact H].
    + inversion_clear F as [|? ? Fx F']. inversion_clear F' as [|? ? Fy F'']. constructor; [lia|exact F''].
Qed.
Lemma py_max_is : forall l hi, In hi l -> Forall (fun x => (x <= hi)%Z) l -> py_max l = Ok hi.
Proof.
  intros [|x l] lo H F; [destruct H|]. cbn [py_max]. f_equal. revert x H F. induction l as [|y l IH]; intros x H F; cbn [fold_left].
  - destruct H as [H|[]]. exact H.
  - apply IH.
    + inversion_clear F as [|? ? Fx F']. inversion_clear F' as [|? ? Fy F'']. destruct H as [->|[->|H]]; [left; lia|left; lia|right; exact H].
    + inversion_clear F as [|? ? Fx F']. inversion_clear F' as [|? ? Fy F'']. constructor; [lia|exact F''].
Qed.

Lemma both_min : forall l lo hi, In lo l -> Forall (fun x => (lo <= x <= hi)%Z) l -> py_min l = Ok lo.
Proof. intros l lo hi H F. apply py_min_is; [exact H|]. eapply Forall_impl; [|exact F]. intros x Hx. apply Hx. Qed.
Lemma both_max : forall l lo hi, In hi l -> Forall (fun x => (lo <= x <= hi)%Z) l -> py_max l = Ok hi.
Proof. intros l lo hi H F. apply py_max_is; [exact H|]. eapply Forall_impl; [|exact F]. intros x Hx. apply Hx. Qed.

(** cnot on a matrix product state looks at the smallest and the largest wire, and at whether the first one is the smallest *)
Lemma cnot_mps_wires : forall svd N w rest lo hi m, In lo (w :: rest) -> In hi (w :: rest) -> Forall (fun x => (lo <= x <= hi)%Z) (w :: rest) ->
  exists g g', cnot N (WList (w :: rest)) = Ok g /\ cnot N (WList (if (w =? lo)%Z then [lo; hi] else [hi; lo])) = Ok g' /\
    TN_operation svd g m = TN_operation svd g' m.
Proof.
  intros svd N w rest lo hi m Hl Hh F. do 2 eexists. split; [reflexivity|]. split; [reflexivity|].
  unfold TN_operation. cbn [g_cls g_N g_wires g_matrix]. unfold cnot_TN_operation.
  assert (L : (lo <= hi)%Z) by (rewrite Forall_forall in F; specialize (F lo Hl); lia).
  set (l' := if (w =? lo)%Z then [lo; hi] else [hi; lo]). cbn [wire_list bind].
  rewrite (both_min _ _ _ Hl F), (both_max _ _ _ Hh F).
  assert (M : In lo l' /\ In hi l' /\ Forall (fun x => (lo <= x <= hi)%Z) l').
  { unfold l'. destruct (w =? lo)%Z; (split; [cbn; tauto|]; split; [cbn; tauto|]); repeat constructor; lia. }
  destruct M as (M1 & M2 & M3).
  rewrite (both_min _ _ _ M1 M3), (both_max _ _ _ M2 M3).
  assert (W0 : exists x, py_nth l' 0 = Ok x /\ (x =? lo)%Z = (w =? lo)%Z).
  { unfold l'. destruct (Z.eqb_spec w lo) as [E|E]; rewrite at_0; eexists; (split; [reflexivity|]).
    - apply Z.eqb_refl.
    - apply Z.eqb_neq. rewrite Forall_forall in F. specialize (F w (or_introl eq_refl)). lia. }
  destruct W0 as (x & E0 & Ex). rewrite E0, at_0. cbn [bind]. rewrite Ex. unfold unset. cbn [wires_unset]. reflexivity.
Qed.

(** so the two forms differ when there are three wires *)
Lemma flip_other : forall n a b c, a < n -> b < n -> c < n -> a <> b -> a <> c -> b <> c ->
  ~ op_eq n (gi_op n (gi_cnot a b)) (gi_op n (gi_cnot a c)).
Proof.
  intros n a b c Ha Hb Hc Hab Hac Hbc H.
  set (x := set_nth a 1 (repeat 0 n)).
  assert (Lx : length x = n) by (unfold x; now rewrite set_nth_length, repeat_length).
  assert (Bx : In x (bits n)).
  { apply in_bits. split; [exact Lx|]. intros i Hi. unfold x. rewrite nth_set_nth by (rewrite repeat_length; lia).
    destruct (i =? a); [lia|]. rewrite nth_repeat. lia. }
  pose (psi := fun y : list nat => if nth b y 0 =? 1 then RtoC 1 else RtoC 0).
  assert (P : st_eq (SC := C_scalar) n (act n (gi_op n (gi_cnot a b)) psi) (act n (gi_op n (gi_cnot a c)) psi)).
  { apply (act_proper (SC := C_scalar) n); [exact H|intros y Hy; reflexivity]. }
  specialize (P x Bx). rewrite (act_cnot n a b psi Ha Hb Hab x Bx), (act_cnot n a c psi Ha Hc Hac x Bx) in P.
  unfold psi, flip in P.
  assert (X1 : nth a x 0 = 1) by (unfold x; rewrite nth_set_nth, Nat.eqb_refl by (rewrite repeat_length; lia); reflexivity).
  assert (X2 : nth b x 0 = 0) by (unfold x; rewrite nth_set_nth by (rewrite repeat_length; lia); destruct (Nat.eqb_spec b a); [lia|apply nth_repeat]).
  rewrite X1, X2 in P. cbn [Nat.eqb Nat.sub] in P.
  rewrite nth_set_nth, Nat.eqb_refl in P by lia. rewrite nth_set_nth in P by lia. destruct (Nat.eqb_spec b c) as [E|_]; [lia|].
  rewrite X2 in P. cbn in P. injection P as P. now apply R1_neq_R0.
Qed.

Lemma cnot_three_wires : forall svd n a b c l psi, exact_svd svd -> a < b < c -> c < n -> is_mps n l psi -> nonzero n psi ->
  exists g u l', cnot (Z.of_nat n) (WList [Z.of_nat a; Z.of_nat b; Z.of_nat c]) = Ok g /\
    U_expand g = Ok u /\ is_op n u (gi_op n (gi_cnot a b)) /\
    TN_operation svd g l = Ok l' /\ is_mps n l' (act n (gi_op n (gi_cnot a c)) psi) /\
    ~ op_eq n (gi_op n (gi_cnot a b)) (gi_op n (gi_cnot a c)).
Proof.
  intros svd n a b c l psi Hs Hab Hc HM Hnz.
  assert (Wb : gi_ok n (gi_cnot a b)) by (split; [apply good_wires_2; lia|exact I]).
  assert (Wc : gi_ok n (gi_cnot a c)) by (split; [apply good_wires_2; lia|exact I]).
  destruct (TN_operation_obj svd n (gi_cnot a c) l psi Hs Wc eq_refl HM Hnz) as (l' & E & M & _).
  set (z := Z.of_nat).
  destruct (cnot_mps_wires svd (z n) (z a) [z b; z c] (z a) (z c) l) as (g & g' & G & G' & T).
  { left. reflexivity. } { right. right. left. reflexivity. } { unfold z. repeat constructor; lia. }
  rewrite Z.eqb_refl in G'. exists g, (op_tensor n (gi_op n (gi_cnot a b))), l'. split; [exact G|].
  pose proof (build_ok n (gi_cnot a c)) as B. cbn [build zl map] in B. unfold zl in B. cbn [map] in B.
  assert (g' = obj n (gi_cnot a c)) as -> by (unfold z in G'; congruence).
  pose proof (build_ok n (gi_cnot a b)) as B'. cbn [build] in B'. unfold zl in B'. cbn [map] in B'.
  destruct (surplus_ignored (z n) (z a) (z b) [z c] 0 0 0 (cnot (z n) (WList [z a; z b; z c])) (cnot (z n) (WList [z a; z b]))) as (h & h' & H1 & H2 & H3 & _).
  { cbn. tauto. }
  assert (h = g) as -> by congruence. assert (h' = obj n (gi_cnot a b)) as -> by (unfold z in H2; congruence).
  split; [rewrite H3; now apply U_expand_obj|]. split; [apply is_op_tensor|]. split; [rewrite T; exact E|]. split; [exact M|].
  apply flip_other; lia.
Qed.

Lemma cnot_one_wire : forall svd n q l psi, exact_svd svd -> 0 < q < n -> is_mps n l psi -> nonzero n psi ->
  exists g l', cnot (Z.of_nat n) (WList [Z.of_nat q]) = Ok g /\ (forall u, U_expand g <> Ok u) /\
    TN_operation svd g l = Ok l' /\ is_mps n l' (act n (gi_op n (gi_cnot (q - 1) q)) psi).
Proof.
  intros svd n q l psi Hs Hq HM Hnz. set (z := Z.of_nat).
  destruct (equal_wires svd n q 0 0 0 (cnot (z n) (WList [z q; z q])) X_op l psi Hs Hq) as (o & l' & B & _ & T & M); auto.
  { left. reflexivity. }
  destruct (cnot_mps_wires svd (z n) (z q) [] (z q) (z q) l) as (g & g' & G & G' & E).
  { left. reflexivity. } { left. reflexivity. } { repeat constructor; lia. }
  rewrite Z.eqb_refl in G'. assert (g' = o) as -> by congruence.
  exists g, l'. split; [exact G|]. split.
  - destruct (few_refused (z n) [z q] 0 0 0 (cnot (z n) (WList [z q]))) as (h & H1 & H2 & _); [cbn; lia|cbn; tauto|]. assert (h = g) as -> by congruence. exact H2.
  - split; [rewrite E; exact T|exact M].
Qed.

(** toffoli counts its wires when constructed; the multi-controlled gate needs a control *)
Lemma toffoli_count : forall N l, length l <> 3 -> toffoli N (WList l) = Err ValueError.
Proof. intros N l H. unfold toffoli. cbn [wires_unset wire_list bind]. destruct (Nat.eqb_spec (length l) 3); [contradiction|reflexivity]. Qed.
Lemma toffoli_three : forall N l g, toffoli N (WList l) = Ok g -> exists a b c, l = [a; b; c].
Proof.
  intros N l g H. destruct (Nat.eq_dec (length l) 3) as [E|E]; [|rewrite toffoli_count in H by auto; discriminate].
  destruct l as [|a [|b [|c [|d l]]]]; cbn in E; try lia. eauto.
Qed.
Lemma toffoli_int : forall N z, z <> (-1)%Z -> toffoli N (WInt z) = Err TypeError.
Proof. intros N z H. unfold toffoli. cbn [wires_unset wire_list bind]. destruct (Z.eqb_spec z (-1)); [contradiction|reflexivity]. Qed.

(** which exception it is *)
Ltac two_open := unfold U_expand, TN_contract, TN_operation; cbn [g_cls g_N g_wires g_matrix g_params g_umatrix];
    unfold rpp_U_expand, ctrl_U_expand, double_TN_contract, swap_TN_contract, p_scalar, cnot_TN_operation, ctrl_TN_operation, swap_TN_operation, unset, raise_if;
    cbn [g_cls g_N g_wires g_matrix g_params g_umatrix wire_at wire_list wires_unset].
Lemma two_wire_params : forall N w th ph la c, In c (two_wire_calls N w th ph la) ->
  exists k p m um, In k [crxx; cryy; crzz; ccnot; ccz; ccphase; ccu3; cSWAP] /\ c = Ok (mkG k N w p m um) /\ (k = ccphase -> p = Some (PS th)).
Proof.
  intros N w th ph la c H. unfold two_wire_calls in H. cbn [In] in H.
  destruct H as [<-|[<-|[<-|[<-|[<-|[<-|[<-|[<-|[]]]]]]]]].
  - exists crxx. unfold rxx. rewrite PauliX_op, rpp_m_ok. do 3 eexists. split; [cbn; tauto|]. split; [reflexivity|discriminate].
  - exists cryy. unfold ryy. rewrite PauliY_op, rpp_m_ok. do 3 eexists. split; [cbn; tauto|]. split; [reflexivity|discriminate].
  - exists crzz. unfold rzz. rewrite PauliZ_op, rpp_m_ok. do 3 eexists. split; [cbn; tauto|]. split; [reflexivity|discriminate].
  - exists ccnot. do 3 eexists. split; [cbn; tauto|]. split; [reflexivity|discriminate].
  - exists ccz. do 3 eexists. split; [cbn; tauto|]. split; [reflexivity|discriminate].
  - exists ccphase. unfold cphase. rewrite cphase_m_ok. do 3 eexists. split; [cbn; tauto|]. split; reflexivity.
  - exists ccu3. unfold cu3. rewrite u3_m_ok. cbn [bind]. rewrite cu3_m_ok. do 3 eexists. split; [cbn; tauto|]. split; [reflexivity|discriminate].
  - exists cSWAP. do 3 eexists. split; [cbn; tauto|]. split; [reflexivity|discriminate].
Qed.
Lemma few_raises : forall N l th ph la c, (1 <= N)%Z -> length l < 2 -> (forall z, In z l -> (0 <= z < N)%Z) -> In c (two_wire_calls N (WList l) th ph la) ->
  exists g, c = Ok g /\ U_expand g = Err IndexError /\ forall s bm, TN_contract g s bm = Err IndexError.
Proof.
  intros N l th ph la c HN Hl HR H. destruct (two_wire_params _ _ _ _ _ _ H) as (k & p & m & um & K & -> & P).
  eexists. split; [reflexivity|]. pose proof (at_1_none Z l Hl) as E1. cbn [In] in K.
  assert (E0 : py_nth l 0 = Err IndexError \/ exists w, py_nth l 0 = Ok w /\ ((w <? 0)%Z || (N - 1 <? w)%Z) = false).
  { destruct l as [|w l]; [now left|]. right. exists w. split; [reflexivity|]. specialize (HR w (or_introl eq_refl)). lia. }
  assert (N1 : (N =? -1)%Z = false) by lia. assert (N2 : (N <? 1)%Z = false) by lia.
  destruct K as [<-|[<-|[<-|[<-|[<-|[<-|[<-|[<-|[]]]]]]]]]; (split; [|intros s bm]);
    two_open; rewrite E1, N1, ?N2; cbn [orb]; try (rewrite (P eq_refl); cbn [bind]); cbn [bind]; destruct E0 as [-> | (w & -> & E2)]; cbn [bind]; rewrite ?E2; reflexivity.
Qed.
Lemma int_raises : forall N z th ph la c, (1 <= N)%Z -> In c (two_wire_calls N (WInt z) th ph la) ->
  let e := if (z =? -1)%Z then ValueError else TypeError in
  exists g, c = Ok g /\ U_expand g = Err e /\ (forall s bm, TN_contract g s bm = Err e) /\
    forall svd l, TN_operation svd g l = Err e \/ TN_operation svd g l = Err AttributeError.
Proof.
  intros N z th ph la c HN H e. destruct (two_wire_params _ _ _ _ _ _ H) as (k & p & m & um & K & -> & P).
  eexists. split; [reflexivity|]. cbn [In] in K.
  assert (N1 : (N =? -1)%Z = false) by lia. assert (N2 : (N <? 1)%Z = false) by lia. unfold e.
  destruct K as [<-|[<-|[<-|[<-|[<-|[<-|[<-|[<-|[]]]]]]]]]; (split; [|split; [intros s bm|intros svd l]]);
    two_open; rewrite ?N1, ?N2; cbn [orb]; try (rewrite (P eq_refl); cbn [bind]); cbn [bind]; destruct (z =? -1)%Z; first [reflexivity|now left|now right].
Qed.
Lemma list_raises : forall g l, one_qubit_cls (g_cls g) = true -> (1 <= g_N g)%Z -> g_wires g = WList l ->
  U_expand g = Err TypeError /\ (forall s bm, TN_contract g s bm = Err TypeError) /\ forall svd m, TN_operation svd g m = Err TypeError.
Proof.
  intros g l H HN W. assert (N1 : (g_N g =? -1)%Z = false) by lia. assert (N2 : (g_N g <? 1)%Z = false) by lia.
  split; [|split; [intros s bm|intros svd m]]; unfold U_expand, TN_contract, TN_operation;
    destruct (g_cls g); try discriminate H; unfold single_U_expand, single_TN_contract, single_TN_operation, unset, raise_if; rewrite W; cbn [wire_int bind wires_unset];
    rewrite N1, ?N2; reflexivity.
Qed.
Lemma mcx_count : forall N, multi_control_cnot N (WList []) = Err IndexError /\
  (forall z, multi_control_cnot N (WInt z) = Err TypeError) /\
  forall t, exists g, multi_control_cnot N (WList [t]) = Ok g /\ U_expand g = Err ValueError.
Proof.
  intros N. split; [reflexivity|]. split; [reflexivity|]. intros t. eexists. split; [reflexivity|].
  unfold U_expand. cbn [g_cls g_N g_wires]. unfold raise_if. destruct (unset _ _); [reflexivity|]. cbn [wire_list bind length Nat.sub firstn].
  change (py_nth [t] (-1)) with (Ok t). cbn [bind]. unfold multi_control_gate, raise_if. destruct (N <? 1)%Z; cbn; reflexivity.
Qed.
