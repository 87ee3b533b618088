(** Lemmas: one angle of a circuit varies. *)
From Coq Require Import List ZArith QArith Reals Lra Lia Bool Arith Ring Setoid Morphisms FunctionalExtensionality.
From Verif Require Import PyBase Scalar CInst BigSum Index Tensor Spec SpecFacts ExpandFacts2 GateSpec GateFacts RunSpec LayerSpec LayerFacts1 CircuitSpec GradFacts1.
From Verif Require Import LayerFacts2 LayerFacts3 LayerFacts4 QOperator QMath QTN QGates GateCalls QLayers LayerCalls QCircuit CircuitFacts1 CircuitProofs.
Import ListNotations.
Local Close Scope Q_scope.
Local Close Scope R_scope.
Local Open Scope nat_scope.

(** * lists with one entry replaced *)
Lemma set_at_length : forall k x l, k < length l -> length (set_at k x l) = length l.
Proof. intros. unfold set_at. rewrite app_length. cbn [length]. rewrite firstn_length, skipn_length. lia. Qed.
Lemma set_at_0 : forall x y l, set_at 0 x (y :: l) = x :: l.
Proof. reflexivity. Qed.
Lemma set_at_S : forall k x y l, set_at (S k) x (y :: l) = y :: set_at k x l.
Proof. reflexivity. Qed.
Lemma set_at_app1 : forall k x l m, k < length l -> set_at k x (l ++ m) = set_at k x l ++ m.
Proof.
  intros k x l m. revert k. induction l as [|y l IH]; intros k H; [cbn in H; lia|]. destruct k as [|k]; [reflexivity|].
  cbn [app]. rewrite !set_at_S. cbn [app]. f_equal. apply IH. cbn in H. lia.
Qed.
Lemma set_at_app2 : forall k x l m, set_at (length l + k) x (l ++ m) = l ++ set_at k x m.
Proof. intros k x l m. induction l as [|y l IH]; [reflexivity|]. cbn [length app Nat.add]. rewrite set_at_S. now f_equal. Qed.
Lemma set_at_nth : forall k l, k < length l -> set_at k (nth k l 0%R) l = l.
Proof. induction k as [|k IH]; intros [|y l] H; cbn in H; try lia; [reflexivity|]. rewrite set_at_S. f_equal. apply IH. lia. Qed.
Lemma set_nth_at : forall k x l, k < length l -> set_nth k x l = set_at k x l.
Proof. induction k as [|k IH]; intros x [|y l] H; cbn in H; try lia; [reflexivity|]. rewrite set_at_S. cbn [set_nth]. f_equal. apply IH. lia. Qed.
Lemma set_at_twice : forall k x y l, k < length l -> set_at k x (set_at k y l) = set_at k x l.
Proof. induction k as [|k IH]; intros x y [|z l] H; cbn in H; try lia; [reflexivity|]. rewrite !set_at_S. f_equal. apply IH. lia. Qed.
Lemma nth_set_at : forall k x l, k < length l -> nth k (set_at k x l) 0%R = x.
Proof. induction k as [|k IH]; intros x [|z l] H; cbn in H; try lia; [reflexivity|]. rewrite set_at_S. cbn [nth]. apply IH. lia. Qed.
Lemma firstn_skipn_at : forall k x l d, k < d -> k < length l -> firstn d (set_at k x l) = set_at k x (firstn d l) /\ skipn d (set_at k x l) = skipn d l.
Proof.
  induction k as [|k IH]; intros x [|y l] d Hd H; cbn in H; try lia; destruct d as [|d]; try lia; [split; reflexivity|].
  rewrite set_at_S. cbn [firstn skipn]. rewrite set_at_S. destruct (IH x l d ltac:(lia) ltac:(lia)) as [E1 E2]. rewrite E1, E2. split; reflexivity.
Qed.
Lemma firstn_skipn_at2 : forall d k x l, d <= k -> k < length l -> firstn d (set_at k x l) = firstn d l /\ skipn d (set_at k x l) = set_at (k - d) x (skipn d l).
Proof.
  induction d as [|d IH]; intros k x [|y l] Hd H; cbn in H; try lia; [rewrite Nat.sub_0_r; split; reflexivity|].
  destruct k as [|k]; [lia|]. rewrite set_at_S. cbn [firstn skipn Nat.sub]. destruct (IH k x l ltac:(lia) ltac:(lia)) as [E1 E2]. rewrite E1, E2. split; reflexivity.
Qed.

(** * with other angles *)
Lemma gi_with_self : forall g, gi_with g (gi_angles g) = g.
Proof. now destruct g. Qed.
Lemma gi_with_with : forall g u v, length u = length (gi_angles g) -> length v = length (gi_angles g) -> gi_with (gi_with g u) v = gi_with g v.
Proof.
  intros g u v H H'. destruct g; try reflexivity; cbn in H, H'; destruct u as [|u1 [|u2 [|u3 [|]]]]; try discriminate;
    destruct v as [|v1 [|v2 [|v3 [|]]]]; try discriminate; reflexivity.
Qed.
Lemma gi_with_angles : forall g u, length u = length (gi_angles g) -> gi_angles (gi_with g u) = u.
Proof. intros g u H. destruct g; cbn in H; destruct u as [|u1 [|u2 [|u3 [|]]]]; try discriminate; reflexivity. Qed.
Lemma ci_with_self : forall c, ci_with c (ci_angles c) = c.
Proof. intros [g|l]; cbn [ci_with ci_angles]; [now rewrite gi_with_self|now destruct l]. Qed.
Lemma ci_with_with : forall c u v, length u = length (ci_angles c) -> length v = length (ci_angles c) -> ci_with (ci_with c u) v = ci_with c v.
Proof. intros [g|l] u v H H'; cbn [ci_with ci_angles] in *; [now rewrite gi_with_with|now destruct l]. Qed.
Lemma ci_with_angles : forall c u, length u = length (ci_angles c) -> ci_angles (ci_with c u) = u.
Proof. intros [g|l] u H; cbn [ci_with ci_angles] in *; [now rewrite gi_with_angles|]. destruct l; cbn in *; auto; now destruct u. Qed.
Lemma gi_with_wires : forall g u, gi_wires (gi_with g u) = gi_wires g.
Proof. intros g u. destruct g; try reflexivity; destruct u as [|u1 [|u2 [|u3 [|]]]]; reflexivity. Qed.
Lemma gi_with_ok : forall n g u, gi_ok n g -> gi_ok n (gi_with g u).
Proof.
  intros n g u [H1 H2]. split; [now rewrite gi_with_wires|]. destruct g; auto; destruct u as [|u1 [|u2 [|u3 [|]]]]; exact I.
Qed.
Lemma ci_with_ok : forall n c u, ci_ok n c -> length u = length (ci_angles c) -> ci_ok n (ci_with c u).
Proof.
  intros n [g|l] u H L; cbn [ci_ok ci_with ci_angles] in *; [now apply gi_with_ok|]. destruct l; cbn [li_ok li_set li_angles] in *; auto; rewrite L; exact H.
Qed.
Lemma ci_with_TN : forall n c u, ci_TN n (ci_with c u) = ci_TN n c.
Proof.
  intros n [g|l] u; cbn [ci_with ci_TN]; [|now destruct l]. destruct g; try reflexivity; destruct u as [|u1 [|u2 [|u3 [|]]]]; reflexivity.
Qed.
Lemma ci_with_support : forall n c u, o_supportTN (oobj n (ci_with c u)) = o_supportTN (oobj n c).
Proof.
  intros n [g|l] u; cbn [ci_with oobj]; [|now destruct l]. destruct g; try reflexivity; destruct u as [|u1 [|u2 [|u3 [|]]]]; reflexivity.
Qed.
Lemma cs_with_self : forall cs, cs_with cs (cs_angles cs) = cs.
Proof.
  induction cs as [|c cs IH]; [reflexivity|]. cbn [cs_with cs_angles flat_map]. cbv zeta. rewrite firstn_app, skipn_app, Nat.sub_diag, firstn_all, skipn_all, firstn_O, app_nil_r.
  cbn [app skipn]. fold (cs_angles cs). now rewrite ci_with_self, IH.
Qed.
Lemma cs_angles_app : forall a b, cs_angles (a ++ b) = cs_angles a ++ cs_angles b.
Proof. intros. apply flat_map_app. Qed.

(** the circuit with one angle varying *)
Lemma cs_split : forall cs k, k < length (cs_angles cs) -> exists cs1 x cs2 i, cs = cs1 ++ x :: cs2 /\ k = length (cs_angles cs1) + i /\
  i < length (ci_angles x) /\ forall t, cs_with cs (set_at k t (cs_angles cs)) = cs1 ++ ci_with x (set_at i t (ci_angles x)) :: cs2.
Proof.
  induction cs as [|c cs IH]; intros k H; [cbn in H; lia|]. cbn [cs_angles flat_map] in H. fold (cs_angles cs) in H. rewrite app_length in H.
  destruct (Nat.lt_ge_cases k (length (ci_angles c))) as [L|L].
  - exists [], c, cs, k. split; [reflexivity|]. split; [reflexivity|]. split; [exact L|]. intros t. cbn [cs_with cs_angles flat_map app]. cbv zeta. fold (cs_angles cs).
    rewrite set_at_app1 by auto. rewrite <- (set_at_length k t (ci_angles c)) at 1 2 by auto.
    rewrite firstn_app, skipn_app, Nat.sub_diag, firstn_all, skipn_all, firstn_O, app_nil_r. cbn [app skipn]. now rewrite cs_with_self.
  - destruct (IH (k - length (ci_angles c)) ltac:(lia)) as (cs1 & x & cs2 & i & E1 & E2 & E3 & E4). exists (c :: cs1), x, cs2, i.
    split; [now rewrite E1|]. split; [cbn [cs_angles flat_map]; fold (cs_angles cs1); rewrite app_length; lia|]. split; [exact E3|]. intros t.
    replace k with (length (ci_angles c) + (k - length (ci_angles c))) at 1 by lia. cbn [cs_with cs_angles flat_map app]. cbv zeta. fold (cs_angles cs).
    rewrite set_at_app2, firstn_app, skipn_app, Nat.sub_diag, firstn_all, skipn_all, firstn_O, app_nil_r. cbn [app skipn]. rewrite ci_with_self. f_equal. apply E4.
Qed.

(** * the families *)
Definition gi_ph (g : gi) : R -> C := match g with gi_u1 _ _ | gi_cphase _ _ _ => half_ph | _ => no_ph end.
Definition is_cu3 (g : gi) : bool := match g with gi_cu3 _ _ _ _ _ => true | _ => false end.
Ltac rl := match goal with |- context [lift _ [?w]] => apply rot_lift; [intros v [<-|[]]|] end.
Lemma gi_rot : forall n g k, gi_ok n g -> is_cu3 g = false -> k < length (gi_angles g) ->
  rot_by n (gi_ph g) (fun t => gi_op n (gi_with g (set_at k t (gi_angles g)))).
Proof.
  intros n g k [[_ G] _] HC Hk. destruct g; cbn [gi_angles length is_cu3 gi_wires gi_ph] in *; try lia; try discriminate;
    (destruct k as [|[|[|k]]]; try lia); unfold set_at; cbn [firstn skipn app gi_with gi_op];
    try (apply rot_rpp); try (apply (rot_lift n _ _ [_])); try (intros v Hv; now apply G).
  - apply rot_rx.
  - apply rot_ry.
  - apply rot_rz.
  - apply rot_u1.
  - apply rot_u3_0.
  - apply rot_u3_1.
  - apply rot_u3_2.
  - apply rot_cphase. apply G. right. now left.
Qed.

Lemma combine_var : forall w axes ps k, k < length axes -> k < length ps -> exists pre a post, forall t,
  map (fun ap => axis_gate (fst ap) (snd ap) w) (combine axes (set_at k t ps)) = pre ++ axis_gate a t w :: post.
Proof.
  intros w axes. induction axes as [|a axes IH]; intros [|p ps] k H1 H2; cbn in H1, H2; try lia. destruct k as [|k].
  - exists [], a. eexists. intros t. rewrite set_at_0. reflexivity.
  - destruct (IH ps k ltac:(lia) ltac:(lia)) as (pre & b & post & E). exists (axis_gate a p w :: pre), b, post. intros t. rewrite set_at_S. cbn [combine map fst snd app].
    f_equal. apply E.
Qed.
Lemma rot_gates_var : forall axes ws ps k, length axes * length ws <= length ps -> k < length axes * length ws ->
  exists pre a w post, In w ws /\ forall t, rot_gates axes ws (set_at k t ps) = pre ++ axis_gate a t w :: post.
Proof.
  intros axes ws. induction ws as [|w ws IH]; intros ps k HL Hk; [cbn in Hk; lia|]. cbn [length] in HL, Hk.
  destruct (Nat.lt_ge_cases k (length axes)) as [L|L].
  - destruct (combine_var w axes ps k L ltac:(nia)) as (pre & a & post & E). exists pre, a, w, (post ++ rot_gates axes ws (skipn (length axes) ps)).
    split; [now left|]. intros t. cbn [rot_gates]. rewrite E, <- app_assoc. cbn [app]. f_equal. f_equal. f_equal. f_equal. apply firstn_skipn_at; nia.
  - destruct (IH (skipn (length axes) ps) (k - length axes)) as (pre & a & v & post & Hv & E); [rewrite skipn_length; nia|nia|].
    exists (map (fun ap => axis_gate (fst ap) (snd ap) w) (combine axes ps) ++ pre), a, v, post. split; [now right|]. intros t. cbn [rot_gates]. rewrite <- app_assoc.
    destruct (firstn_skipn_at2 (length axes) k t ps L ltac:(nia)) as [E1 E2]. rewrite E2, E. f_equal.
    rewrite <- (combine_firstn_l _ _ axes (set_at k t ps) (length axes)), E1, combine_firstn_l by lia. reflexivity.
Qed.
Lemma basic_gates_var : forall rep ws ps k, 3 * length ws * rep <= length ps -> k < 3 * length ws * rep ->
  exists pre a w post, In w ws /\ forall t, basic_gates rep ws (set_at k t ps) = pre ++ axis_gate a t w :: post.
Proof.
  induction rep as [|rep IH]; intros ws ps k HL Hk; [lia|]. cbn [basic_gates].
  destruct (Nat.lt_ge_cases k (3 * length ws)) as [L|L].
  - destruct (rot_gates_var (kind_axes KYZY) ws ps k) as (pre & a & w & post & Hw & E); [cbn; nia|cbn; nia|].
    exists pre, a, w, (post ++ ring_gates 1 ws ++ basic_gates rep ws (skipn (3 * length ws) ps)). split; [exact Hw|]. intros t.
    rewrite E, <- app_assoc. cbn [app]. do 5 f_equal. apply firstn_skipn_at; nia.
  - destruct (IH ws (skipn (3 * length ws) ps) (k - 3 * length ws)) as (pre & a & w & post & Hw & E); [rewrite skipn_length; nia|nia|].
    exists (rot_gates (kind_axes KYZY) ws ps ++ ring_gates 1 ws ++ pre), a, w, post. split; [exact Hw|]. intros t.
    destruct (firstn_skipn_at2 (3 * length ws) k t ps L ltac:(nia)) as [E1 E2]. rewrite E2, E, <- !app_assoc. f_equal.
    rewrite <- (rot_gates_firstn _ ws (set_at k t ps) (3 * length ws)), E1 by (cbn; lia). apply rot_gates_firstn. cbn. lia.
Qed.
Lemma axis_rot : forall n a w, w < n -> rot_by n no_ph (fun t => gi_op n (axis_gate a t w)).
Proof.
  intros n a w H. destruct a; cbn [axis_gate gi_op]; apply (rot_lift n _ _ [w]); try (intros v [<-|[]]; exact H); [apply rot_rx|apply rot_ry|apply rot_rz].
Qed.
Lemma gs_rot : forall n ph pre post G, rot_by n ph (fun t => gi_op n (G t)) -> rot_by n ph (fun t => gs_op n (pre ++ G t :: post)).
Proof.
  intros n ph pre post G H. apply (rot_ext n ph (fun t => mul_op n (mul_op n (gs_op n post) (gi_op n (G t))) (gs_op n pre))).
  - intros t. rewrite gs_op_app. apply mul_op_proper; [|reflexivity]. change (G t :: post) with ([G t] ++ post). rewrite gs_op_app, gs_op_1. reflexivity.
  - apply rot_mul_r, rot_mul_l, H.
Qed.
Lemma li_rot_fam : forall n l k, li_ok n l -> k < length (li_angles l) -> rot_by n no_ph (fun t => li_op n (li_set l (set_at k t (li_angles l)))).
Proof.
  intros n l k H Hk. unfold li_op. destruct l as [kd ws ps|ws|ws|ws|ws|rep ws ps]; cbn [li_angles li_set li_gates li_ok length] in *; try lia.
  - destruct H as [G L]. destruct (rot_gates_var (kind_axes kd) ws ps k) as (pre & a & w & post & Hw & E); [lia|lia|].
    apply (rot_ext n no_ph (fun t => gs_op n (pre ++ axis_gate a t w :: post))); [intros t; rewrite E; reflexivity|].
    apply gs_rot, axis_rot. now apply G.
  - destruct H as (G & _ & _ & L). destruct (basic_gates_var rep ws ps k) as (pre & a & w & post & Hw & E); [lia|lia|].
    apply (rot_ext n no_ph (fun t => gs_op n (pre ++ axis_gate a t w :: post))); [intros t; rewrite E; reflexivity|].
    apply gs_rot, axis_rot. now apply G.
Qed.
Definition ci_ph (c : ci) : R -> C := match c with CG g => gi_ph g | CL _ => no_ph end.
Definition ci_cu3 (c : ci) : bool := match c with CG g => is_cu3 g | CL _ => false end.
Lemma ci_rot : forall n c k, ci_ok n c -> ci_cu3 c = false -> k < length (ci_angles c) ->
  rot_by n (ci_ph c) (fun t => ci_op n (ci_with c (set_at k t (ci_angles c)))).
Proof. intros n [g|l] k H HC Hk; cbn [ci_with ci_op ci_angles ci_ph]; [now apply gi_rot|now apply li_rot_fam]. Qed.
Lemma ci_ph_unit : forall c, unit_ph (ci_ph c).
Proof. intros [[]|l]; try apply no_ph_unit; apply half_ph_unit. Qed.
Lemma cs_rot : forall n cs1 cs2 c k, ci_ok n c -> ci_cu3 c = false -> k < length (ci_angles c) ->
  rot_by n (ci_ph c) (fun t => cs_op n (cs1 ++ ci_with c (set_at k t (ci_angles c)) :: cs2)).
Proof.
  intros n cs1 cs2 c k H HC Hk.
  apply (rot_ext n _ (fun t => mul_op n (mul_op n (cs_op n cs2) (ci_op n (ci_with c (set_at k t (ci_angles c))))) (cs_op n cs1))).
  - intros t. rewrite cs_op_app. apply mul_op_proper; [|reflexivity].
    change (ci_with c (set_at k t (ci_angles c)) :: cs2) with ([ci_with c (set_at k t (ci_angles c))] ++ cs2). rewrite cs_op_app. apply mul_op_proper; [reflexivity|].
    unfold cs_op. cbn [fold_left]. symmetry. apply mul_op_id_r.
  - apply rot_mul_r, rot_mul_l. now apply ci_rot.
Qed.
(** the two-term rule for one angle *)
Lemma shift_derivative : forall n cs1 cs2 c k psi M x, ci_ok n c -> ci_cu3 c = false -> k < length (ci_angles c) ->
  let E t := expect n (cs1 ++ ci_with c (set_at k t (ci_angles c)) :: cs2) psi M in
  derivable_pt_lim E x (/ 2 * (E (x + / 2 * PI) - E (x - / 2 * PI)))%R.
Proof.
  intros n cs1 cs2 c k psi M x H HC Hk E.
  destruct (trig_expect n (fun t => cs_op n (cs1 ++ ci_with c (set_at k t (ci_angles c)) :: cs2)) psi M) as (al & be & ga & T).
  - exists (ci_ph c). split; [apply ci_ph_unit|]. now apply cs_rot.
  - apply (shift_rule E al be ga). intros t. apply T.
Qed.
