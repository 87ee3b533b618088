(** Lemmas: circuits of references. *)
From Coq Require Import List ZArith QArith Reals Lra Lia Bool Arith.
From Verif Require Import PyBase Scalar CInst BigSum Index Tensor Spec SpecFacts GateSpec RunSpec LayerSpec MPSSpec CircuitSpec
  QMath QTN QOperator QGates GateCalls QLayers LayerCalls GateFacts2 GateFacts4 GateFacts6 LayerFacts4 QCircuit QGradient CircuitFacts1 CircuitProofs GradFacts1 GradFacts2 GradFacts3 QShared SharedSpec.
Import ListNotations.
Local Close Scope Q_scope.
Local Close Scope R_scope.
Local Open Scope nat_scope.

(** ** no object occurs twice *)
Lemma mmap_inv : forall A B (f : A -> res B) l r, mmap f l = Ok r -> length r = length l /\ forall k a, nth_error l k = Some a -> exists b, nth_error r k = Some b /\ f a = Ok b.
Proof.
  intros A B f l. induction l as [|a l IH]; intros r H; cbn [mmap] in H.
  - injection H as <-. split; [reflexivity|]. intros [|k] x; discriminate.
  - apply bind_inv in H. destruct H as (b & E & H). apply bind_inv in H. destruct H as (bs & E' & H). injection H as <-. destruct (IH bs E') as [L N]. split; [cbn; lia|].
    intros [|k] x Hx; cbn in Hx |- *; [injection Hx as <-; eauto|now apply N].
Qed.
Lemma mmap_intro : forall A B (f : A -> res B) l r, length r = length l -> (forall k a b, nth_error l k = Some a -> nth_error r k = Some b -> f a = Ok b) -> mmap f l = Ok r.
Proof.
  intros A B f l. induction l as [|a l IH]; intros [|b r] L H; try discriminate; [reflexivity|]. cbn [mmap]. rewrite (H 0 a b) by reflexivity. cbn [bind].
  rewrite (IH r); [reflexivity|cbn in L; lia|]. intros k x y Hx Hy. apply (H (S k)); auto.
Qed.
Lemma nth_error_set : forall A (l : list A) i j x, nth_error (set_nth i x l) j = if (i =? j) && (j <? length l) then Some x else nth_error l j.
Proof.
  intros A l. induction l as [|a l IH]; intros [|i] [|j] x; cbn; try reflexivity.
  - now destruct (i =? j).
  - rewrite IH. now destruct (i =? j).
Qed.

Section Unshared.
  Variable svd : tensor -> tensor * tensor * tensor.
  Variables t m : tensor.
  Variable c : scircuit.
  Hypothesis ND : NoDup (s_gate c).
  Definition same_off (h h' : heap) : Prop := length h' = length h /\ forall r, ~ In r (s_gate c) -> nth_error h' r = nth_error h r.
  Lemma off_refl : forall h, same_off h h. Proof. now split. Qed.
  Lemma off_trans : forall h1 h2 h3, same_off h1 h2 -> same_off h2 h3 -> same_off h1 h3.
  Proof. intros h1 h2 h3 [L H] [L' H']. split; [congruence|]. intros r Hr. now rewrite H', H. Qed.
  Lemma value_inv : forall h v, value h c = Ok v -> c_N v = s_N c /\ c_params v = s_params c /\ c_num v = s_num c /\ length (c_gate v) = length (s_gate c) /\
    forall k r, nth_error (s_gate c) k = Some r -> exists o, nth_error (c_gate v) k = Some o /\ nth_error h r = Some o.
  Proof.
    intros h v H. unfold value in H. apply bind_inv in H. destruct H as (os & E & H). injection H as <-. cbn. apply mmap_inv in E. destruct E as [L N].
    repeat split; auto. intros k r Hk. destruct (N k r Hk) as (o & Ho & E). exists o. split; [exact Ho|]. unfold at_ref in E. destruct (nth_error h r); [congruence|discriminate].
  Qed.
  Lemma value_intro : forall h v, c_N v = s_N c -> c_params v = s_params c -> c_num v = s_num c -> length (c_gate v) = length (s_gate c) ->
    (forall k r o, nth_error (s_gate c) k = Some r -> nth_error (c_gate v) k = Some o -> nth_error h r = Some o) -> value h c = Ok v.
  Proof.
    intros h [N g ps k] H1 H2 H3 L H. cbn in *. subst. unfold value. rewrite (mmap_intro _ _ _ _ g); [reflexivity|exact L|].
    intros j r o Hr Ho. unfold at_ref. now rewrite (H j r o).
  Qed.
  Lemma nodup_nth : forall A (l : list A) i j x, NoDup l -> nth_error l i = Some x -> nth_error l j = Some x -> i = j.
  Proof. intros A l i j x N Hi Hj. rewrite NoDup_nth_error in N. apply N; [apply nth_error_Some; congruence|congruence]. Qed.

  Definition rel {X} (h : heap) (rs : res (heap * X)) (rv : res (circuit * X)) : Prop :=
    match rv with Ok (v', x) => exists h', rs = Ok (h', x) /\ value h' c = Ok v' /\ same_off h h' | Err e => rs = Err e end.
  Lemma upd_sim : forall h v idx p, value h c = Ok v ->
    match update_gate v idx p with Ok v' => exists h', s_update_gate h c idx p = Ok h' /\ value h' c = Ok v' /\ same_off h h' | Err e => s_update_gate h c idx p = Err e end.
  Proof.
    intros h v idx p V. destruct (value_inv h v V) as (HN & HP & HK & L & G). unfold update_gate, s_update_gate, s_update.
    destruct (nth_error (s_gate c) idx) as [r|] eqn:E.
    - destruct (G idx r E) as (o & Ho & Hh). rewrite Ho. unfold at_ref. rewrite Hh. cbn [bind]. destruct (o_params_update o p) as [o'|e]; cbn [bind]; [|reflexivity].
      eexists. split; [reflexivity|]. assert (Lh : r < length h) by (apply nth_error_Some; congruence). split.
      + apply value_intro; cbn [c_N c_params c_num c_gate]; auto; [now rewrite set_nth_length|].
        intros k r' o2 Hk Ho2. rewrite nth_error_set in Ho2 |- *. destruct (Nat.eqb_spec idx k) as [->|D].
        * assert (r' = r) by congruence. subst r'. rewrite Nat.eqb_refl. assert (k < length (c_gate v)) by (apply nth_error_Some; congruence).
          cbn [andb] in *. rewrite (proj2 (Nat.ltb_lt k _)) in Ho2 by auto. rewrite (proj2 (Nat.ltb_lt r _)) by auto. exact Ho2.
        * destruct (Nat.eqb_spec r r') as [->|D']; [exfalso; apply D; eapply nodup_nth; eauto|]. cbn [andb] in *. destruct (G k r' Hk) as (o3 & X & Y). congruence.
      + split; [now rewrite set_nth_length|]. intros r' Hr'. rewrite nth_error_set. destruct (Nat.eqb_spec r r') as [->|D]; [exfalso; apply Hr'; eapply nth_error_In; eauto|reflexivity].
    - assert (X : nth_error (c_gate v) idx = None) by (apply nth_error_None; apply nth_error_None in E; lia). now rewrite X.
  Qed.
  Lemma exp_sim : forall h v, value h c = Ok v -> s_expectation svd t m c h = cir_expectation svd v t m true.
  Proof. intros h v V. unfold s_expectation. now rewrite V. Qed.

  Ltac upd V v idx p h' Vn On := let X := fresh "X" in pose proof (upd_sim _ v idx p V) as X;
    match type of X with match ?u with _ => _ end => destruct u as [?v|?e] eqn:?EU end; cbn [bind]; [destruct X as (h' & X & Vn & On); rewrite X; cbn [bind]|rewrite X; reflexivity].
  Lemma one_sim : forall h v idx p, value h c = Ok v -> rel h (s_shift_one svd t m c h idx p) (shift_one svd t m v idx p).
  Proof.
    intros h v idx p V. unfold s_shift_one, shift_one. upd V v idx (PS (p + / 2 * PI)%R) h1 V1 O1.
    rewrite (exp_sim h1 _ V1). destruct (cir_expectation svd v0 t m true) as [e1|e1]; cbn [bind]; [|reflexivity].
    upd V1 v0 idx (PS (p - / 2 * PI)%R) h2 V2 O2. rewrite (exp_sim h2 _ V2). destruct (cir_expectation svd v1 t m true) as [e2|e2]; cbn [bind]; [|reflexivity].
    upd V2 v1 idx (PS p) h3 V3 O3. exists h3. split; [reflexivity|]. split; [exact V3|]. eauto using off_trans.
  Qed.
  Definition rel3 {X Y} (h : heap) (rs : res (heap * X * Y)) (rv : res (circuit * X * Y)) : Prop :=
    match rv with Ok (v', x, y) => exists h', rs = Ok (h', x, y) /\ value h' c = Ok v' /\ same_off h h' | Err e => rs = Err e end.
  Lemma entry_sim : forall h v idx p g i, value h c = Ok v -> rel3 h (s_shift_entry svd t m c idx (h, p, g) i) (shift_entry svd t m idx (v, p, g) i).
  Proof.
    intros h v idx p g i V. unfold s_shift_entry, shift_entry. cbv zeta. upd V v idx (PV (padd p i (/ 2 * PI))) h1 V1 O1.
    rewrite (exp_sim h1 _ V1). destruct (cir_expectation svd v0 t m true) as [e1|e1]; cbn [bind]; [|reflexivity].
    upd V1 v0 idx (PV (padd (padd p i (/ 2 * PI)) i (- PI))) h2 V2 O2. rewrite (exp_sim h2 _ V2). destruct (cir_expectation svd v1 t m true) as [e2|e2]; cbn [bind]; [|reflexivity].
    upd V2 v1 idx (PV (padd (padd (padd p i (/ 2 * PI)) i (- PI)) i (/ 2 * PI))) h3 V3 O3. exists h3. split; [reflexivity|]. split; [exact V3|]. eauto using off_trans.
  Qed.
  Lemma fold_sim : forall A X (f : heap * X -> A -> res (heap * X)) (g : circuit * X -> A -> res (circuit * X)),
    (forall h v x a, value h c = Ok v -> rel h (f (h, x) a) (g (v, x) a)) -> forall l h v x, value h c = Ok v -> rel h (mfold f l (h, x)) (mfold g l (v, x)).
  Proof.
    intros A X f g H l. induction l as [|a l IH]; intros h v x V; cbn [mfold].
    - exists h. split; [reflexivity|]. split; [exact V|apply off_refl].
    - pose proof (H h v x a V) as E. unfold rel in E. destruct (g (v, x) a) as [[v' x']|e]; cbn [bind].
      + destruct E as (h' & -> & V' & O'). cbn [bind]. pose proof (IH h' v' x' V') as E. unfold rel in *. destruct (mfold g l (v', x')) as [[v2 x2]|e]; [|exact E].
        destruct E as (h2 & E & V2 & O2). exists h2. eauto using off_trans.
      + now rewrite E.
  Qed.
  Lemma entries_sim : forall idx l h v p g, value h c = Ok v -> rel3 h (mfold (s_shift_entry svd t m c idx) l (h, p, g)) (mfold (shift_entry svd t m idx) l (v, p, g)).
  Proof.
    intros idx l. induction l as [|a l IH]; intros h v p g V; cbn [mfold].
    - exists h. split; [reflexivity|]. split; [exact V|apply off_refl].
    - pose proof (entry_sim h v idx p g a V) as E. unfold rel3 in E. destruct (shift_entry svd t m idx (v, p, g) a) as [[[v' x'] y']|e]; cbn [bind].
      + destruct E as (h' & -> & V' & O'). cbn [bind]. pose proof (IH h' v' x' y' V') as E. unfold rel3 in *. destruct (mfold (shift_entry svd t m idx) l (v', x', y')) as [[[v2 x2] y2]|e]; [|exact E].
        destruct E as (h2 & E & V2 & O2). exists h2. eauto using off_trans.
      + now rewrite E.
  Qed.
  Lemma gate_sim : forall h v g idx, value h c = Ok v -> rel h (s_shift_gate svd t m c (h, g) idx) (shift_gate svd t m (v, g) idx).
  Proof.
    intros h v g idx V. destruct (value_inv h v V) as (HN & HP & HK & L & G). unfold s_shift_gate, shift_gate. destruct (nth_error (s_gate c) idx) as [r|] eqn:E.
    - destruct (G idx r E) as (o & Ho & Hh). rewrite Ho. unfold at_ref. rewrite Hh. cbn [bind]. destruct (o_num_params o =? 0).
      { exists h. split; [reflexivity|]. split; [exact V|apply off_refl]. }
      rewrite HP. destruct (dict_get (s_params c) idx) as [[[x|l]|]|e]; cbn [bind]; try reflexivity.
      + pose proof (one_sim h v idx x V) as X. unfold rel in X. destruct (shift_one svd t m v idx x) as [[v' y]|e]; cbn [bind].
        * destruct X as (h' & -> & V' & O'). cbn [bind fst snd]. exists h'. auto.
        * now rewrite X.
      + pose proof (entries_sim idx (seq 0 (length l)) h v l g V) as X. unfold rel3 in X. destruct (mfold (shift_entry svd t m idx) (seq 0 (length l)) (v, l, g)) as [[[v' y] z]|e]; cbn [bind].
        * destruct X as (h' & -> & V' & O'). cbn [bind]. exists h'. auto.
        * now rewrite X.
    - assert (X : nth_error (c_gate v) idx = None) by (apply nth_error_None; apply nth_error_None in E; lia). rewrite X. reflexivity.
  Qed.
End Unshared.

Theorem unshared_gradient : forall svd t m c h v, NoDup (s_gate c) -> value h c = Ok v ->
  match cal_params_grad svd t m v with
  | Ok (g, v') => exists h', s_cal_params_grad svd t m c h = Ok (g, h') /\ value h' c = Ok v' /\ length h' = length h /\ forall r, ~ In r (s_gate c) -> nth_error h' r = nth_error h r
  | Err e => s_cal_params_grad svd t m c h = Err e
  end.
Proof.
  intros svd t m c h v ND V. unfold cal_params_grad, s_cal_params_grad. destruct (value_inv c h v V) as (HN & HP & HK & L & G). rewrite L.
  pose proof (fold_sim c nat (list R) (s_shift_gate svd t m c) (shift_gate svd t m) (fun h v x a E => gate_sim svd t m c ND h v x a E) (seq 0 (length (s_gate c))) h v [] V) as X.
  unfold rel in X. destruct (mfold (shift_gate svd t m) (seq 0 (length (s_gate c))) (v, [])) as [[v' g]|e]; cbn [bind].
  - destruct X as (h' & -> & V' & O'). cbn [bind]. destruct (value_inv c h' v' V') as (_ & _ & HK' & _). rewrite HK'. unfold assert_. destruct (length g =? s_num c); [|reflexivity].
    exists h'. split; [reflexivity|]. split; [exact V'|exact O'].
  - now rewrite X.
Qed.

(** ** objects that occur several times *)
Lemma set_nth_self : forall xs r, r < length xs -> set_nth r (the_op xs r) xs = xs.
Proof. unfold the_op. induction xs as [|y l IH]; intros [|r] L; cbn in *; [lia|lia|reflexivity|]. now rewrite IH by lia. Qed.
Section Shared.
  Variable svd : tensor -> tensor * tensor * tensor.
  Hypothesis Hs : exact_svd svd.
  Variable n : nat.
  Hypothesis Hn : 0 < n.
  Variables (t m : tensor) (psi : qstate) (M : qop).
  Hypothesis Ht : is_state n [1; 2 ^ n] t psi.
  Hypothesis Hm : is_op n m M.
  Variable refs : list nat.
  Variables (ps : list (nat * option pval)) (kn : nat).
  Definition sobj : scircuit := mkS n refs ps kn.
  Definition within (xs : list ci) : Prop := forall r, In r refs -> r < length xs.

  Lemma value_obj : forall xs, within xs -> value (map (oobj n) xs) sobj = Ok (cobj n (meant xs refs) ps kn).
  Proof.
    intros xs W. unfold value, sobj, cobj. cbn [s_gate s_N s_params s_num]. rewrite (mmap_Ok_ext _ _ _ (fun r => oobj n (the_op xs r))).
    - cbn [bind]. unfold meant. now rewrite map_map.
    - intros r Hr. unfold at_ref. rewrite nth_error_map. specialize (W r Hr). destruct (nth_error xs r) as [x|] eqn:E; [|apply nth_error_None in E; lia].
      cbn [option_map]. unfold the_op. now rewrite (nth_error_nth xs r _ E).
  Qed.
  Lemma map_set_nth : forall A B (f : A -> B) l i x, map f (set_nth i x l) = set_nth i (f x) (map f l).
  Proof. intros A B f l. induction l as [|a l IH]; intros [|i] x; cbn; [reflexivity..|]. now rewrite IH. Qed.
  Lemma at_obj : forall xs r, r < length xs -> at_ref (map (oobj n) xs) r = Ok (oobj n (the_op xs r)).
  Proof.
    intros xs r L. unfold at_ref. rewrite nth_error_map. destruct (nth_error xs r) as [x|] eqn:E; [|apply nth_error_None in E; lia].
    cbn [option_map]. unfold the_op. now rewrite (nth_error_nth xs r _ E).
  Qed.
  Lemma s_update_obj : forall xs r x0 u p, r < length xs -> ci_ok n (the_op xs r) -> form (the_op xs r) x0 -> length u = length (ci_angles x0) -> u <> [] -> p = pv_of (ci_with x0 u) ->
    s_update (map (oobj n) xs) r p = Ok (map (oobj n) (set_nth r (ci_with x0 u) xs)).
  Proof.
    intros xs r x0 u p L Ox F Lu Nu Hp. unfold s_update. rewrite at_obj by exact L. cbn [bind]. rewrite (update_ok n _ x0 u p Ox F Lu Nu Hp). cbn [bind]. now rewrite map_set_nth.
  Qed.

  Section One.
    (** the object r of the list xs *)
    Variable xs : list ci.
    Hypothesis W : within xs.
    Hypothesis OK : Forall (ci_ok n) xs.
    Hypothesis Can : exp_can n psi (meant xs refs).
    Variables (idx r : nat).
    Hypothesis Hidx : nth_error refs idx = Some r.
    Let x0 := the_op xs r.
    Let a := ci_angles x0.
    Definition put (u : list R) : list ci := set_nth r (ci_with x0 u) xs.
    Lemma r_in : r < length xs. Proof. apply W. eapply nth_error_In; eauto. Qed.
    Lemma the_put : forall u, the_op (put u) r = ci_with x0 u.
    Proof. intros u. unfold put, the_op. rewrite nth_set_nth by exact r_in. now rewrite Nat.eqb_refl. Qed.
    Lemma put_off : forall u s, s <> r -> the_op (put u) s = the_op xs s.
    Proof. intros u s D. unfold put, the_op. rewrite nth_set_nth by exact r_in. now rewrite (proj2 (Nat.eqb_neq _ _) D). Qed.
    Lemma x0_ok : ci_ok n x0.
    Proof. rewrite Forall_forall in OK. apply OK. unfold x0, the_op. apply nth_In. exact r_in. Qed.
    Lemma put_within : forall u, within (put u).
    Proof. intros u s Hs'. unfold put. rewrite set_nth_length. now apply W. Qed.
    Lemma put_ok : forall u, length u = length a -> Forall (ci_ok n) (meant (put u) refs).
    Proof.
      intros u Lu. apply Forall_forall. intros y Hy. apply in_map_iff in Hy. destruct Hy as (s & <- & Hs'). destruct (Nat.eq_dec s r) as [->|D].
      - rewrite the_put. apply ci_with_ok; [exact x0_ok|exact Lu].
      - rewrite put_off by exact D. rewrite Forall_forall in OK. apply OK. apply nth_In. now apply W.
    Qed.
    Lemma put_can : forall u, exp_can n psi (meant (put u) refs).
    Proof.
      intros u. destruct Can as [(x & Hx & S)|[T Z]].
      - left. apply in_map_iff in Hx. destruct Hx as (s & <- & Hs'). exists (the_op (put u) s). split; [now apply in_map|].
        destruct (Nat.eq_dec s r) as [->|D]; [rewrite the_put, ci_with_support; exact S|now rewrite put_off].
      - right. split; [|exact Z]. apply forallb_forall. intros y Hy. apply in_map_iff in Hy. destruct Hy as (s & <- & Hs'). rewrite forallb_forall in T.
        destruct (Nat.eq_dec s r) as [->|D]; [rewrite the_put, ci_with_TN; apply T; now apply in_map|rewrite put_off by exact D; apply T; now apply in_map].
    Qed.
    Lemma put_put : forall u v, set_nth r (ci_with x0 v) (put u) = put v.
    Proof. intros u v. unfold put. apply set_nth_twice. Qed.
    Lemma put_self : put a = xs.
    Proof. unfold put, a. rewrite ci_with_self. apply set_nth_self. exact r_in. Qed.
    Lemma put_update : forall u v p, length u = length a -> length v = length a -> v <> [] -> p = pv_of (ci_with x0 v) ->
      s_update_gate (map (oobj n) (put u)) sobj idx p = Ok (map (oobj n) (put v)).
    Proof.
      intros u v p Lu Lv Nv Hp. unfold s_update_gate, sobj. cbn [s_gate]. rewrite Hidx. rewrite (s_update_obj (put u) r x0 v p).
      - now rewrite put_put.
      - unfold put. rewrite set_nth_length. exact r_in.
      - rewrite the_put. apply ci_with_ok; [exact x0_ok|exact Lu].
      - rewrite the_put. now apply form_self.
      - exact Lv.
      - exact Nv.
      - exact Hp.
    Qed.
    Lemma put_update0 : forall v p, length v = length a -> v <> [] -> p = pv_of (ci_with x0 v) ->
      s_update_gate (map (oobj n) xs) sobj idx p = Ok (map (oobj n) (put v)).
    Proof. intros v p Lv Nv Hp. pose proof (put_update a v p eq_refl Lv Nv Hp) as E. rewrite put_self in E. exact E. Qed.
    Lemma put_expectation : forall u, length u = length a -> s_expectation svd t m sobj (map (oobj n) (put u)) = Ok (expect n (meant (put u) refs) psi M).
    Proof.
      intros u Lu. unfold s_expectation. rewrite value_obj by apply put_within. cbn [bind].
      apply (cobj_expectation svd Hs n Hn t m psi M Ht Hm); [now apply put_ok|apply put_can].
    Qed.
    Definition sE (i : nat) (y : R) : R := expect n (meant (put (set_at i y a)) refs) psi M.
    Definition s_term (i : nat) : R := (/ 2 * (sE i (nth i a 0 + / 2 * PI) - sE i (nth i a 0 - / 2 * PI)))%R.
    Definition s_local : list R := map s_term (seq 0 (length a)).

    Lemma s_single : length a = 1 -> pv_of x0 = PS (nth 0 a 0%R) ->
      exists g, s_shift_one svd t m sobj (map (oobj n) xs) idx (nth 0 a 0%R) = Ok (map (oobj n) xs, g) /\ s_local = [g].
    Proof.
      intros L1 PS0. set (y0 := nth 0 a 0%R).
      assert (P : forall y, PS y = pv_of (ci_with x0 [y])).
      { intros y. unfold a in L1. unfold pv_of in *. destruct x0 as [[]|l]; cbn [ci_with gi_with ci_angles gi_angles] in *; try discriminate; reflexivity. }
      assert (S : forall y, set_at 0 y a = [y]) by (intros y; destruct a as [|z [|]]; try discriminate; reflexivity).
      assert (A : [y0] = a) by (unfold y0; destruct a as [|z [|]]; try discriminate; reflexivity).
      unfold s_shift_one.
      rewrite (put_update0 [(y0 + / 2 * PI)%R]) by (cbn; auto; discriminate). cbn [bind]. rewrite put_expectation by (cbn; auto). cbn [bind].
      rewrite (put_update _ [(y0 - / 2 * PI)%R]) by (cbn; auto; discriminate). cbn [bind]. rewrite put_expectation by (cbn; auto). cbn [bind].
      rewrite (put_update _ [y0]) by (cbn; auto; discriminate). cbn [bind]. rewrite A, put_self.
      eexists. split; [reflexivity|]. unfold s_local, s_term, sE. rewrite L1. cbn [seq map]. fold y0. now rewrite !S.
    Qed.
    Lemma s_entries : a <> [] -> pv_of x0 = PV a -> forall l g, (forall i, In i l -> i < length a) ->
      mfold (s_shift_entry svd t m sobj idx) l (map (oobj n) xs, a, g) = Ok (map (oobj n) xs, a, g ++ map s_term l).
    Proof.
      intros NA PV0.
      assert (P : forall u, length u = length a -> PV u = pv_of (ci_with x0 u)).
      { intros u Lu. unfold a in *. unfold pv_of in *. destruct x0 as [[]|l]; cbn [ci_with gi_with ci_angles gi_angles] in *; try discriminate;
          cbn in Lu; try (destruct u as [|u1 [|u2 [|u3 [|]]]]; try discriminate; reflexivity).
        f_equal. symmetry. apply (ci_with_angles (CL l)). exact Lu. }
      assert (NE : forall u : list R, length u = length a -> u <> []) by (intros u Lu ->; destruct a; [congruence|discriminate]).
      assert (Step : forall i g, i < length a -> s_shift_entry svd t m sobj idx (map (oobj n) xs, a, g) i = Ok (map (oobj n) xs, a, g ++ [s_term i])).
      { intros i g Hi. unfold s_shift_entry. cbv zeta.
        assert (P1 : padd a i (/ 2 * PI) = set_at i (nth i a 0 + / 2 * PI)%R a) by (unfold padd; now rewrite set_nth_at).
        rewrite P1. assert (L1 : length (set_at i (nth i a 0 + / 2 * PI)%R a) = length a) by (now apply set_at_length).
        assert (P2 : padd (set_at i (nth i a 0 + / 2 * PI)%R a) i (- PI) = set_at i (nth i a 0 - / 2 * PI)%R a).
        { unfold padd. rewrite set_nth_at, nth_set_at, set_at_twice by lia. f_equal. lra. }
        rewrite P2. assert (L2 : length (set_at i (nth i a 0 - / 2 * PI)%R a) = length a) by (now apply set_at_length).
        assert (P3 : padd (set_at i (nth i a 0 - / 2 * PI)%R a) i (/ 2 * PI) = a).
        { unfold padd. rewrite set_nth_at, nth_set_at, set_at_twice by lia. replace (nth i a 0 - / 2 * PI + / 2 * PI)%R with (nth i a 0%R) by lra. now apply set_at_nth. }
        rewrite P3.
        rewrite (put_update0 (set_at i (nth i a 0 + / 2 * PI)%R a)) by auto. cbn [bind]. rewrite put_expectation by auto. cbn [bind].
        rewrite (put_update _ (set_at i (nth i a 0 - / 2 * PI)%R a)) by auto. cbn [bind]. rewrite put_expectation by auto. cbn [bind].
        rewrite (put_update _ a) by auto. cbn [bind]. rewrite put_self. reflexivity. }
      induction l as [|i l IH]; intros g Hl; cbn [mfold map]; [now rewrite app_nil_r|].
      rewrite Step by (apply Hl; now left). cbn [bind]. rewrite IH by (intros j Hj; apply Hl; now right). now rewrite <- app_assoc.
    Qed.
    Lemma s_gate_ok : forall g, (a <> [] -> dict_get ps idx = Ok (Some (pv_of x0))) -> s_shift_gate svd t m sobj (map (oobj n) xs, g) idx = Ok (map (oobj n) xs, g ++ s_local).
    Proof.
      intros g HD. unfold s_shift_gate, sobj. cbn [s_gate s_params]. rewrite Hidx. rewrite at_obj by exact r_in. fold x0. cbn [bind].
      rewrite (form_num n x0 x0 x0_ok (form_refl x0)). fold a. destruct (length a =? 0) eqn:E0.
      - apply Nat.eqb_eq in E0. unfold s_local. rewrite E0. cbn [seq map]. now rewrite app_nil_r.
      - assert (NA : a <> []) by (intros X; rewrite X in E0; discriminate). rewrite (HD NA). cbn [bind]. fold sobj.
        destruct (pv_cases x0 NA) as [V|[L1 V]]; rewrite V; fold a.
        + rewrite s_entries by (auto; intros i Hi; apply in_seq in Hi; lia). reflexivity.
        + fold a in L1, V. destruct (s_single L1 V) as (e & E & ->). rewrite E. reflexivity.
    Qed.
  End One.
End Shared.
