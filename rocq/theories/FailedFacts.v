(** Lemmas: what calls that raise leave behind. *)
From Coq Require Import List ZArith QArith Reals Lra Lia Bool Arith.
From Verif Require Import PyBase Scalar CInst BigSum Index Tensor Spec SpecFacts GateSpec RunSpec LayerSpec MPSSpec CircuitSpec GradSpec
  QMath QTN QOperator QGates GateCalls QLayers LayerCalls GateFacts2 GateFacts4 GateFacts6 LayerFacts4 QCircuit QGradient CircuitFacts1 CircuitProofs GradFacts1 GradFacts2 GradFacts3 GradProofs QFailed.
Import ListNotations.
Local Close Scope Q_scope.
Local Close Scope R_scope.
Local Open Scope nat_scope.

(** ** the two models of the gradient agree *)
Definition agrees {A} (s : stm A) (f : circuit -> res (circuit * A)) : Prop :=
  forall c, f c = match s c with (c', Ok a) => Ok (c', a) | (_, Err e) => Err e end.
Section Agree.
  Variable svd : tensor -> tensor * tensor * tensor.
  Variables t m : tensor.
  Lemma one_agrees : forall idx p c, shift_one svd t m c idx p = match f_shift_one svd t m idx p c with (c', Ok g) => Ok (c', g) | (_, Err e) => Err e end.
  Proof.
    intros idx p c. unfold shift_one, f_shift_one, sbind, f_update, f_expect, sret.
    destruct (update_gate c idx _) as [c1|]; cbn [bind]; [|reflexivity]. destruct (cir_expectation svd c1 t m true); cbn [bind]; [|reflexivity].
    destruct (update_gate c1 idx _) as [c2|]; cbn [bind]; [|reflexivity]. destruct (cir_expectation svd c2 t m true); cbn [bind]; [|reflexivity].
    destruct (update_gate c2 idx _) as [c3|]; cbn [bind]; reflexivity.
  Qed.
  Lemma entry_agrees : forall idx i c p g, shift_entry svd t m idx (c, p, g) i = match f_shift_entry svd t m idx (p, g) i c with (c', Ok (p', g')) => Ok (c', p', g') | (_, Err e) => Err e end.
  Proof.
    intros idx i c p g. unfold shift_entry, f_shift_entry, sbind, f_update, f_expect, sret.
    destruct (update_gate c idx _) as [c1|]; cbn [bind]; [|reflexivity]. destruct (cir_expectation svd c1 t m true); cbn [bind]; [|reflexivity].
    destruct (update_gate c1 idx _) as [c2|]; cbn [bind]; [|reflexivity]. destruct (cir_expectation svd c2 t m true); cbn [bind]; [|reflexivity].
    destruct (update_gate c2 idx _) as [c3|]; cbn [bind]; reflexivity.
  Qed.
  Lemma entries_agree : forall idx l c p g, mfold (shift_entry svd t m idx) l (c, p, g) =
    match sfold (f_shift_entry svd t m idx) l (p, g) c with (c', Ok (p', g')) => Ok (c', p', g') | (_, Err e) => Err e end.
  Proof.
    intros idx l. induction l as [|i l IH]; intros c p g; [reflexivity|]. cbn [mfold sfold]. rewrite entry_agrees. unfold sbind.
    destruct (f_shift_entry svd t m idx (p, g) i c) as [c' [[p' g']|e]]; cbn [bind]; [apply IH|reflexivity].
  Qed.
  Lemma gate_agrees : forall idx c g, shift_gate svd t m (c, g) idx = match f_shift_gate svd t m g idx c with (c', Ok g') => Ok (c', g') | (_, Err e) => Err e end.
  Proof.
    intros idx c g. unfold shift_gate, f_shift_gate. destruct (nth_error (c_gate c) idx); [|reflexivity]. destruct (o_num_params o =? 0); [reflexivity|].
    destruct (dict_get (c_params c) idx) as [[[x|l]|]|]; cbn [bind]; try reflexivity.
    - rewrite one_agrees. unfold sbind, sret. destruct (f_shift_one svd t m idx x c) as [c' [y|e]]; reflexivity.
    - rewrite entries_agree. unfold sbind, sret. destruct (sfold _ _ _ c) as [c' [[p' g']|e]]; reflexivity.
  Qed.
  Theorem failed_agrees : forall c, cal_params_grad svd t m c = match f_cal_params_grad svd t m c with (c', Ok g) => Ok (g, c') | (_, Err e) => Err e end.
  Proof.
    intros c. unfold cal_params_grad, f_cal_params_grad, sbind.
    assert (F : forall l c g, mfold (shift_gate svd t m) l (c, g) = match sfold (f_shift_gate svd t m) l g c with (c', Ok g') => Ok (c', g') | (_, Err e) => Err e end).
    { induction l as [|i l IH]; intros c0 g; [reflexivity|]. cbn [mfold sfold]. rewrite gate_agrees. unfold sbind. destruct (f_shift_gate svd t m g i c0) as [c' [g'|e]]; cbn [bind]; [apply IH|reflexivity]. }
    rewrite F. destruct (sfold _ _ _ c) as [c' [g|e]]; cbn [bind]; [|reflexivity]. unfold assert_. destruct (length g =? c_num c'); reflexivity.
  Qed.
End Agree.

(** ** what is left of the circuit *)
Section Left.
  Variable svd : tensor -> tensor * tensor * tensor.
  Variables t m : tensor.
  Variable n : nat.
  Variables (ps : list (nat * option pval)) (kn : nat).
  Variables (pre post : list ci) (x0 : ci).
  Hypothesis Ok0 : ci_ok n x0.
  Let a := ci_angles x0.
  Definition moved (u : list R) : circuit := cobj n (pre ++ ci_with x0 u :: post) ps kn.
  Lemma moved_self : moved a = cobj n (pre ++ x0 :: post) ps kn.
  Proof. unfold moved, a. now rewrite ci_with_self. Qed.
  (** angle i moved by d *)
  Definition by_quarter (c : circuit) : Prop := exists i d, i < length a /\ (d = / 2 * PI \/ d = - (/ 2 * PI))%R /\ c = moved (set_at i (nth i a 0 + d)%R a).
  Lemma f_update_ok : forall u v p, length u = length a -> length v = length a -> v <> [] -> p = pv_of (ci_with x0 v) -> f_update (length pre) p (moved u) = (moved v, Ok tt).
  Proof.
    intros u v p Lu Lv Nv Hp. unfold f_update, moved. rewrite (update_gate_ok n pre (ci_with x0 u) x0 post v p); auto; [now apply ci_with_ok|exists u; auto]. 
  Qed.
  Lemma one_left : length a = 1 -> pv_of x0 = PS (nth 0 a 0%R) ->
    match f_shift_one svd t m (length pre) (nth 0 a 0%R) (moved a) with (c', Ok _) => c' = moved a | (c', Err e) => by_quarter c' end.
  Proof.
    intros L1 PS0. set (y := nth 0 a 0%R).
    assert (P : forall z, PS z = pv_of (ci_with x0 [z])).
    { intros z. unfold a in L1. unfold pv_of in *. destruct x0 as [[]|l]; cbn [ci_with gi_with ci_angles gi_angles] in *; try discriminate; reflexivity. }
    assert (S : forall z, set_at 0 z a = [z]) by (intros z; destruct a as [|? [|]]; try discriminate; reflexivity).
    assert (A : [y] = a) by (unfold y; destruct a as [|z [|]]; try discriminate; reflexivity).
    assert (Q : forall d, (d = / 2 * PI \/ d = - (/ 2 * PI))%R -> by_quarter (moved [(y + d)%R])).
    { intros d Hd. exists 0, d. rewrite L1. split; [lia|]. split; [exact Hd|]. fold y. now rewrite S. }
    unfold f_shift_one, sbind. rewrite (f_update_ok a [(y + / 2 * PI)%R]) by (cbn; auto; discriminate). unfold f_expect at 1.
    destruct (cir_expectation svd (moved [(y + / 2 * PI)%R]) t m true); [|apply Q; now left].
    rewrite (f_update_ok _ [(y - / 2 * PI)%R]) by (cbn; auto; discriminate). unfold f_expect at 1.
    destruct (cir_expectation svd (moved [(y - / 2 * PI)%R]) t m true); [|apply Q; now right].
    rewrite (f_update_ok _ [y]) by (cbn; auto; discriminate). unfold sret. now rewrite A.
  Qed.
  Lemma entries_left : a <> [] -> pv_of x0 = PV a -> forall l g, (forall i, In i l -> i < length a) ->
    match sfold (f_shift_entry svd t m (length pre)) l (a, g) (moved a) with (c', Ok (_, g')) => c' = moved a /\ length g' = length g + length l | (c', Err e) => by_quarter c' end.
  Proof.
    intros NA PV0.
    assert (P : forall u, length u = length a -> PV u = pv_of (ci_with x0 u)).
    { intros u Lu. unfold a in *. unfold pv_of in *. destruct x0 as [[]|l]; cbn [ci_with gi_with ci_angles gi_angles] in *; try discriminate;
        cbn in Lu; try (destruct u as [|u1 [|u2 [|u3 [|]]]]; try discriminate; reflexivity).
      f_equal. symmetry. apply (ci_with_angles (CL l)). exact Lu. }
    assert (NE : forall u : list R, length u = length a -> u <> []) by (intros u Lu ->; destruct a; [congruence|discriminate]).
    assert (Step : forall i g, i < length a -> match f_shift_entry svd t m (length pre) (a, g) i (moved a) with (c', Ok (p, g')) => c' = moved a /\ p = a /\ length g' = S (length g) | (c', Err e) => by_quarter c' end).
    { intros i g Hi. unfold f_shift_entry. cbv zeta.
      assert (P1 : padd a i (/ 2 * PI) = set_at i (nth i a 0 + / 2 * PI)%R a) by (unfold padd; now rewrite set_nth_at).
      rewrite P1. assert (L1 : length (set_at i (nth i a 0 + / 2 * PI)%R a) = length a) by (now apply set_at_length).
      assert (P2 : padd (set_at i (nth i a 0 + / 2 * PI)%R a) i (- PI) = set_at i (nth i a 0 + - (/ 2 * PI))%R a).
      { unfold padd. rewrite set_nth_at, nth_set_at, set_at_twice by lia. f_equal. lra. }
      rewrite P2. assert (L2 : length (set_at i (nth i a 0 + - (/ 2 * PI))%R a) = length a) by (now apply set_at_length).
      assert (P3 : padd (set_at i (nth i a 0 + - (/ 2 * PI))%R a) i (/ 2 * PI) = a).
      { unfold padd. rewrite set_nth_at, nth_set_at, set_at_twice by lia. replace (nth i a 0 + - (/ 2 * PI) + / 2 * PI)%R with (nth i a 0%R) by lra. now apply set_at_nth. }
      rewrite P3. unfold sbind. rewrite (f_update_ok a (set_at i (nth i a 0 + / 2 * PI)%R a)) by auto. unfold f_expect at 1.
      destruct (cir_expectation svd (moved (set_at i (nth i a 0 + / 2 * PI)%R a)) t m true); [|exists i, (/ 2 * PI)%R; auto].
      rewrite (f_update_ok _ (set_at i (nth i a 0 + - (/ 2 * PI))%R a)) by auto. unfold f_expect at 1.
      destruct (cir_expectation svd (moved (set_at i (nth i a 0 + - (/ 2 * PI))%R a)) t m true); [|exists i, (- (/ 2 * PI))%R; auto].
      rewrite (f_update_ok _ a) by auto. unfold sret. rewrite app_length. cbn [length]. repeat split; auto; lia. }
    induction l as [|i l IH]; intros g Hl; [cbn; split; [reflexivity|lia]|]. cbn [sfold]. unfold sbind. specialize (Step i g (Hl i (or_introl eq_refl))).
    destruct (f_shift_entry svd t m (length pre) (a, g) i (moved a)) as [c' [[p g']|e]]; [|exact Step]. destruct Step as (-> & -> & Hg). specialize (IH g' (fun j Hj => Hl j (or_intror Hj))).
    destruct (sfold _ l (a, g') (moved a)) as [c'' [[p' g'']|e]]; [|exact IH]. destruct IH as [-> E]. split; [reflexivity|]. cbn [length]. lia.
  Qed.
  Lemma gate_left : forall g, (a <> [] -> dict_get ps (length pre) = Ok (Some (pv_of x0))) ->
    match f_shift_gate svd t m g (length pre) (cobj n (pre ++ x0 :: post) ps kn) with (c', Ok g') => c' = cobj n (pre ++ x0 :: post) ps kn /\ length g' = length g + length a | (c', Err e) => by_quarter c' end.
  Proof.
    intros g HD. rewrite <- moved_self. unfold f_shift_gate. unfold moved at 1 3 6. cbn [c_gate cobj c_params].
    rewrite map_app. cbn [map]. rewrite <- (map_length (oobj n) pre), nth_error_mid, map_length. unfold a at 1. rewrite ci_with_self.
    rewrite (form_num n x0 x0 Ok0 (form_refl x0)). fold a. destruct (length a =? 0) eqn:E0; [apply Nat.eqb_eq in E0; split; [reflexivity|lia]|].
    assert (NA : a <> []) by (intros X; rewrite X in E0; discriminate). rewrite (HD NA).
    destruct (pv_cases x0 NA) as [V|[L1 V]]; rewrite V; fold a.
    - pose proof (entries_left NA V (seq 0 (length a)) g ltac:(intros i Hi; apply in_seq in Hi; lia)) as X. unfold sbind, sret.
      destruct (sfold _ _ _ (moved a)) as [c' [[p' r]|e]]; [rewrite seq_length in X|]; exact X.
    - fold a in L1, V. pose proof (one_left L1 V) as X. unfold sbind, sret. destruct (f_shift_one _ _ _ _ _ (moved a)) as [c' [r|e]]; [|exact X]. split; [exact X|]. rewrite app_length, L1. reflexivity.
  Qed.
End Left.
