(** Lemmas: wires beyond the register end in IndexError on matrix product states; one wire counted from the end and one from the beginning. *)
From Coq Require Import List ZArith Reals Lra Lia ZifyBool Bool Arith.
From Verif Require Import PyBase Scalar CInst BigSum Index Tensor TensorFacts Spec SpecFacts QMath QTN QOperator ContractFacts QGates GateSpec GateCalls GateFacts2 GateFacts6 ContractSpec
  GateProofs ContractBad MPSSpec MPSFacts4 MPSFacts5 MPSFacts6 MPSFacts8 MPSFacts12 LayerAnySpec LayerAny MPSBad.
Import ListNotations.
Local Close Scope R_scope.
Local Open Scope nat_scope.

Section Beyond.
  Context {SC : Scalar}.
  Variable svd : tensor -> tensor * tensor * tensor.
  Hypothesis Hsvd : exact_svd svd.
  Variable n : nat.

  Lemma nth_out : forall (l : list tensor) i, length l = n -> (Z.of_nat n <= i)%Z -> py_nth l i = Err IndexError.
  Proof. intros l i L H. unfold py_nth. rewrite L, py_index_fail by lia. reflexivity. Qed.
  Lemma nth_in : forall (l : list tensor) i, length l = n -> (0 <= i < Z.of_nat n)%Z -> exists t, py_nth l i = Ok t.
  Proof. intros l i L H. unfold py_nth. rewrite L. replace i with (Z.of_nat (Z.to_nat i)) by lia. rewrite py_index_nat by lia. cbn [bind].
    destruct (nth_error l (Z.to_nat i)) as [t|] eqn:E; [now exists t|]. apply nth_error_None in E. lia. Qed.
  Lemma two_out : forall M l i, length l = n -> (0 <= i)%Z -> (Z.of_nat n <= i + 1)%Z -> two_site svd M l i (i + 1) = Err IndexError.
  Proof.
    intros M l i L H0 H. unfold two_site. destruct (Z.le_gt_cases (Z.of_nat n) i) as [O|O].
    - now rewrite (nth_out l i L O).
    - destruct (nth_in l i L ltac:(lia)) as (t & ->). cbn [bind]. now rewrite (nth_out l (i + 1) L H).
  Qed.
  Lemma zrange2_cons : forall a b, (a < b)%Z -> zrange2 a b = a :: zrange2 (a + 1) b.
  Proof.
    intros a b H. unfold zrange2. replace (Z.to_nat (b - a)) with (S (Z.to_nat (b - (a + 1)))) by lia. cbn [seq map]. f_equal; [lia|].
    rewrite <- seq_shift, map_map. apply map_ext. intros; lia.
  Qed.
  Lemma zrange_down_cons : forall a b, (b < a)%Z -> zrange_down a b = a :: zrange_down (a - 1) b.
  Proof.
    intros a b H. unfold zrange_down. replace (Z.to_nat (a - b)) with (S (Z.to_nat (a - 1 - b))) by lia. cbn [seq map]. f_equal; [lia|].
    rewrite <- seq_shift, map_map. apply map_ext. intros; lia.
  Qed.
  Lemma zrange2_cut : forall a m b, (a <= m <= b)%Z -> zrange2 a b = zrange2 a m ++ zrange2 m b.
  Proof.
    intros a m b H. unfold zrange2. replace (Z.to_nat (b - a)) with (Z.to_nat (m - a) + Z.to_nat (b - m)) by lia. rewrite seq_app, map_app. f_equal.
    rewrite <- (Nat.add_0_l (Z.to_nat (m - a))) at 1. cbn [Nat.add].
    replace (seq (Z.to_nat (m - a)) (Z.to_nat (b - m))) with (map (fun k => (Z.to_nat (m - a) + k)%nat) (seq 0 (Z.to_nat (b - m)))).
    - rewrite map_map. apply map_ext. intros; lia.
    - generalize (Z.to_nat (m - a)) as s. intros s. induction (Z.to_nat (b - m)) as [|k IH] using nat_ind; [reflexivity|]. rewrite !seq_S, map_app, IH. reflexivity.
  Qed.

  Section Fold.
    Variable step : list tensor -> Z -> Z -> res (list tensor).
    Hypothesis Hstep : forall l psi i, is_mps n l psi -> nonzero n psi -> (S i < n)%nat ->
      exists l', step l (Z.of_nat i) (Z.of_nat (S i)) = Ok l' /\ is_mps n l' (ps n (tr i (S i)) psi).
    Hypothesis Hbad : forall l i, length l = n -> (0 <= i)%Z -> (Z.of_nat n <= i + 1)%Z -> step l i (i + 1)%Z = Err IndexError.
    Lemma fold_in : forall a b l psi, is_mps n l psi -> nonzero n psi -> (0 <= a)%Z -> (b < Z.of_nat n)%Z ->
      exists l', mfold (fun MPS i => step MPS i (i + 1)%Z) (zrange2 a b) l = Ok l' /\ length l' = n.
    Proof.
      intros a b l psi H Hnz Ha Hb. destruct (Z.le_gt_cases b a) as [O|O].
      - rewrite zrange2_empty by lia. exists l. split; [reflexivity|apply H].
      - destruct (ladder_down n step Hstep (Z.to_nat (b - a)) (Z.to_nat a) l psi H Hnz ltac:(lia)) as (l' & E & M & _).
        replace (Z.of_nat (Z.to_nat a)) with a in E by lia. replace (Z.of_nat (Z.to_nat a + Z.to_nat (b - a))) with b in E by lia. exists l'. split; [exact E|apply M].
    Qed.
    Lemma fold_out : forall a b l psi, is_mps n l psi -> nonzero n psi -> (0 <= a < b)%Z -> (Z.of_nat n <= b)%Z ->
      mfold (fun MPS i => step MPS i (i + 1)%Z) (zrange2 a b) l = Err IndexError.
    Proof.
      intros a b l psi H Hnz Ha Hb. destruct (Z.le_gt_cases (Z.of_nat n) (a + 1)) as [O|O].
      - rewrite zrange2_cons by lia. cbn [mfold]. rewrite Hbad by (try apply H; lia). reflexivity.
      - rewrite (zrange2_cut a (Z.of_nat n - 1) b) by lia. rewrite mfold_app. destruct (fold_in a (Z.of_nat n - 1) l psi H Hnz) as (l' & -> & L'); [lia|lia|].
        cbn [bind]. rewrite zrange2_cons by lia. cbn [mfold]. rewrite Hbad by (auto; lia). reflexivity.
    Qed.
  End Fold.
  Lemma step_out : forall l i, length l = n -> (0 <= i)%Z -> (Z.of_nat n <= i + 1)%Z -> swap_step svd (Z.of_nat n) l i (i + 1) = Err IndexError.
  Proof.
    intros l i L H0 H. unfold swap_step. rewrite swap_unfold. replace (Z.min i (i + 1)) with i by lia. replace (Z.max i (i + 1)) with (i + 1)%Z by lia.
    rewrite zrange2_cons by lia. cbn [mfold]. rewrite two_out by auto. reflexivity.
  Qed.
  Lemma swap_out : forall a b l psi, is_mps n l psi -> nonzero n psi -> (0 <= a)%Z -> (0 <= b)%Z -> a <> b -> (Z.of_nat n <= a \/ Z.of_nat n <= b)%Z ->
    swap_TN_operation svd (Z.of_nat n) (WList [a; b]) l = Err IndexError.
  Proof.
    intros a b l psi H Hnz Ha Hb D O. rewrite swap_unfold. rewrite (fold_out (two_site svd swap_matrix) (adj_swap_ok svd Hsvd n) (two_out swap_matrix) _ _ l psi) by (auto; lia). reflexivity.
  Qed.
  Lemma ladder2_out : forall g a b l psi, is_mps n l psi -> nonzero n psi -> (0 <= a < b)%Z -> (Z.of_nat n <= b)%Z -> ladder2 svd (Z.of_nat n) (Ok g) a b l = Err IndexError.
  Proof.
    intros g a b l psi H Hnz Ha Hb. unfold ladder2. destruct (Z.le_gt_cases (Z.of_nat n) (b - 1)) as [O|O].
    - destruct (Z.eq_dec a (b - 1)) as [->|E].
      + rewrite zrange2_empty by lia. cbn [mfold bind]. replace b with (b - 1 + 1)%Z at 2 by lia. rewrite two_out by (try apply H; lia). reflexivity.
      + rewrite (fold_out (swap_step svd (Z.of_nat n)) (swap_step_ok svd Hsvd n) step_out _ _ l psi) by (auto; lia). reflexivity.
    - destruct (fold_in (swap_step svd (Z.of_nat n)) (swap_step_ok svd Hsvd n) a (b - 1) l psi H Hnz) as (l' & -> & L'); [lia|lia|]. cbn [bind].
      replace b with (b - 1 + 1)%Z at 2 by lia. rewrite two_out by (auto; lia). reflexivity.
  Qed.
  Lemma ladder3_out : forall g a m b l psi, is_mps n l psi -> nonzero n psi -> (0 <= a < m)%Z -> (m < b)%Z -> (Z.of_nat n <= b)%Z -> ladder3 svd (Z.of_nat n) g a m b l = Err IndexError.
  Proof.
    intros g a m b l psi H Hnz Ha Hm Hb. unfold ladder3.
    assert (F : forall l', length l' = n ->
      (do MPS <- mfold (fun MPS i => swap_step svd (Z.of_nat n) MPS (i - 1)%Z i) (zrange_down b (m + 1)) l';
       do MPS <- three_site svd g MPS m;
       do MPS <- mfold (fun MPS i => swap_step svd (Z.of_nat n) MPS (i - 1)%Z i) (zrange_down (m - 1) a) MPS;
       mfold (fun MPS i => swap_step svd (Z.of_nat n) MPS i (i + 1)%Z) (zrange2 (m + 1) b) MPS) = Err IndexError).
    { intros l' L'. destruct (Z.eq_dec b (m + 1)) as [->|E].
      - rewrite zrange_down_empty by lia. cbn [mfold bind]. unfold three_site.
        destruct (Z.le_gt_cases (Z.of_nat n) (m - 1)) as [O|O]; [now rewrite (nth_out l' (m - 1) L' O)|]. destruct (nth_in l' (m - 1) L' ltac:(lia)) as (t & ->). cbn [bind].
        destruct (Z.le_gt_cases (Z.of_nat n) m) as [O'|O']; [now rewrite (nth_out l' m L' O')|]. destruct (nth_in l' m L' ltac:(lia)) as (t' & ->). cbn [bind].
        now rewrite (nth_out l' (m + 1) L' Hb).
      - rewrite zrange_down_cons by lia. cbn [mfold]. replace b with (b - 1 + 1)%Z at 2 by lia. rewrite step_out by (auto; lia). reflexivity. }
    destruct (Z.le_gt_cases (Z.of_nat n) (m - 1)) as [O|O].
    - destruct (Z.eq_dec a (m - 1)) as [->|E].
      + rewrite zrange2_empty by lia. cbn [mfold bind]. apply F, H.
      + rewrite (fold_out (swap_step svd (Z.of_nat n)) (swap_step_ok svd Hsvd n) step_out _ _ l psi) by (auto; lia). reflexivity.
    - destruct (fold_in (swap_step svd (Z.of_nat n)) (swap_step_ok svd Hsvd n) a (m - 1) l psi H Hnz) as (l' & -> & L'); [lia|lia|]. cbn [bind]. now apply F.
  Qed.
End Beyond.

Theorem beyond_raises : forall svd n g l psi o, exact_svd svd -> has_TN g = true -> is_mps n l psi -> nonzero n psi ->
  NoDup (gi_wires g) -> (exists w, In w (gi_wires g) /\ n <= w) -> build n g = Ok o -> TN_operation svd o l = Err IndexError.
Proof.
  intros svd n g l psi o Hs HT HM Hnz ND (w0 & Hw & Hn) B. rewrite build_ok in B. injection B as <-.
  assert (NN : Z.of_nat n <> (-1)%Z) by lia. assert (L : length l = n) by apply HM.
  assert (K2 : forall G a b, NoDup [a; b] -> In w0 [a; b] -> forall g', G = Ok g' ->
     ladder2 svd (Z.of_nat n) G (Z.min (Z.of_nat a) (Z.of_nat b)) (Z.max (Z.of_nat a) (Z.of_nat b)) l = Err IndexError).
  { intros G a b ND' I' g' ->. assert (a <> b) by (inversion ND' as [|? ? X _]; subst; cbn in X; intuition). eapply (ladder2_out svd Hs); eauto; [lia|].
    destruct I' as [->|[->|[]]]; lia. }
  destruct g; try discriminate HT; cbn [gi_wires] in *; unfold TN_operation; cbn [obj gi_cls g_cls g_N g_matrix g_wires gi_wires gi_loc length gi_pywires];
    try (destruct Hw as [->|[]]; unfold zi, single_TN_operation; replace (unset (Z.of_nat n) (WInt (Z.of_nat w0))) with false by (unfold unset; cbn [wires_unset]; lia);
      cbn [raise_if wire_int bind]; rewrite (nth_out n l) by (auto; lia); reflexivity).
  - unfold zl; cbn [map]. rewrite cnot_is by exact NN. rewrite rev_cnot_ok. destruct (_ =? _)%Z; eapply K2; eauto.
  - unfold zl; cbn [map]. rewrite ctrl_is by exact NN. rewrite rev_cz_ok. destruct (_ =? _)%Z; eapply K2; eauto.
  - unfold zl; cbn [map]. rewrite ctrl_is by exact NN. rewrite (rev_cphase_ok n th c t). destruct (_ =? _)%Z; eapply K2; eauto.
  - unfold zl; cbn [map]. rewrite ctrl_is by exact NN. rewrite (rev_cu3_ok n th p l0 c t). destruct (_ =? _)%Z; eapply K2; eauto.
  - unfold zl; cbn [map]. eapply (swap_out svd Hs); eauto; try lia; [|destruct Hw as [->|[->|[]]]; lia]. inversion ND as [|? ? X _]; subst; cbn in X; lia.
  - unfold zl; cbn [map]. assert (D : c1 <> c2 /\ c1 <> t /\ c2 <> t) by (inversion ND as [|? ? X Y]; subst; inversion Y as [|? ? X' _]; subst; cbn in X, X'; lia).
    destruct (sort3 (Z.of_nat c1) (Z.of_nat c2) (Z.of_nat t)) as (u & m & d & O & S & I & _); [lia|lia|lia|].
    rewrite (toffoli_is svd _ _ _ _ _ _ _ u m d) by auto. eapply (ladder3_out svd Hs); eauto; try lia.
    + assert (X : In u [Z.of_nat c1; Z.of_nat c2; Z.of_nat t]) by (apply I; now left). cbn [In] in X. lia.
    + assert (X : In (Z.of_nat w0) [u; m; d]) by (apply I; cbn [In] in *; lia). cbn [In] in X. lia.
Qed.

(** ** cnot on [-1, 0] *)
Lemma two_site_turned : forall svd M (x y : tensor (SC := C_scalar)),
  two_site svd M [x; y] (-1) 0 = do r <- two_site svd M [y; x] 0 1; Ok (rev r).
Proof.
  intros svd M x y. unfold two_site. change (py_nth [x; y] (-1)) with (Ok y). change (py_nth [x; y] 0) with (Ok x).
  change (py_nth [y; x] 0) with (Ok y). change (py_nth [y; x] 1) with (Ok x). cbn [bind]. cbv zeta.
  assert (A : forall A B C (m : res A) (f : A -> res B) (g : B -> res C), bind (bind m f) g = bind m (fun a => bind (f a) g)) by (intros ? ? ? [?|?] ? ?; reflexivity).
  do 13 (rewrite A; apply bind_ext; intros ? _). reflexivity.
Qed.
Definition zero_plus_mps : list (tensor (SC := C_scalar)) :=
  [tbuild [2; 1; 1] (fun i => if nth 0 i 0 =? 0 then RtoC 1 else RtoC 0); tbuild [2; 1; 1] (fun _ => RtoC 1)].
Definition zero_plus : qstate (SC := C_scalar) := fun b => if nth 0 b 0 =? 0 then RtoC 1 else RtoC 0.
Lemma zero_plus_is_mps : is_mps 2 zero_plus_mps zero_plus.
Proof.
  split.
  - split; [reflexivity|]. repeat (eexists; split; [shelve|]; split; [reflexivity|]; split; [apply tbuild_wf|]). reflexivity. Unshelve. all: lia.
  - intros b Hb. unfold mps_amp, zero_plus_mps. cbn in Hb. repeat (destruct Hb as [<-|Hb]); [..|destruct Hb]; apply C_eq; cbn; ring.
Qed.
Theorem wraps_round : forall svd, exact_svd svd ->
  exists o l', cnot 2 (WList [-1; 0]%Z) = Ok o /\ U_expand o = Err ValueError /\ TN_operation svd o zero_plus_mps = Ok l' /\ ~ mps_shape 2 l'.
Proof.
  intros svd Hs. unfold zero_plus_mps. set (x := tbuild (SC := C_scalar) [2; 1; 1] (fun i => if nth 0 i 0 =? 0 then RtoC 1 else RtoC 0)). set (y := tbuild (SC := C_scalar) [2; 1; 1] (fun _ => RtoC 1)).
  set (psi := (fun b : list nat => if nth 1 b 0 =? 0 then RtoC 1 else RtoC 0) : qstate (SC := C_scalar)).
  assert (M : is_mps 2 [y; x] psi).
  { split.
    - split; [reflexivity|]. repeat (eexists; split; [shelve|]; split; [reflexivity|]; split; [apply tbuild_wf|]). reflexivity. Unshelve. all: lia.
    - intros b Hb. unfold mps_amp. cbn in Hb. repeat (destruct Hb as [<-|Hb]); [..|destruct Hb]; apply C_eq; cbn; ring. }
  set (A := ctrl [0] (lift X_op [1])).
  assert (V : forall p q, In p [0; 1] -> In q [0; 1] -> apply_on A [0; 1] psi [p; q] = if p =? q then RtoC 1 else RtoC 0).
  { intros p q Hp Hq. cbn in Hp, Hq. repeat (destruct Hp as [<-|Hp]); [..|destruct Hp]; (repeat (destruct Hq as [<-|Hq]); [..|destruct Hq]); apply C_eq; cbn; ring. }
  destruct (two_site_ok svd Hs 2 A [y; x] psi 0 M ltac:(lia)) as (r & E & Mr).
  { intros Z. specialize (Z [0; 0] ltac:(cbn; tauto)). rewrite V in Z by (cbn; tauto). cbn in Z. injection Z as Z. lra. }
  destruct Mr as [[Lr Cr] Ar]. destruct r as [|a [|b [|]]]; try discriminate. clear Lr.
  exists (mkG ccnot 2 (WList [-1; 0]%Z) None cnot_m no_matrix), [b; a]. split; [reflexivity|]. split; [reflexivity|].
  assert (CM : cnot_m = op_tensor 2 A) by exact (f_equal (fun r => match r with Ok g => g_matrix g | Err _ => no_matrix end) (build_ok 2 (gi_cnot 0 1))).
  split.
  - unfold TN_operation. cbn [g_cls g_matrix g_N g_wires]. rewrite cnot_is by lia. unfold ladder2. change (Z.min (-1) 0) with (-1)%Z. change (Z.max (-1) 0) with 0%Z.
    change (zrange2 (-1) (0 - 1)) with (@nil Z). change (zrange_down (0 - 1) (-1)) with (@nil Z). cbn [mfold bind Z.eqb Pos.eqb]. change (0 - 1)%Z with (-1)%Z.
    rewrite two_site_turned, CM. change (two_site svd (op_tensor 2 A) [y; x] 0 1 = Ok [a; b]) in E. rewrite E. reflexivity.
  - intros [_ C']. cbn [chain] in Cr, C'. destruct Cr as (D & _ & Sa & _ & D2 & _ & Sb & _ & D2E). subst D2. destruct C' as (D3 & _ & Sb' & _).
    rewrite Sb in Sb'. injection Sb' as -> _.
    assert (F : forall p q, In p [0; 1] -> In q [0; 1] -> Cmul (tget a [p; 0; 0]) (tget b [q; 0; 0]) = if p =? q then RtoC 1 else RtoC 0).
    { intros p q Hp Hq. rewrite <- V by auto. rewrite <- Ar.
      2: { cbn in Hp, Hq. cbn. intuition subst; tauto. }
      unfold mps_amp. cbn [mps_mat]. rewrite Sa, Sb. cbn. generalize (tget a [p; 0; 0]) (tget b [q; 0; 0]). intros [u v] [u' v']. apply C_eq; cbn; ring. }
    pose proof (F 0 0 ltac:(cbn; tauto) ltac:(cbn; tauto)) as F00. pose proof (F 0 1 ltac:(cbn; tauto) ltac:(cbn; tauto)) as F01.
    pose proof (F 1 0 ltac:(cbn; tauto) ltac:(cbn; tauto)) as F10. pose proof (F 1 1 ltac:(cbn; tauto) ltac:(cbn; tauto)) as F11. cbn [Nat.eqb] in *.
    assert (X : Cmul (Cmul (tget a [0; 0; 0]) (tget b [0; 0; 0])) (Cmul (tget a [1; 0; 0]) (tget b [1; 0; 0])) =
                Cmul (Cmul (tget a [0; 0; 0]) (tget b [1; 0; 0])) (Cmul (tget a [1; 0; 0]) (tget b [0; 0; 0]))).
    { generalize (tget a [0; 0; 0]) (tget b [0; 0; 0]) (tget a [1; 0; 0]) (tget b [1; 0; 0]). intros [] [] [] []. apply C_eq; cbn; ring. }
    rewrite F00, F01, F10, F11 in X. apply (f_equal fst) in X. cbn in X. lra.
Qed.
