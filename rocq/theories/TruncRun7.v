(** Lemmas: the whole evolution of a matrix product state with a truncating decomposition. *)
From Coq Require Import List ZArith QArith Reals Lra Lia ZifyBool Bool Arith Qreals Permutation.
From Verif Require Import PyBase Scalar CInst BigSum Index Tensor TensorFacts Spec SpecFacts QMath QTN QOperator GateSpec QGates GateCalls GateFacts GateFacts2 GateFacts4 RunSpec TruncRunSpec LayerFacts1 CircuitSpec QCircuit CircuitFacts1
  MPSSpec MPSFacts1 MPSFacts2 MPSFacts3 MPSFacts4 MPSFacts5 MPSFacts6 MPSFacts9 MeasSpec MeasFacts QuanvFacts TruncSpec TruncFacts1 TruncFacts2 SVDExist2 SVDExist3
  TruncRun1 TruncRun2 TruncRun3 TruncRun4 TruncRun5 TruncRun6 TruncRun8.
Import ListNotations.
Local Close Scope Q_scope.
Local Open Scope R_scope.

(** ** the matrix product state of a state vector *)
Section Start.
  Context {SC : Scalar}.
  Add Ring KR : k_ring.
  Local Open Scope k_scope.
  Lemma tr_start : forall N (psi : qstate), tr_inv N psi 0 (tbuild [1%nat; (2 ^ N)%nat] (fun idx => psi (bitsof N (nth 1 idx 0%nat))), []).
  Proof.
    intros N psi. exists 1%nat. eexists. exists []. cbn [fst snd length Nat.pow]. rewrite Nat.sub_0_r. split; [lia|]. split; [reflexivity|]. split; [reflexivity|].
    split; [reflexivity|].
    assert (Z : forall b, In b (bits N) -> diff psi (held [] 0 1 (fun idx => psi (bitsof N (nth 1 idx 0%nat)))) b = 0).
    { intros b Hb. unfold diff, held. cbn [seq firstn skipn]. rewrite bigsum_cons, bigsum_nil. cbn [mps_mat Nat.eqb nth].
      rewrite bitsof_bval by exact Hb. ring. }
    repeat split.
    + intros k k' Hk Hk'. cbn in Hk, Hk'. destruct Hk as [<-|[]], Hk' as [<-|[]]. cbn [bits mps_mat Nat.eqb]. 
      change (bits 0) with [@nil nat]. rewrite bigsum_cons, bigsum_nil, kconj_1. ring.
    + intros k b' Hk Hb'. change (bits 0) with [@nil nat]. rewrite bigsum_cons, bigsum_nil. cbn [app]. rewrite Z by auto. ring.
    + unfold weight, inner. rewrite bigsum_nil. apply bigsum_zero. intros b Hb. rewrite Z by auto. ring.
    + constructor.
    + cbn. lia.
  Qed.
End Start.

Definition ortho (l : list tensorC) (D : nat) : Prop :=
  forall k k', In k (seq 0 D) -> In k' (seq 0 D) ->
    sumC (bits (length l)) (fun b => Cmul (Cconj (mps_mat (SC := C_scalar) l b 0%nat k)) (mps_mat (SC := C_scalar) l b 0%nat k')) = if (k =? k')%nat then RtoC 1 else RtoC 0.
Definition orthos (l : list tensorC) : Prop := forall l1 l2 D, l = l1 ++ l2 -> chain (SC := C_scalar) 1 l1 D -> ortho l1 D.

Lemma ortho_frame : forall l D, ortho l D -> frame 1 1 l D.
Proof.
  intros l D H v. assert (E : norm2 (length l) (Lv (SC := C_scalar) l D v) = nrm D v); [|lra].
  exact (iso_sqn _ (bits (length l)) (seq 0 D) (fun k b => mps_mat (SC := C_scalar) l b 0%nat k) v (seq_NoDup _ _) H).
Qed.
Lemma chain_fun : forall l k D1 D2, chain (SC := C_scalar) k l D1 -> chain (SC := C_scalar) k l D2 -> D1 = D2.
Proof.
  intros l. induction l as [|t l IH]; cbn [chain]; intros k D1 D2 H1 H2; [congruence|].
  destruct H1 as (x & _ & S1 & _ & H1), H2 as (y & _ & S2 & _ & H2). rewrite S1 in S2. injection S2 as ->. eauto.
Qed.
Lemma app_snoc : forall A (l l1 l2 : list A) x, l ++ [x] = l1 ++ l2 -> (l2 = [] /\ l1 = l ++ [x]) \/ exists l2', l2 = l2' ++ [x] /\ l = l1 ++ l2'.
Proof.
  intros A l l1 l2 x E. destruct l2 as [|y l2] using rev_ind.
  - left. rewrite app_nil_r in E. auto.
  - right. rewrite app_assoc in E. apply app_inj_tail in E. destruct E as [E <-]. eauto.
Qed.
Lemma sv_step_snoc : forall svd N st i st', sv_step (SC := C_scalar) svd N st i = Ok st' -> exists s, snd st' = snd st ++ [s].
Proof.
  intros svd N st i st' E. unfold sv_step in E. apply bind_inv in E. destruct E as (c & _ & E). destruct (i =? N - 1)%nat.
  - apply bind_inv in E. destruct E as (s & _ & E). injection E as <-. exists s. reflexivity.
  - apply bind_inv in E. destruct E as (uc & _ & E). apply bind_inv in E. destruct E as (s & _ & E). injection E as <-. exists s. reflexivity.
Qed.
Lemma tr_ortho : forall N psi i st D, tr_inv (SC := C_scalar) N psi i st -> chain (SC := C_scalar) 1 (snd st) D -> ortho (snd st) D.
Proof.
  intros N psi i st D (D0 & cf & dr & _ & _ & L & HC & HP & _) H. rewrite (chain_fun _ _ _ _ H HC).
  intros k k' Hk Hk'. rewrite L. now apply HP.
Qed.

Lemma init_loop : forall svd N psi M i st st', true_svd (SC := C_scalar) svd -> (i + M < N)%nat -> tr_inv (SC := C_scalar) N psi i st -> orthos (snd st) ->
  mfold (sv_step (SC := C_scalar) svd N) (seq i M) st = Ok st' -> all_small (SC := C_scalar) N psi \/ orthos (snd st').
Proof.
  intros svd N psi M. induction M as [|M IH]; intros i st st' HT Hi HI HO E; cbn [seq mfold] in E.
  - injection E as <-. auto.
  - apply bind_inv in E. destruct E as (st1 & E1 & E).
    destruct (tr_step (SC := C_scalar) svd N psi False i st (fun A => or_introl (HT A)) ltac:(lia) HI) as [[[] _]|[A|(st2 & E2 & H2)]]; auto.
    rewrite E1 in E2. injection E2 as <-. apply (IH (S i) st1 st'); auto; try lia.
    destruct (sv_step_snoc _ _ _ _ _ E1) as (s & Es). rewrite Es. intros l1 l2 D EL HC.
    destruct (app_snoc _ _ _ _ _ EL) as [[-> ->]|(l2' & -> & EL')].
    + rewrite <- Es in *. now apply (tr_ortho N psi (S i) st1).
    + now apply (HO l1 l2' D).
Qed.

Lemma init_framed : forall svd N psi l, true_svd (SC := C_scalar) svd -> (0 < N)%nat -> INR (cut_count N (N - 1)) * tol2 < norm2 N psi ->
  StateVec2MPS (SC := C_scalar) svd (tbuild (SC := C_scalar) [1; 2 ^ N]%nat (fun idx => psi (bitsof N (nth 1 idx 0%nat)))) N = Ok l -> framed 1 1 l.
Proof.
  intros svd N psi l HT HN HB E. unfold StateVec2MPS in E. rewrite tbuild_shape in E. cbn [length Nat.eqb negb nth orb] in E. rewrite Nat.eqb_refl in E.
  cbn [raise_if negb bind] in E. fold (sv_step (SC := C_scalar) svd N) in E.
  set (M := (N - 1)%nat) in *. assert (SQ : seq 0 N = seq 0 M ++ [M]).
  { replace N with (S M) by (subst M; lia). apply seq_S. }
  rewrite SQ, mfold_app in E. apply bind_inv in E. destruct E as (st' & E & E'). injection E' as <-.
  apply bind_inv in E. destruct E as (st & E & E'). cbn [mfold] in E'. apply bind_inv in E'. destruct E' as (st2 & E' & X). injection X as <-.
  assert (HM : (0 + M < N)%nat) by (unfold M; lia).
  assert (O0 : orthos []).
  { intros l1 l2 D EL HC. symmetry in EL. apply app_eq_nil in EL. destruct EL as [-> ->]. cbn [chain] in HC. subst D.
    intros k k' Hk Hk'. cbn in Hk, Hk'. destruct Hk as [<-|[]], Hk' as [<-|[]]. cbn. apply C_eq; cbn; ring. }
  destruct (init_loop svd N psi M 0 _ st HT HM (tr_start (SC := C_scalar) N psi) O0 E) as [(dr & X & S & L)|HO]; [fold M in L|].
  - exfalso. rewrite weight_norm, <- norm2_inner in X. injection X as X. pose proof (small_sum_count dr _ S L). lra.
  - destruct (sv_step_snoc _ _ _ _ _ E') as (s & Es). rewrite Es. intros l1 l2 D EL N2 HC.
    destruct (app_snoc _ _ _ _ _ EL) as [[-> _]|(l2' & -> & EL')]; [now elim N2|].
    apply ortho_frame. now apply (HO l1 l2' D).
Qed.

(** ** the run *)
Lemma setup : forall svd n T t (psi : qstateC), true_svd (SC := C_scalar) svd -> (0 < n)%nat -> is_state (SC := C_scalar) n [1; 2 ^ n]%nat t psi ->
  norm2 n psi = 1 -> INR (cut_count n (n - 1)) <= 10 ^ 14 -> INR T <= 2 * 10 ^ 6 ->
  exists l (Rel : nat -> list tensorC -> qstateC -> Prop), StateVec2MPS (SC := C_scalar) svd t n = Ok l /\ Rel 0%nat l psi /\
    (forall t l f g, Rel t l f -> st_eq (SC := C_scalar) n f g -> Rel t l g) /\
    (forall t t' l f, (t <= t')%nat -> (t' <= T)%nat -> Rel t l f -> Rel t' l f) /\
    (forall t A l psi i, unitary (SC := C_scalar) 1 A -> (t <= T)%nat -> Rel t l psi -> (i < n)%nat ->
      exists s s', py_nth l (Z.of_nat i) = Ok s /\ einsum_ab_bcd (SC := C_scalar) (op_tensor (SC := C_scalar) 1 A) s = Ok s' /\
        exists l', py_set l (Z.of_nat i) s' = Ok l' /\ Rel t l' (apply_on (SC := C_scalar) A [i] psi)) /\
    (forall t A l psi i, unitary (SC := C_scalar) 2 A -> (S t <= T)%nat -> Rel t l psi -> (S i < n)%nat ->
      exists l', two_site (SC := C_scalar) svd (op_tensor (SC := C_scalar) 2 A) l (Z.of_nat i) (Z.of_nat (S i)) = Ok l' /\ Rel (S t) l' (apply_on (SC := C_scalar) A [i; S i] psi)) /\
    (forall t A l psi i, unitary (SC := C_scalar) 3 A -> (S t <= T)%nat -> Rel t l psi -> (S (S i) < n)%nat ->
      exists l', three_site (SC := C_scalar) svd (Ok (op_tensor (SC := C_scalar) 3 A)) l (Z.of_nat (S i)) = Ok l' /\ Rel (S t) l' (apply_on (SC := C_scalar) A [i; S i; S (S i)] psi)) /\
    (forall t l psi, Rel t l psi -> length l = n) /\
    (forall l chi, Rel T l chi -> exists t' phi, is_mps (SC := C_scalar) n l phi /\ MPS2StateVec (SC := C_scalar) l = Ok t' /\ is_state (SC := C_scalar) n [1; 2 ^ n]%nat t' phi /\
      sqrt (rsum (bits n) (fun b => Cnorm2 (Csub (chi b) (phi b)))) <= (sqrt (INR (cut_count n (n - 1))) + 8 * INR T) * / 10 ^ 8).
Proof.
  intros svd n T t psi HT Hn Ht HN HC HW.
  assert (PC : 0 <= INR (cut_count n (n - 1))) by apply pos_INR. assert (PW : 0 <= INR T) by apply pos_INR.
  assert (HB : INR (cut_count n (n - 1)) * tol2 < norm2 n psi).
  { rewrite HN. unfold tol2. apply Rle_lt_trans with (10 ^ 14 * / 10 ^ 16); [apply Rmult_le_compat_r; lra|lra]. }
  destruct (trunc_true svd n t psi HT Hn Ht HB) as (l & t1 & phi0 & E1 & M1 & _ & _ & B1 & B2).
  pose proof Ht as Ht2. apply state_row in Ht2. rewrite Ht2 in E1.
  pose proof (init_framed svd n psi l HT Hn HB E1) as FR. rewrite <- Ht2 in E1.
  set (del := sqrt (INR (cut_count n (n - 1))) * / 10 ^ 8).
  assert (Ps : 0 <= sqrt (INR (cut_count n (n - 1))) <= 10 ^ 7).
  { split; [apply sqrt_pos|]. replace (10 ^ 7) with (sqrt (10 ^ 14)); [now apply sqrt_le_1_alt|]. replace (10 ^ 14) with (10 ^ 7 * 10 ^ 7) by ring. apply sqrt_square. lra. }
  assert (Hdel : 0 <= del <= / 10) by (unfold del; lra).
  set (ee := fun k : nat => 2 * eta0 * INR k).
  assert (E0 : ee 0%nat = 0) by (unfold ee; cbn; ring).
  assert (ES : forall k, ee (S k) = ee k + 2 * eta0) by (intros k; unfold ee; rewrite S_INR; ring).
  assert (ET : ee T = 8 * INR T * / 10 ^ 8) by (unfold ee, eta0; field).
  pose proof eta0_pos as P0.
  assert (Pe : forall k, 0 <= ee k) by (intros k; unfold ee; pose proof (pos_INR k); apply Rmult_le_pos; lra).
  assert (Me : forall k k', (k <= k')%nat -> ee k <= ee k') by (intros k k' Hk; unfold ee; apply le_INR in Hk; apply Rmult_le_compat_l; lra).
  assert (Le : forall k, (k <= T)%nat -> ee k <= / 5). { intros k Hk. apply Rle_trans with (ee T); [now apply Me|]. rewrite ET. lra. }
  assert (R0 : rel n del (ee 0%nat) l psi).
  { rewrite E0. destruct M1 as [MS MA].
    assert (LP : len (bits n) psi = 1) by (unfold len; change (sqn (bits n) psi) with (norm2 n psi); rewrite HN; apply sqrt_1).
    split; auto.
    - rewrite Rplus_0_r. unfold del. replace (/ 10 ^ 8) with (sqrt tol2).
      2:{ unfold tol2. replace (/ 10 ^ 16) with (/ 10 ^ 8 * / 10 ^ 8) by field. apply sqrt_square. lra. }
      rewrite <- sqrt_mult_alt by exact PC. apply sqrt_le_1_alt. eapply Rle_trans; [|exact B1]. right. apply sqn_ext. intros b Hb. now rewrite MA.
    - rewrite Rplus_0_r. rewrite (len_ext _ _ _ phi0 MA). rewrite <- sqrt_1. apply sqrt_le_1_alt. change (sqn (bits n) phi0) with (norm2 n phi0).
      rewrite B2, HN. pose proof (sqn_pos _ (bits n) (fun b => Csub (psi b) (phi0 b))) as X. unfold sqn in X. lra.
    - now rewrite Rminus_0_r, Rplus_0_r. }
  exists l, (fun k => rel n del (ee k)). split; [exact E1|]. split; [exact R0|].
  split; [intros k l0 f g; apply rel_st|].
  split; [intros k k' l0 f Hk Hk'; apply rel_weak; auto|].
  split; [intros k A l0 f i HU Hk; apply single_site_rel; auto|].
  split; [intros k A l0 f i HU Hk; rewrite ES; apply two_site_rel; auto; rewrite <- ES; now apply Le|].
  split; [intros k A l0 f i HU Hk; rewrite ES; apply three_site_rel; auto; rewrite <- ES; now apply Le|].
  split; [intros k l0 f [[X _] _ _ _ _]; exact X|].
  intros l' chi [RS _ RE _ _].
  exists (tbuild (SC := C_scalar) [1; 2 ^ n]%nat (fun idx => mps_amp (SC := C_scalar) l' (bitsof n (nth 1 idx 0%nat)))), (mps_amp (SC := C_scalar) l').
  assert (MI : is_mps (SC := C_scalar) n l' (mps_amp (SC := C_scalar) l')) by (split; [exact RS|reflexivity]).
  split; [exact MI|]. split; [now apply MPS2StateVec_ok|]. split; [now apply state_row|].
  unfold len in RE. eapply Rle_trans; [exact RE|]. rewrite ET. unfold del. right. ring.
Qed.

Lemma run_true : forall svd n gs t (psi : qstateC), true_svd (SC := C_scalar) svd -> (0 < n)%nat -> Forall (gi_ok n) gs -> forallb has_TN gs = true ->
  is_state (SC := C_scalar) n [1; 2 ^ n]%nat t psi -> norm2 n psi = 1 -> INR (cut_count n (n - 1)) <= 10 ^ 14 -> INR (moves gs) <= 2 * 10 ^ 6 ->
  exists os l l' t' phi, mmap (build n) gs = Ok os /\ StateVec2MPS (SC := C_scalar) svd t n = Ok l /\ mfold (fun l o => TN_operation svd o l) os l = Ok l' /\
    is_mps (SC := C_scalar) n l' phi /\ MPS2StateVec (SC := C_scalar) l' = Ok t' /\ is_state (SC := C_scalar) n [1; 2 ^ n]%nat t' phi /\
    sqrt (rsum (bits n) (fun b => Cnorm2 (Csub (act (SC := C_scalar) n (gs_op n gs) psi b) (phi b)))) <= (sqrt (INR (cut_count n (n - 1))) + 8 * INR (moves gs)) * / 10 ^ 8.
Proof.
  intros svd n gs t psi HT Hn HF HG Ht HN HC HW.
  destruct (setup svd n (moves gs) t psi HT Hn Ht HN HC HW) as (l & Rel & E1 & R0 & R1 & R2 & R3 & R4 & R5 & _ & R6).
  destruct (run_rel svd n (moves gs) Rel R1 R2 R3 R4 R5 gs 0 l psi HF HG R0 (le_n _)) as (l' & E & R).
  destruct (R6 l' _ R) as (t' & phi & X1 & X2 & X3 & X4).
  exists (map (obj n) gs), l, l', t', phi. split; [now rewrite mmap_build|]. auto 10.
Qed.

Lemma circuit_true : forall svd n cs t (psi : qstateC), true_svd (SC := C_scalar) svd -> (0 < n)%nat -> Forall (ci_ok n) cs -> forallb (ci_TN n) cs = true ->
  is_state (SC := C_scalar) n [1; 2 ^ n]%nat t psi -> norm2 n psi = 1 -> INR (cut_count n (n - 1)) <= 10 ^ 14 -> INR (ci_moves cs) <= 2 * 10 ^ 6 ->
  exists c l l' t' phi, circuit_of n cs = Ok c /\ StateVec2MPS (SC := C_scalar) svd t n = Ok l /\ TN_evolution svd c l = Ok l' /\
    is_mps (SC := C_scalar) n l' phi /\ MPS2StateVec (SC := C_scalar) l' = Ok t' /\ is_state (SC := C_scalar) n [1; 2 ^ n]%nat t' phi /\
    sqrt (rsum (bits n) (fun b => Cnorm2 (Csub (act (SC := C_scalar) n (cs_op n cs) psi b) (phi b)))) <= (sqrt (INR (cut_count n (n - 1))) + 8 * INR (ci_moves cs)) * / 10 ^ 8.
Proof.
  intros svd n cs t psi HT Hn HF HG Ht HN HC HW.
  destruct (setup svd n (ci_moves cs) t psi HT Hn Ht HN HC HW) as (l & Rel & E1 & R0 & R1 & R2 & R3 & R4 & R5 & R7 & R6).
  destruct (evolution_rel svd n (ci_moves cs) Rel R1 R2 R3 R4 R5 R7 cs 0 l psi HF HG R0 (le_n _)) as (l' & E & R).
  destruct (R6 l' _ R) as (t' & phi & X1 & X2 & X3 & X4).
  exists (circ n cs), l, l', t', phi. split; [now apply circuit_of_ok|]. auto 10.
Qed.
