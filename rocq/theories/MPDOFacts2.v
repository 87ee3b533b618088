(** Lemmas: the density matrix round trip over the complex numbers. *)
From Coq Require Import List ZArith QArith Reals Lra Lia ZifyBool Bool Arith.
From Verif Require Import PyBase Scalar CInst BigSum Index Tensor TensorFacts Spec SpecFacts QMath QTN QMathC QOperator
  ExpandFacts ExpandFacts2 MPSSpec MPSFacts1 MPSFacts2 MPSFacts7 MPSFacts9 MPSCases MPDOSpec MPDOFacts1 PTSpec PTFacts2.
Import ListNotations.
Local Close Scope Q_scope.
Local Close Scope R_scope.
Local Open Scope nat_scope.

Section TraceFacts.
  Context {SC : Scalar}.
  Add Ring KR : k_ring.
  Local Open Scope k_scope.
  Lemma trace_op_eq : forall n A B, op_eq n A B -> trace_op n A = trace_op n B.
  Proof. intros n A B H. unfold trace_op. apply bigsum_ext. intros x Hx. now apply H. Qed.
  Lemma trace_op_scale_r : forall n A z, trace_op n (fun r c => A r c * z) = trace_op n A * z.
  Proof. intros. unfold trace_op. apply (bigsum_mul_r _ _ z (fun x => A x x)). Qed.
  Lemma trace_op_scale_l : forall n A z, trace_op n (fun r c => z * A r c) = z * trace_op n A.
  Proof. intros. unfold trace_op. apply (bigsum_mul_l _ _ z (fun x => A x x)). Qed.
  Lemma op_zero_trace : forall n, trace_op n (fun _ _ => 0) = 0.
  Proof. intros. unfold trace_op. now apply bigsum_zero. Qed.
End TraceFacts.

(** dividing by the real part of the trace *)
Definition over_trace (n : nat) (A : @qop C_scalar) : @qop C_scalar := fun r c => Cmul (RtoC (/ Re (trace_op n A))) (A r c).

Lemma mpo_to_rho : forall n l A, 0 < n -> is_mpo n l A ->
  MPS2Rho l = if Req_EM_T (Re (trace_op n A)) 0 then Err NotFinite else Ok (op_tensor n (over_trace n A)).
Proof.
  intros n l A Hn H. unfold MPS2Rho. rewrite (MPS2Rho_raw_ok n l A Hn H). cbn [bind]. rewrite trace_op_tensor. cbn [bind].
  destruct (Req_EM_T (Re (trace_op n A)) 0); auto. now rewrite tscale_op.
Qed.

Lemma mpo_to_rho_ok : forall n l A, 0 < n -> is_mpo n l A -> Re (trace_op n A) <> 0%R -> MPS2Rho l = Ok (op_tensor n (over_trace n A)).
Proof. intros n l A Hn H HT. rewrite (mpo_to_rho n l A Hn H). now destruct (Req_EM_T (Re (trace_op n A)) 0). Qed.
Lemma mpo_to_rho_0 : forall n l A, 0 < n -> is_mpo n l A -> Re (trace_op n A) = 0%R -> MPS2Rho l = Err NotFinite.
Proof. intros n l A Hn H HT. rewrite (mpo_to_rho n l A Hn H). now destruct (Req_EM_T (Re (trace_op n A)) 0). Qed.

Lemma Cconj_real : forall z, Cconj z = z -> Im z = 0%R.
Proof. intros [a b] H. injection H as H. cbn. lra. Qed.

(** the site tensors, multiplied together, are the density matrix up to one number, the last factor of the decompositions *)
Lemma rho_sites : forall (SC : Scalar) svd N t A, exact_svd svd -> 0 < N -> is_op N t A -> ~ op_eq N A (fun _ _ => k0) ->
  exists l z B, Rho2MPS svd t N = Ok l /\ is_mpo N l B /\ op_eq N A (fun r c => kmul z (B r c)).
Proof.
  intros SC svd N t A HS HN HA HZ. apply is_op_eq in HA. subst t.
  destruct (Rho2MPS_ok svd N A HS HN HZ) as (l & a & E & L & C & SA & PA & H).
  destruct (svd a) as [[U Sg] V]. cbv zeta in H. exists l, (kmul (tget Sg [0]) (kconj (tget V [0; 0]))), (mpo_op l).
  split; [exact E|]. split; [split; [exact L|split; [exact C|now intros r c Hr Hc]]|].
  intros r c Hr Hc. rewrite (H r c Hr Hc). destruct (k_ring (Scalar := SC)). now rewrite Rmul_comm.
Qed.

Lemma rho_sites_real : forall svd N t A, exact_svd svd -> real_col svd -> 0 < N -> is_op N t A -> ~ op_eq N A (fun _ _ => k0) ->
  exists l (z : R) B, Rho2MPS svd t N = Ok l /\ is_mpo N l B /\ z <> 0%R /\ op_eq N A (fun r c => kmul (RtoC z) (B r c)).
Proof.
  intros svd N t A HS HR HN HA HZ. apply is_op_eq in HA. subst t.
  destruct (Rho2MPS_ok svd N A HS HN HZ) as (l & a & E & L & C & SA & PA & H).
  assert (W : wf a). { unfold wf. rewrite SA. cbn. lia. }
  specialize (HR a _ SA W PA). destruct (svd a) as [[U Sg] V]. cbv zeta in *.
  destruct HR as [R1 R2]. apply Cconj_real in R1, R2.
  exists l, (Re (Cmul (tget Sg [0]) (Cconj (tget V [0; 0])))), (mpo_op l). split; [exact E|].
  split; [split; [exact L|split; [exact C|now intros r c Hr Hc]]|].
  assert (Q : Cmul (tget Sg [0]) (Cconj (tget V [0; 0])) = RtoC (Re (Cmul (tget Sg [0]) (Cconj (tget V [0; 0]))))).
  { destruct (tget Sg [0]) as [s1 s2], (tget V [0; 0]) as [v1 v2]. cbn in R1, R2. subst s2 v2. ceq; ring. }
  assert (X : op_eq N A (fun r c => kmul (RtoC (Re (Cmul (tget Sg [0]) (Cconj (tget V [0; 0]))))) (mpo_op l r c))).
  { intros r c Hr Hc. rewrite (H r c Hr Hc). rewrite <- Q.
    change (Cmul (mpo_op l r c) (Cmul (tget Sg [0]) (Cconj (tget V [0; 0]))) = Cmul (Cmul (tget Sg [0]) (Cconj (tget V [0; 0]))) (mpo_op l r c)). ceq; ring. }
  split; [|exact X]. intros Z. rewrite Z in X. apply HZ. intros r c Hr Hc. rewrite (X r c Hr Hc). cbn. ceq; ring.
Qed.

Lemma trace_nonzero : forall n (A : @qop C_scalar), Re (trace_op n A) <> 0%R -> ~ op_eq n A (fun _ _ => k0).
Proof. intros n A H Z. apply H. rewrite (trace_op_eq _ _ _ Z), op_zero_trace. reflexivity. Qed.

Lemma trace_scale_C : forall n (A : @qop C_scalar) (z : C), trace_op (SC := C_scalar) n (fun r c => Cmul z (A r c)) = Cmul z (trace_op n A).
Proof. intros. exact (trace_op_scale_l n A z). Qed.

Lemma rho_round : forall svd N t A, exact_svd svd -> real_col svd -> 0 < N -> is_op N t A -> ~ op_eq N A (fun _ _ => k0) ->
  exists l, Rho2MPS svd t N = Ok l /\ length l = N /\
    MPS2Rho l = if Req_EM_T (Re (trace_op N A)) 0 then Err NotFinite else Ok (op_tensor N (over_trace N A)).
Proof.
  intros svd N t A HS HR HN HA HZ. destruct (rho_sites_real svd N t A HS HR HN HA HZ) as (l & z & B & E & M & Z & H).
  exists l. split; [exact E|]. split; [apply M|]. rewrite (mpo_to_rho N l B HN M).
  assert (T : Re (trace_op N A) = (z * Re (trace_op N B))%R).
  { rewrite (trace_op_eq _ _ _ H). change (Re (trace_op N (fun r c => Cmul (RtoC z) (B r c))) = (z * Re (trace_op N B))%R).
    rewrite trace_scale_C. destruct (trace_op N B) as [x y]. cbn. ring. }
  destruct (Req_EM_T (Re (trace_op N B)) 0) as [e|ne], (Req_EM_T (Re (trace_op N A)) 0) as [e'|ne']; auto.
  - exfalso. apply ne'. rewrite T, e. ring.
  - exfalso. rewrite T in e'. apply Rmult_integral in e'. tauto.
  - f_equal. apply op_tensor_ext. intros r c Hr Hc. unfold over_trace. rewrite (H r c Hr Hc), T.
    change (Cmul (RtoC (/ Re (trace_op N B))) (B r c) = Cmul (RtoC (/ (z * Re (trace_op N B)))) (Cmul (RtoC z) (B r c))).
    apply C_eq; cbn; field; auto.
Qed.

Lemma rho_normalises : forall svd N t A, exact_svd svd -> real_col svd -> 0 < N -> is_op N t A -> Re (trace_op N A) <> 0%R ->
  exists l t', Rho2MPS svd t N = Ok l /\ length l = N /\ MPS2Rho l = Ok t' /\
    is_op N t' (fun r c => Cmul (RtoC (/ Re (trace_op N A))) (A r c)).
Proof.
  intros svd N t A HS HR HN HA HT. destruct (rho_round svd N t A HS HR HN HA (trace_nonzero _ _ HT)) as (l & E & L & F).
  exists l, (op_tensor N (over_trace N A)). split; [exact E|]. split; [exact L|]. split; [|apply is_op_tensor].
  rewrite F. now destruct (Req_EM_T (Re (trace_op N A)) 0).
Qed.

Lemma rho_round_trip : forall svd N t A, exact_svd svd -> real_col svd -> 0 < N -> is_op N t A -> Re (trace_op N A) = 1%R ->
  exists l, Rho2MPS svd t N = Ok l /\ length l = N /\ MPS2Rho l = Ok t.
Proof.
  intros svd N t A HS HR HN HA HT. destruct (rho_normalises svd N t A HS HR HN HA) as (l & t' & E & L & F & H); [lra|].
  exists l. split; [exact E|]. split; [exact L|]. rewrite F. f_equal. apply is_op_eq in H, HA. subst. apply op_tensor_ext.
  intros r c _ _. rewrite HT. destruct (A r c) as [x y]. apply C_eq; cbn; field.
Qed.

Lemma rho_traceless : forall svd N t A, exact_svd svd -> real_col svd -> 0 < N -> is_op N t A -> ~ op_eq N A (fun _ _ => k0) ->
  Re (trace_op N A) = 0%R -> exists l, Rho2MPS svd t N = Ok l /\ MPS2Rho l = Err NotFinite.
Proof.
  intros svd N t A HS HR HN HA HZ HT. destruct (rho_round svd N t A HS HR HN HA HZ) as (l & E & L & F).
  exists l. split; [exact E|]. rewrite F. now destruct (Req_EM_T (Re (trace_op N A)) 0).
Qed.

Lemma triv_real_col : @real_col C_scalar triv_svd.
Proof.
  intros A m SA WA Hm. unfold triv_svd. rewrite SA. cbn [nth]. cbv zeta. rewrite Nat.min_r by lia. replace (m <=? 1) with false by lia.
  rewrite !tget_tbuild by vok. cbn. split; ceq; ring.
Qed.

(** ** A decomposition whose right factor is imaginary *)
Definition turned (A : @tensor C_scalar) : bool := nth 1 (shape A) 0 =? 1.
Definition turn_svd (A : @tensor C_scalar) : tensor * tensor * tensor :=
  (tscale Ci A, tbuild [1] (fun _ => RtoC 1), tbuild [1; 1] (fun _ => Ci)).
Definition phase_svd : @tensor C_scalar -> tensor * tensor * tensor := patch turned turn_svd.

Lemma phase_svd_exact : exact_svd phase_svd.
Proof.
  apply patch_exact; [exact Cabsgt_1|]. intros A HA m n SA WA Hm Hn. unfold turned in HA. rewrite SA in HA. cbn [nth] in HA.
  assert (n = 1) as -> by lia. unfold turn_svd. cbv zeta. rewrite Nat.min_r by lia. set (X := tget A).
  assert (EA : A = tbuild [m; 1] X) by (unfold X; rewrite <- SA; now apply tensor_eta). clearbody X. subst A. clear SA WA. rewrite tscale_tbuild. rewrite !tbuild_shape.
  split; [reflexivity|]. split; [apply tbuild_wf|]. split; [reflexivity|]. split; [apply tbuild_wf|]. split; [reflexivity|]. split; [apply tbuild_wf|]. split.
  - intros i j Hi Hj. assert (j = 0) by lia. subst j. cbn [seq]. rewrite bigsum_cons, bigsum_nil. rewrite !tget_tbuild by vok.
    change (X [i; 0] = Cadd (Cmul (Cmul (Cmul Ci (X [i; 0])) (RtoC 1)) (Cconj Ci)) (RtoC 0)). destruct (X [i; 0]) as [x y]. ceq; ring.
  - exists 1. split; [lia|]. intros l Hl. replace (l <? 1) with true by lia. rewrite tget_tbuild by vok. exact Cabsgt_1.
Qed.

Lemma phase_wrong : forall N t A, 0 < N -> is_op N t A -> ~ op_eq N A (fun _ _ => k0) -> Im (trace_op N A) = 0%R ->
  exists l, Rho2MPS phase_svd t N = Ok l /\ MPS2Rho l = Err NotFinite.
Proof.
  intros N t A HN HA HZ HT. apply is_op_eq in HA. subst t.
  destruct (Rho2MPS_ok phase_svd N A phase_svd_exact HN HZ) as (l & a & E & L & C & SA & PA & H).
  exists l. split; [exact E|]. unfold phase_svd, patch, turned in H. rewrite SA in H. cbn [nth Nat.eqb turn_svd] in H.
  unfold turn_svd in H. cbv zeta in H. rewrite !tget_tbuild in H by vok.
  apply (mpo_to_rho_0 N l (mpo_op l) HN); [split; [exact L|split; [exact C|now intros r c Hr Hc]]|].
  change (op_eq N A (fun r c => Cmul (mpo_op l r c) (Cmul (RtoC 1) (Cconj Ci)))) in H.
  rewrite (trace_op_eq N A _ H) in HT.
  change (Im (trace_op N (fun r c => kmul (mpo_op l r c) (Cmul (RtoC 1) (Cconj Ci)))) = 0%R) in HT. rewrite trace_op_scale_r in HT.
  change (Im (Cmul (trace_op N (mpo_op l)) (Cmul (RtoC 1) (Cconj Ci))) = 0%R) in HT.
  destruct (trace_op N (mpo_op l)) as [x y]. cbn in HT |- *. lra.
Qed.

(** (|00><00| + |11><11|) / 2 *)
Definition mixed : @qop C_scalar := fun r c => if list_eq_dec Nat.eq_dec r c then (if nth 0 r 0 =? nth 1 r 0 then RtoC (1 / 2) else RtoC 0) else RtoC 0.
Lemma mixed_trace : trace_op 2 mixed = RtoC 1.
Proof. apply C_eq; cbn; lra. Qed.
Lemma mixed_nonzero : ~ op_eq 2 mixed (fun _ _ => k0).
Proof. apply trace_nonzero. rewrite mixed_trace. cbn. lra. Qed.

(** Z on the first qubit has trace 0 *)
Definition traceless : @qop C_scalar := fun r c => if list_eq_dec Nat.eq_dec r c then (if nth 0 r 0 =? 0 then RtoC 1 else RtoC (-1)) else RtoC 0.
Lemma traceless_case : Re (trace_op 2 traceless) = 0%R /\ ~ op_eq 2 traceless (fun _ _ => k0).
Proof.
  split; [cbn; lra|]. intros H. specialize (H [0; 0] [0; 0]). cbn in H. assert (E : RtoC 1 = RtoC 0) by (apply H; tauto). injection E as E. lra.
Qed.

(** a matrix product density operator of bond 2 for [mixed] *)
Definition mixed_first : @tensor C_scalar := tbuild [2; 2; 1; 2] (fun i => if (nth 0 i 0 =? nth 1 i 0) && (nth 1 i 0 =? nth 3 i 0) then RtoC (1 / 2) else RtoC 0).
Definition mixed_last : @tensor C_scalar := tbuild [2; 2; 2; 1] (fun i => if (nth 0 i 0 =? nth 1 i 0) && (nth 1 i 0 =? nth 2 i 0) then RtoC 1 else RtoC 0).
Lemma mixed_is_mpo : is_mpo 2 [mixed_first; mixed_last] mixed.
Proof.
  split; [reflexivity|]. split.
  - repeat (eexists; split; [shelve|]; split; [reflexivity|]; split; [apply tbuild_wf|]). reflexivity. Unshelve. all: lia.
  - intros r c Hr Hc. unfold mpo_op. cbn in Hr, Hc.
    repeat (destruct Hr as [<-|Hr]); [..|destruct Hr]; repeat (destruct Hc as [<-|Hc]); (try destruct Hc); cbn; ceq; lra.
Qed.

Lemma mpdo_to_rho : forall n l A, 0 < n -> is_mpo n l A -> Re (trace_op n A) <> 0%R ->
  exists t, MPS2Rho l = Ok t /\ is_op n t (fun r c => Cmul (RtoC (/ Re (trace_op n A))) (A r c)).
Proof. intros n l A Hn H HT. exists (op_tensor n (over_trace n A)). split; [now apply mpo_to_rho_ok|apply is_op_tensor]. Qed.
Lemma rho_wrong_shape : forall (SC : Scalar) svd t N, shape t <> [2 ^ N; 2 ^ N] -> Rho2MPS svd t N = Err ValueError.
Proof. intros SC svd t N H. now apply (wrong_shape_rho svd t N). Qed.
Lemma mpdo_empty : MPS2Rho [] = Err UnboundLocalError.
Proof. reflexivity. Qed.
