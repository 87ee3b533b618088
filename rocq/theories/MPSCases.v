(** A concrete matrix product state used in the examples: (|000> + |111>), bonds of size 2. *)
From Coq Require Import List ZArith QArith Reals Lra Lia ZifyBool Bool Arith.
From Verif Require Import PyBase Scalar CInst BigSum Index Tensor TensorFacts Spec SpecFacts QMath QTN QMathC QOperator
  ExpandFacts ExpandFacts2 GateSpec QGates GateCalls RunSpec MPSSpec MPSFacts1 MPSFacts2 MPSFacts5 MPSFacts7 MPSFacts9 MPSFacts11 MPSFacts10 MPSFacts12 MPSFacts8 MPSFacts6.
Import ListNotations.
Local Close Scope Q_scope.
Local Close Scope R_scope.
Local Open Scope nat_scope.

Definition ghz_first : tensor := tbuild [2; 1; 2] (fun i => if nth 0 i 0 =? nth 2 i 0 then RtoC 1 else RtoC 0).
Definition ghz_mid : tensor :=
  tbuild [2; 2; 2] (fun i => if (nth 0 i 0 =? nth 1 i 0) && (nth 1 i 0 =? nth 2 i 0) then RtoC 1 else RtoC 0).
Definition ghz_last : tensor := tbuild [2; 2; 1] (fun i => if nth 0 i 0 =? nth 1 i 0 then RtoC 1 else RtoC 0).
Definition ghz_mps : list tensor := [ghz_first; ghz_mid; ghz_last].
Definition ghz : qstate := fun b => if all_one [0; 1; 2] b || forallb (Nat.eqb 0) b then RtoC 1 else RtoC 0.

Lemma ghz_is_mps : is_mps 3 ghz_mps ghz.
Proof.
  split.
  - split; [reflexivity|]. repeat (eexists; split; [shelve|]; split; [reflexivity|]; split; [apply tbuild_wf|]).
    reflexivity. Unshelve. all: lia.
  - intros b Hb. unfold mps_amp, ghz_mps. cbn in Hb.
    repeat (destruct Hb as [<-|Hb]); [..|destruct Hb]; cbn; ceq; ring.
Qed.
Lemma ghz_nonzero : nonzero 3 ghz.
Proof. intros H. specialize (H [0; 0; 0]). cbn in H. assert (E : RtoC 1 = RtoC 0) by (apply H; tauto). injection E as E. lra. Qed.

(** an exact decomposition exists *)
Lemma some_exact_svd : exact_svd triv_svd.
Proof. apply triv_svd_exact. exact Cabsgt_1. Qed.

Lemma exact_shapes : forall svd, exact_svd svd -> svd_shapes svd.
Proof. intros svd H A m n SA WA Hm Hn. specialize (H A m n SA WA Hm Hn). destruct (svd A) as [[U S] V]. cbv zeta in *. tauto. Qed.

Lemma expec_real_ok : forall n l psi ws obs As, 0 < n -> is_mps n l psi -> (forall w, In w ws -> w < n) ->
    length ws = length obs -> Forall2 (is_op 1) obs As ->
    exists l', MPS_expec_real l (map Z.of_nat ws) obs = Ok (Re (inner n psi (act n (obs_op n ws As) psi)), l') /\
      is_mps n l' (act n (obs_op n ws As) psi).
Proof.
  intros n l psi ws obs As Hn HM HW HL HF. destruct (expec_ok n l psi ws obs As Hn HM HW HL HF) as (l' & E & M).
  exists l'. split; [|exact M]. unfold MPS_expec_real. now rewrite E.
Qed.

(** a Z measurement of qubit 0 of GHZ turns the caller's state into |000> - |111> *)
Lemma expec_mutates : exists l', MPS_expec_real ghz_mps [0%Z] [PauliZ_m] = Ok (0%R, l') /\ l' <> ghz_mps /\
  exists phi, is_mps 3 l' phi /\ ~ st_eq 3 phi ghz.
Proof.
  assert (O : is_op 1 PauliZ_m Z_op).
  { apply is_op_eq. unfold PauliZ_m, sigma_z, mat_of, op_tensor, tbuild. cbn. repeat f_equal; ceq; ring. }
  destruct (expec_real_ok 3 ghz_mps ghz [0] [PauliZ_m] [Z_op]) as (l' & E & M); [lia|exact ghz_is_mps|cbn; lia|reflexivity|now constructor|].
  assert (A : st_eq 3 (act 3 (obs_op 3 [0] [Z_op]) ghz) (apply_on Z_op [0] ghz)).
  { eapply st_trans; [apply obs_op_act|]. cbn [obs_st]. apply act_lift. apply good_wires_1; lia. }
  rewrite A in E. apply (is_mps_st _ _ _ _ M) in A. clear M. rename A into M.
  assert (D : ~ st_eq 3 (apply_on Z_op [0] ghz) ghz).
  { intros H. specialize (H [1; 1; 1]). cbn in H. assert (X := H ltac:(tauto)). injection X as X _. lra. }
  exists l'. split; [|split].
  - cbn [map] in E. change (Z.of_nat 0) with 0%Z in E. rewrite E. f_equal. f_equal. cbn. lra.
  - intros ->. apply D. intros b Hb. destruct M as [_ M], ghz_is_mps as [_ G]. now rewrite <- (M b Hb), (G b Hb).
  - eexists. split; [exact M|exact D].
Qed.

(** valid wires of a concrete gate *)
Ltac giok := split; [split; [repeat constructor; cbn; lia|cbn; intros w Hw; lia]|exact I].
