(** Lemmas: a matrix product state whose sites are badly scaled is rejected by a truncating decomposition; the concrete case of C54. *)
From Coq Require Import List ZArith QArith Reals Lra Lia ZifyBool Bool Arith Qreals Permutation.
From Verif Require Import PyBase Scalar CInst BigSum Index Tensor TensorFacts Spec SpecFacts QMath QTN QOperator GateSpec QGates GateCalls GateFacts GateFacts2 GateFacts4 RunSpec TruncRunSpec LayerFacts1
  CircuitSpec QCircuit CircuitFacts1 CircuitCases MPSSpec MPSFacts1 MPSFacts2 MPSFacts3 MPSFacts4 MPSFacts5 MPSFacts6 MPSFacts9 MPSCases MeasSpec MeasFacts QuanvFacts TruncSpec TruncFacts1 TruncFacts2 SVDExist2 SVDExist3 SVDExist5
  TruncRun1 TruncRun2 TruncRun3 TruncRun4 TruncRun5 TruncRun6 TruncRun7.
Import ListNotations.
Local Close Scope Q_scope.
Local Open Scope R_scope.

Lemma cut_small : forall svd m n (f : list nat -> C), true_svd (SC := C_scalar) svd -> (0 < m)%nat -> (0 < n)%nat ->
  rsum (seq 0 m) (fun i => rsum (seq 0 n) (fun j => Cnorm2 (f [i; j]))) <= tol2 -> svd_cut (SC := C_scalar) svd (tbuild (SC := C_scalar) [m; n] f) = Err TorchError.
Proof.
  intros svd m n f HT Hm Hn HB. specialize (HT (tbuild (SC := C_scalar) [m; n] f) _ _ eq_refl (tbuild_wf _ _) Hm Hn).
  destruct (svd (tbuild (SC := C_scalar) [m; n] f)) as [[U Sg] V] eqn:E. cbv zeta in HT.
  destruct HT as (SU & WU & SS & WS & SV & WV & EQ & HU & HV & D' & HD' & Hs).
  rewrite (tensor_eta U WU), SU, (tensor_eta Sg WS), SS, (tensor_eta V WV), SV in E.
  rewrite (svd_cut_none svd _ _ _ _ _ _ _ E); [reflexivity|lia|]. intros l Hl. apply norm_small.
  eapply Rle_trans; [|exact HB]. set (k := Nat.min m n) in *.
  assert (X : RtoC (rsum (seq 0 m) (fun i => rsum (seq 0 n) (fun j => Cnorm2 (f [i; j])))) = RtoC (rsum (seq 0 k) (fun l => Cnorm2 (tget Sg [l])))).
  { assert (Y : forall L (g : nat -> C), bigsum (SC := C_scalar) L (fun l => kmul (kconj (g l)) (g l)) = RtoC (rsum L (fun l => Cnorm2 (g l)))).
    { intros L g. rewrite rsum_RtoC. apply (bigsum_ext (SC := C_scalar)). intros l0 _. destruct (g l0). apply C_eq; cbn; unfold Cnorm2; cbn; ring. }
    rewrite <- (Y (seq 0 k) (fun l => tget Sg [l])). rewrite <- (frob (SC := C_scalar) m n k f (tget U) (tget V) (tget Sg)).
    - rewrite rsum_RtoC. apply (bigsum_ext (SC := C_scalar)). intros i _. symmetry. apply (Y (seq 0 n) (fun j => f [i; j])).
    - intros i j Hi Hj. rewrite <- EQ by auto. rewrite tget_tbuild by vok. reflexivity.
    - exact HU.
    - exact HV. }
  injection X as X. rewrite X. apply (rsum_ge _ (seq 0 k) (fun l => Cnorm2 (tget Sg [l])) l).
  - intros. apply Cnorm2_nonneg.
  - apply in_seq. lia.
Qed.

(** |0> scaled by r, as a site with bonds of size 1 *)
Definition scaled0 (r : R) : tensorC := tbuild (SC := C_scalar) [2; 1; 1]%nat (fun i => if (nth 0 i 0 =? 0)%nat then RtoC r else RtoC 0).
Definition gauged : list tensorC := [scaled0 (10 ^ 18); scaled0 (/ 10 ^ 9); scaled0 (/ 10 ^ 9)].
Definition zero3 : qstateC := fun b => if forallb (Nat.eqb 0) b then RtoC 1 else RtoC 0.

Lemma gauged_is_mps : is_mps (SC := C_scalar) 3 gauged zero3.
Proof.
  split.
  - split; [reflexivity|]. repeat (eexists; split; [shelve|]; split; [reflexivity|]; split; [apply tbuild_wf|]).
    reflexivity. Unshelve. all: lia.
  - intros b Hb. unfold mps_amp, gauged, scaled0. cbn in Hb.
    repeat (destruct Hb as [<-|Hb]); [..|destruct Hb]; cbn; apply C_eq; cbn; try ring; field.
Qed.
Lemma zero3_norm : norm2 3 zero3 = 1.
Proof. unfold norm2, zero3, Cnorm2. cbn. ring. Qed.

Lemma gauged_rejected : forall svd, true_svd (SC := C_scalar) svd ->
  exists g, build 3 (gi_cnot 1 2) = Ok g /\ TN_operation svd g gauged = Err TorchError.
Proof.
  intros svd HT. exists (obj 3 (gi_cnot 1 2)). split; [apply build_ok; giok|].
  unfold TN_operation. cbn [obj gi_cls g_cls g_N g_matrix g_wires gi_wires gi_loc length gi_pywires]. rewrite rev_cnot_ok.
  match goal with |- cnot_TN_operation _ (op_tensor 2 ?A) _ _ _ _ = _ => set (G := A) end.
  transitivity (two_site (SC := C_scalar) svd (op_tensor (SC := C_scalar) 2 G) gauged 1 2); [reflexivity|].
  unfold two_site. change (py_nth gauged 1) with (Ok (scaled0 (/ 10 ^ 9))). change (py_nth gauged 2) with (Ok (scaled0 (/ 10 ^ 9))). cbn [bind]. unfold scaled0.
  edestruct (merge2 (SC := C_scalar) _ (fun t => do rs <- TensorDecompAfterTwoQbitGate svd t;
    do MPS1 <- py_set gauged 1 (fst rs); py_set MPS1 2 (snd rs)) G 1 1 1
    (fun i => if (nth 0 i 0 =? 0)%nat then RtoC (/ 10 ^ 9) else RtoC 0) (fun i => if (nth 0 i 0 =? 0)%nat then RtoC (/ 10 ^ 9) else RtoC 0)) as (T & HTT & E).
  cbn beta in E. match type of E with ?X = _ => match goal with |- ?Y = Err _ => change Y with X end end.
  rewrite E. clear E. unfold TensorDecompAfterTwoQbitGate.
  rewrite !(tsel2_tbuild (SC := C_scalar)) by lia. cbn [bind cat mfold]. rewrite cat2_cols. cbn [bind]. rewrite cat2_cols. cbn [bind]. rewrite cat2_rows. cbn [bind].
  rewrite cut_small; [reflexivity|exact HT|lia|lia|].
  change (1 + 1)%nat with 2%nat. cbn [seq rsum nth Nat.ltb Nat.leb Nat.sub].
  rewrite !HTT by lia. unfold tol2, G. cbn. unfold Cnorm2. cbn. lra.
Qed.
Lemma gauge_refuted : exists l psi, is_mps (SC := C_scalar) 3 l psi /\ norm2 3 psi = 1 /\ forall svd, true_svd (SC := C_scalar) svd ->
  exists g, build 3 (gi_cnot 1 2) = Ok g /\ TN_operation svd g l = Err TorchError.
Proof. exists gauged, zero3. split; [exact gauged_is_mps|]. split; [exact zero3_norm|exact gauged_rejected]. Qed.

Lemma zero3_state : is_state (SC := C_scalar) 3 [1; 2 ^ 3]%nat (mkT [1; 8]%nat (map zero3 (bits 3))) zero3.
Proof. apply state_row. reflexivity. Qed.
Lemma cut3 : INR (cut_count 3 (3 - 1)) <= 10 ^ 14.
Proof. cbn. lra. Qed.
Definition five_gates : list gi := [gi_H 0; gi_cnot 0 2; gi_toffoli 2 0 1; gi_u3 1 2 3 1; gi_swap 2 1].
Lemma gates_true_case : let gs := five_gates in
  (exists svd : tensorC -> _, true_svd (SC := C_scalar) svd) /\ Forall (gi_ok 3) gs /\ forallb has_TN gs = true /\
  is_state (SC := C_scalar) 3 [1; 2 ^ 3]%nat (mkT [1; 8]%nat (map zero3 (bits 3))) zero3 /\ norm2 3 zero3 = 1 /\
  INR (cut_count 3 (3 - 1)) <= 10 ^ 14 /\ moves gs = 7%nat /\ INR (moves gs) <= 2 * 10 ^ 6.
Proof.
  cbv zeta. split; [exact true_svd_exists|]. split; [unfold five_gates; repeat apply Forall_cons; try apply Forall_nil; giok|].
  split; [reflexivity|]. split; [exact zero3_state|]. split; [exact zero3_norm|]. split; [exact cut3|].
  assert (E : moves five_gates = 7%nat) by reflexivity. split; [exact E|]. rewrite E. cbn. lra.
Qed.
Lemma circuit_true_case : (exists svd : tensorC -> _, true_svd (SC := C_scalar) svd) /\ Forall (ci_ok 3) demo /\ forallb (ci_TN 3) demo = true /\
  is_state (SC := C_scalar) 3 [1; 2 ^ 3]%nat (mkT [1; 8]%nat (map zero3 (bits 3))) zero3 /\ norm2 3 zero3 = 1 /\
  INR (cut_count 3 (3 - 1)) <= 10 ^ 14 /\ (0 < ci_moves demo)%nat /\ INR (ci_moves demo) <= 2 * 10 ^ 6.
Proof.
  split; [exact true_svd_exists|]. split; [exact demo_ok|]. split; [reflexivity|]. split; [exact zero3_state|]. split; [exact zero3_norm|]. split; [exact cut3|].
  assert (E : (0 < ci_moves demo <= 100)%nat) by (vm_compute; lia). split; [lia|]. 
  apply Rle_trans with (INR 100); [apply le_INR; lia|]. rewrite INR_IZR_INZ. cbn. lra.
Qed.
