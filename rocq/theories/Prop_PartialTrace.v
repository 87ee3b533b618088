(** Properties of partial_trace, partial_trace_old and ptrace (C21-C23, C50).  Specifications used in the statements: Spec.v, PTSpec.v.
    The first checks of the code accept a matrix whose trace is within 1e-4 of 1: [kabsgt (trace - 1) (1 # 10000) = false]. *)
From Coq Require Import List ZArith QArith Reals Lra Lia Bool Arith Permutation Sorted.
From Verif Require Import PyBase Scalar CInst BigSum Index Tensor Spec SpecFacts QMath PTSpec PTProofs PTCases.
Import ListNotations.
Local Close Scope Q_scope.
Local Close Scope R_scope.
Local Open Scope nat_scope.

(** C21: any distinct qubits, in any order *)
Theorem C21_partial_trace : forall (SC : Scalar) n t A ts, is_op n t A -> kabsgt (ksub (trace_op n A) k1) (1 # 10000) = false -> good_wires n ts ->
  exists r, partial_trace t n (map Z.of_nat ts) = Ok r /\ is_op (n - length ts) r (ptr n ts A).
Proof. exact @pt_traces. Qed.
Print Assumptions C21_partial_trace.
Example C21_case : forall SC : Scalar, is_op 3 (op_tensor 3 demo_rho) demo_rho /\ kabsgt (ksub (trace_op 3 demo_rho) k1) (1 # 10000) = false /\ good_wires 3 [2; 0].
Proof. intros SC. split; [apply is_op_tensor|]. split; [apply demo_rho_trace|]. split; [repeat constructor; cbn; lia|cbn; intros w Hw; lia]. Qed.
(** the example computed over the Gaussian integers *)
Example C21_run : partial_trace (SC := GZ_scalar) (op_tensor 3 demo_rho) 3 [2%Z; 0%Z] = Ok (mkT (SC := GZ_scalar) [2; 2] [(1, 0); (4, 0); (0, 0); (0, 0)]%Z).
Proof. vm_compute. reflexivity. Qed.
(** refused: the trace is off, or the size is not 2^N *)
Theorem C21_trace_refused : forall (SC : Scalar) n t A l, is_op n t A -> kabsgt (ksub (trace_op n A) k1) (1 # 10000) = true ->
  partial_trace t n l = Err ValueError /\ partial_trace_old t n l = Err ValueError.
Proof. exact @pt_trace_off. Qed.
Print Assumptions C21_trace_refused.
Example C21_trace_case : is_op (SC := C_scalar) 2 (op_tensor 2 id_op) id_op /\ kabsgt (ksub (trace_op (SC := C_scalar) 2 id_op) k1) (1 # 10000) = true.
Proof.
  split; [apply is_op_tensor|]. cbn [kabsgt ksub k1 C_scalar]. replace (Csub _ _) with (RtoC 3) by (ceq; cbn; ring).
  unfold Cabsgt. destruct (Rlt_dec _ _) as [|N]; [reflexivity|]. exfalso. apply N. unfold Cabs, Cnorm2, RtoC. cbn [fst snd].
  replace (3 * 3 + 0 * 0)%R with (3 * 3)%R by ring. rewrite sqrt_square by lra. unfold Q2R. cbn. lra.
Qed.
Theorem C21_size_refused : forall (SC : Scalar) n m t A l, is_op m t A -> kabsgt (ksub (trace_op m A) k1) (1 # 10000) = false -> m <> n ->
  partial_trace t n l = Err ValueError /\ partial_trace_old t n l = Err ValueError.
Proof. exact @pt_dim. Qed.
Print Assumptions C21_size_refused.
Example C21_size_case : forall SC : Scalar, kabsgt (ksub (trace_op 3 demo_rho) k1) (1 # 10000) = false /\ 3 <> 2.
Proof. intros SC. split; [apply demo_rho_trace|discriminate]. Qed.

(** C22: the two routines agree on every list, malformed ones included *)
Theorem C22_old_agrees : forall (SC : Scalar) n t A l, is_op n t A -> partial_trace_old t n l = partial_trace t n l.
Proof. exact @pt_same. Qed.
Print Assumptions C22_old_agrees.
Example C22_run : partial_trace_old (SC := GZ_scalar) (op_tensor 3 demo_rho) 3 [2%Z; 0%Z] = Ok (mkT (SC := GZ_scalar) [2; 2] [(1, 0); (4, 0); (0, 0); (0, 0)]%Z).
Proof. vm_compute. reflexivity. Qed.
Theorem C22_ptrace : forall (SC : Scalar) a b t A, is_op (a + b) t A -> exists r, ptrace t a b = Ok r /\ is_op a r (ptr (a + b) (seq a b) A).
Proof. exact @ptrace_is. Qed.
Print Assumptions C22_ptrace.
Theorem C22_ptrace_agrees : forall (SC : Scalar) a b t A, is_op (a + b) t A -> kabsgt (ksub (trace_op (a + b) A) k1) (1 # 10000) = false ->
  ptrace t a b = partial_trace t (a + b) (map Z.of_nat (seq a b)).
Proof. exact @ptrace_same. Qed.
Print Assumptions C22_ptrace_agrees.
Example C22_case : forall SC : Scalar, is_op (1 + 2) (op_tensor 3 demo_rho) demo_rho.
Proof. intros SC. apply is_op_tensor. Qed.

(** C23: whenever a matrix is returned *)
Theorem C23_trace_hermitian : forall (SC : Scalar) n t A l r, is_op n t A -> partial_trace t n l = Ok r ->
  exists B, is_op (n - length l) r B /\ trace_op (n - length l) B = trace_op n A /\ (op_eq n A (adj_op A) -> op_eq (n - length l) B (adj_op B)).
Proof. exact @pt_preserves. Qed.
Print Assumptions C23_trace_hermitian.
Example C23_trace_case : forall SC : Scalar, exists r, partial_trace (op_tensor 3 demo_rho) 3 [1%Z] = Ok r.
Proof.
  intros SC. destruct (pt_traces 3 (op_tensor 3 demo_rho) demo_rho [1]) as (r & E & _); [apply is_op_tensor|apply demo_rho_trace| |exists r; exact E].
  split; [repeat constructor; cbn; lia|cbn; intros w Hw; lia].
Qed.
Theorem C23_positive : forall n t (A : @qop C_scalar) l r, is_op n t A -> partial_trace t n l = Ok r ->
  (forall v, (0 <= Re (qform n A v))%R /\ Im (qform n A v) = 0%R) ->
  exists B : @qop C_scalar, is_op (n - length l) r B /\ forall v, (0 <= Re (qform (n - length l) B v))%R /\ Im (qform (n - length l) B v) = 0%R.
Proof. exact pt_positive. Qed.
Print Assumptions C23_positive.
Example C23_case : forall n (psi v : @qstate C_scalar), (0 <= Re (qform n (fun r c => Cmul (psi r) (Cconj (psi c))) v))%R /\ Im (qform n (fun r c => Cmul (psi r) (Cconj (psi c))) v) = 0%R.
Proof. exact outer_positive. Qed.
(** tracing out ts, then us (numbered in the register that is left), is tracing out both *)
Theorem C23_two_steps : forall (SC : Scalar) n t A ts us, is_op n t A -> kabsgt (ksub (trace_op n A) k1) (1 # 10000) = false -> good_wires n ts -> good_wires (n - length ts) us ->
  exists r s, partial_trace t n (map Z.of_nat ts) = Ok r /\ partial_trace r (n - length ts) (map Z.of_nat us) = Ok s /\
    partial_trace t n (map Z.of_nat (ts ++ orig n ts us)) = Ok s.
Proof. exact @pt_twice. Qed.
Print Assumptions C23_two_steps.
Example C23_steps_case : good_wires 5 [1; 3] /\ good_wires (5 - 2) [2; 0] /\ [1; 3] ++ orig 5 [1; 3] [2; 0] = [1; 3; 4; 0].
Proof. split; [|split; [|reflexivity]]; (split; [repeat constructor; cbn; lia|cbn; intros w Hw; lia]). Qed.

(** C50: too large numbers *)
Theorem C50_out_of_range : forall (SC : Scalar) n t A l, is_op n t A -> Exists (fun x => (Z.of_nat n <= x)%Z) l -> partial_trace t n l = Err ValueError.
Proof. exact @pt_range. Qed.
Print Assumptions C50_out_of_range.
Theorem C50_negative : forall (SC : Scalar) n t A l, is_op n t A -> kabsgt (ksub (trace_op n A) k1) (1 # 10000) = false -> Forall (fun x => (x < Z.of_nat n)%Z) l ->
  Exists (fun x => (x < 0)%Z) l -> partial_trace t n l = Err TypeError.
Proof. exact @pt_negative. Qed.
Print Assumptions C50_negative.
Theorem C50_too_many : forall (SC : Scalar) n t A l, is_op n t A -> n < length l -> partial_trace t n l =
  Err (if kabsgt (ksub (trace_op n A) k1) (1 # 10000) then ValueError else if existsb (fun x => (Z.of_nat n <=? x)%Z) l then ValueError else TypeError).
Proof. exact @pt_too_many. Qed.
Print Assumptions C50_too_many.
Example C50_refused_case : Exists (fun x => (Z.of_nat 3 <= x)%Z) [0; 3]%Z /\ Forall (fun x => (x < Z.of_nat 3)%Z) [1; -1]%Z /\ Exists (fun x => (x < 0)%Z) [1; -1]%Z /\
  3 < length [0; 1; 2; 2]%Z /\ partial_trace (SC := GZ_scalar) (op_tensor 3 demo_rho) 3 [0; 1; 2; 2]%Z = Err TypeError.
Proof.
  split; [right; left; lia|]. split; [repeat constructor; lia|]. split; [right; left; lia|]. split; [cbn; lia|]. vm_compute. reflexivity.
Qed.
(** everything else: with s the list sorted, the call raises when some s_k < k and otherwise returns the partial trace over [removed n 0 s] *)
Theorem C50_any_list : forall (SC : Scalar) n t A l s, is_op n t A -> kabsgt (ksub (trace_op n A) k1) (1 # 10000) = false -> Forall (fun x => (x < Z.of_nat n)%Z) l ->
  Permutation s l -> StronglySorted Z.le s ->
  ((exists k, k < length s /\ (nth k s 0 < Z.of_nat k)%Z) -> partial_trace t n l = Err TypeError) /\
  ((forall k, k < length s -> (Z.of_nat k <= nth k s 0)%Z) -> exists r, partial_trace t n l = Ok r /\ is_op (n - length l) r (ptr n (removed n 0 (map Z.to_nat s)) A)).
Proof. exact @pt_list. Qed.
Print Assumptions C50_any_list.
Example C50_case : Permutation [1; 2; 2]%Z [2; 1; 2]%Z /\ StronglySorted Z.le [1; 2; 2]%Z /\ removed 3 0 [1; 2; 2] = [1; 2; 0].
Proof. split; [apply perm_swap|]. split; [repeat constructor; lia|reflexivity]. Qed.
(** repeated qubits are not rejected: [q, q] traces out q and q - 1 *)
Theorem C50_repeated_refuted : forall (SC : Scalar) n t A q, is_op n t A -> kabsgt (ksub (trace_op n A) k1) (1 # 10000) = false -> 1 <= q < n ->
  exists r, partial_trace t n [Z.of_nat q; Z.of_nat q] = Ok r /\ is_op (n - 2) r (ptr n [q; q - 1] A).
Proof. exact @pt_repeated. Qed.
Print Assumptions C50_repeated_refuted.
Theorem C50_repeated_zero : forall (SC : Scalar) n t A, is_op n t A -> kabsgt (ksub (trace_op n A) k1) (1 # 10000) = false -> 1 <= n -> partial_trace t n [0%Z; 0%Z] = Err TypeError.
Proof. exact @pt_repeated_zero. Qed.
Print Assumptions C50_repeated_zero.
(** the caller's list comes back sorted *)
Theorem C50_argument_sorted_refuted : forall (SC : Scalar) n t A l, is_op n t A -> kabsgt (ksub (trace_op n A) k1) (1 # 10000) = false -> Forall (fun x => (x < Z.of_nat n)%Z) l ->
  Permutation (partial_trace_list_after t n l) l /\ StronglySorted Z.le (partial_trace_list_after t n l).
Proof. exact @pt_argument. Qed.
Print Assumptions C50_argument_sorted_refuted.
Example C50_argument_case : partial_trace_list_after (SC := GZ_scalar) (op_tensor 3 demo_rho) 3 [2%Z; 0%Z] = [0%Z; 2%Z].
Proof. vm_compute. reflexivity. Qed.
