(** Properties of the conversions between density matrices and matrix product density operators (C38).  Specifications used in
    the statements: Spec.v, MPSSpec.v, MPDOSpec.v, PTSpec.v (trace_op).  [svd] stands for torch.svd: what is assumed of it is
    written in each statement. *)
From Coq Require Import List ZArith QArith Reals Lra Lia Bool Arith.
From Verif Require Import PyBase Scalar CInst BigSum Index Tensor Spec SpecFacts QMath QTN QMathC
  MPSSpec MPSFacts7 MPSFacts9 MPSCases MPDOSpec MPDOFacts2 PTSpec.
Import ListNotations.
Local Close Scope Q_scope.
Local Close Scope R_scope.
Local Open Scope nat_scope.

(** C38: a matrix whose trace has real part 1 comes back unchanged *)
Theorem C38_round_trip : forall svd N t A, exact_svd svd -> real_col svd -> 0 < N -> is_op N t A -> Re (trace_op N A) = 1%R ->
  exists l, Rho2MPS svd t N = Ok l /\ length l = N /\ MPS2Rho l = Ok t.
Proof. exact rho_round_trip. Qed.
Print Assumptions C38_round_trip.
Example C38_round_trip_case : exact_svd triv_svd /\ real_col triv_svd /\ is_op 2 (op_tensor 2 mixed) mixed /\ Re (trace_op 2 mixed) = 1%R.
Proof. split; [exact some_exact_svd|]. split; [exact triv_real_col|]. split; [apply is_op_tensor|]. now rewrite mixed_trace. Qed.

(** C38: any other matrix comes back divided by the real part of its trace *)
Theorem C38_normalises : forall svd N t A, exact_svd svd -> real_col svd -> 0 < N -> is_op N t A -> Re (trace_op N A) <> 0%R ->
  exists l t', Rho2MPS svd t N = Ok l /\ length l = N /\ MPS2Rho l = Ok t' /\
    is_op N t' (fun r c => Cmul (RtoC (/ Re (trace_op N A))) (A r c)).
Proof. exact rho_normalises. Qed.
Print Assumptions C38_normalises.
Example C38_normalises_case : Re (trace_op 2 mixed) <> 0%R.
Proof. rewrite mixed_trace. cbn. lra. Qed.

(** C38: ... and when that is 0 the result is not finite *)
Theorem C38_traceless : forall svd N t A, exact_svd svd -> real_col svd -> 0 < N -> is_op N t A -> ~ op_eq N A (fun _ _ => k0) ->
  Re (trace_op N A) = 0%R -> exists l, Rho2MPS svd t N = Ok l /\ MPS2Rho l = Err NotFinite.
Proof. exact rho_traceless. Qed.
Print Assumptions C38_traceless.
Example C38_traceless_case : Re (trace_op 2 traceless) = 0%R /\ ~ op_eq 2 traceless (fun _ _ => k0).
Proof. exact traceless_case. Qed.

(** C38: the product of the site tensors is the matrix up to one number *)
Theorem C38_sites : forall (SC : Scalar) svd N t A, exact_svd svd -> 0 < N -> is_op N t A -> ~ op_eq N A (fun _ _ => k0) ->
  exists l z B, Rho2MPS svd t N = Ok l /\ is_mpo N l B /\ op_eq N A (fun r c => kmul z (B r c)).
Proof. exact rho_sites. Qed.
Print Assumptions C38_sites.
Example C38_sites_case : ~ op_eq 2 mixed (fun _ _ => k0).
Proof. exact mixed_nonzero. Qed.

(** C38: back from any matrix product density operator, of any bonds *)
Theorem C38_mpdo_to_rho : forall n l A, 0 < n -> is_mpo n l A -> Re (trace_op n A) <> 0%R ->
  exists t, MPS2Rho l = Ok t /\ is_op n t (fun r c => Cmul (RtoC (/ Re (trace_op n A))) (A r c)).
Proof. exact mpdo_to_rho. Qed.
Print Assumptions C38_mpdo_to_rho.
Example C38_mpdo_to_rho_case : is_mpo 2 [mixed_first; mixed_last] mixed /\ Re (trace_op 2 mixed) <> 0%R.
Proof. split; [exact mixed_is_mpo|]. rewrite mixed_trace. cbn. lra. Qed.

(** C38: with an exact decomposition whose right factor of a column is imaginary, no density matrix comes back *)
Theorem C38_imaginary_factor_refuted : exists svd, exact_svd svd /\ forall N t A, 0 < N -> is_op N t A -> ~ op_eq N A (fun _ _ => k0) ->
  Im (trace_op N A) = 0%R -> exists l, Rho2MPS svd t N = Ok l /\ MPS2Rho l = Err NotFinite.
Proof. exists phase_svd. split; [exact phase_svd_exact|exact phase_wrong]. Qed.
Print Assumptions C38_imaginary_factor_refuted.
Example C38_imaginary_factor_case : ~ op_eq 2 mixed (fun _ _ => k0) /\ Im (trace_op 2 mixed) = 0%R.
Proof. split; [exact mixed_nonzero|now rewrite mixed_trace]. Qed.

(** C38: wrong shapes, and the empty list *)
Theorem C38_wrong_shapes_rejected : forall (SC : Scalar) svd t N, shape t <> [2 ^ N; 2 ^ N] -> Rho2MPS svd t N = Err ValueError.
Proof. exact rho_wrong_shape. Qed.
Print Assumptions C38_wrong_shapes_rejected.
Example C38_wrong_shapes_case : shape (zeros [4; 8]) <> [2 ^ 2; 2 ^ 2].
Proof. discriminate. Qed.
Theorem C38_empty_list : MPS2Rho [] = Err UnboundLocalError.
Proof. exact mpdo_empty. Qed.
Print Assumptions C38_empty_list.
