(** Lemmas: state vectors as rows and columns. *)
From Coq Require Import List ZArith QArith Reals Lia Bool Arith Ring Setoid Morphisms.
From Verif Require Import PyBase Scalar BigSum Index Tensor TensorFacts Spec SpecFacts QMath QTN MPSSpec MPSFacts1 MPSFacts5 MPSFacts9.
Import ListNotations.
Local Close Scope Q_scope.
Local Open Scope nat_scope.

Section States.
  Context {SC : Scalar}.
  Add Ring KR : k_ring.
  Local Open Scope k_scope.

  Definition row (n : nat) (f : qstate) : tensor := tbuild [1%nat; (2 ^ n)%nat] (fun idx => f (bitsof n (nth 1 idx 0%nat))).
  Definition col (n : nat) (f : qstate) : tensor := tbuild [(2 ^ n)%nat; 1%nat] (fun idx => f (bitsof n (nth 0 idx 0%nat))).

  Lemma is_state_data : forall n s t psi, is_state n s t psi -> data t = map psi (bits n).
  Proof.
    intros n s t psi (S & L & E). apply nth_ext with (d := 0) (d' := psi []).
    - rewrite map_length, L. symmetry. rewrite bits_map, map_length, seq_length. reflexivity.
    - intros k Hk. rewrite L in Hk. rewrite (map_nth psi). replace (nth k (bits n) []) with (bitsof n k).
      + rewrite <- E by (now apply bitsof_in). unfold amp. now rewrite bval_bitsof.
      + rewrite bits_map. rewrite (nth_indep _ [] (bitsof n 0%nat)) by (now rewrite map_length, seq_length). rewrite map_nth, seq_nth by auto. reflexivity.
  Qed.
  Lemma row_data : forall n f, data (row n f) = map f (bits n).
  Proof. intros. apply (is_state_data n [1%nat; (2 ^ n)%nat]). now apply state_row. Qed.
  Lemma col_state : forall n f, is_state n [(2 ^ n)%nat; 1%nat] (col n f) f.
  Proof.
    intros n f. assert (L : length (data (col n f)) = (2 ^ n)%nat) by (cbn [col data tbuild]; rewrite map_length, all_idx_length; cbn [prodn]; lia).
    split; [reflexivity|]. split; [exact L|]. intros b Hb. unfold amp. assert (Lt : (bval b < 2 ^ n)%nat) by (now apply bval_lt).
    pose proof (tget_tbuild [(2 ^ n)%nat; 1%nat] (fun idx => f (bitsof n (nth 0 idx 0%nat))) [bval b; 0%nat]) as H.
    unfold tget in H. rewrite tbuild_shape in H. replace (flat [(2 ^ n)%nat; 1%nat] [bval b; 0%nat]) with (bval b) in H by (cbn [flat prodn]; lia).
    unfold col. rewrite H by vok. cbn [nth]. now rewrite bitsof_bval.
  Qed.
  Lemma col_data : forall n f, data (col n f) = map f (bits n).
  Proof. intros. eapply is_state_data, col_state. Qed.
  Lemma tensor_same : forall t u, shape t = shape u -> data t = data u -> t = u.
  Proof. intros [s d] [s' d']. cbn. congruence. Qed.
  Lemma state_col : forall n t psi, is_state n [(2 ^ n)%nat; 1%nat] t psi <-> t = col n psi.
  Proof.
    intros n t psi. split; [|intros ->; apply col_state]. intros H. apply tensor_same; [apply H|]. now rewrite col_data, (is_state_data n _ t psi H).
  Qed.
  Lemma row_ext : forall n f g, st_eq n f g -> row n f = row n g.
  Proof. intros n f g H. apply tbuild_ext. intros idx Hv. vinv Hv. apply H. now apply bitsof_in. Qed.
  Lemma col_ext : forall n f g, st_eq n f g -> col n f = col n g.
  Proof. intros n f g H. apply tbuild_ext. intros idx Hv. vinv Hv. apply H. now apply bitsof_in. Qed.
  Lemma is_state_size : forall n s t psi, is_state n s t psi -> wf t -> prodn (shape t) = (2 ^ n)%nat.
  Proof. intros n s t psi (_ & L & _) W. unfold wf in W. lia. Qed.
  Lemma pow2_pos : forall n, (0 < 2 ^ n)%nat.
  Proof. intros. apply Nat.neq_0_lt_0, Nat.pow_nonzero. lia. Qed.

  (** [t.view(1,-1)] and [t.view(-1,1)] *)
  Lemma view_row : forall n s t psi, is_state n s t psi -> wf t -> view t [1%Z; (-1)%Z] = Ok (row n psi).
  Proof.
    intros n s t psi H W. pose proof (is_state_size n s t psi H W) as P.
    change [1%Z; (-1)%Z] with (map Z.of_nat [1%nat] ++ (-1)%Z :: map Z.of_nat []). rewrite (view_m1 t [1%nat] [] (2 ^ n)) by (cbn; lia).
    f_equal. apply tensor_same; [reflexivity|]. cbn [data]. now rewrite row_data, (is_state_data n s t psi H).
  Qed.
  Lemma view_col : forall n s t psi, is_state n s t psi -> wf t -> view t [(-1)%Z; 1%Z] = Ok (col n psi).
  Proof.
    intros n s t psi H W. pose proof (is_state_size n s t psi H W) as P.
    change [(-1)%Z; 1%Z] with (map Z.of_nat [] ++ (-1)%Z :: map Z.of_nat [1%nat]). rewrite (view_m1 t [] [1%nat] (2 ^ n)) by (cbn; lia).
    f_equal. apply tensor_same; [reflexivity|]. cbn [data]. now rewrite col_data, (is_state_data n s t psi H).
  Qed.
  Lemma row_wf : forall n f, wf (row n f).
  Proof. intros. apply tbuild_wf. Qed.
  Lemma col_wf : forall n f, wf (col n f).
  Proof. intros. apply tbuild_wf. Qed.
  Lemma row_state : forall n f, is_state n [1%nat; (2 ^ n)%nat] (row n f) f.
  Proof. intros. now apply state_row. Qed.
  Lemma conj_row : forall n f, tconj (row n f) = row n (fun b => kconj (f b)).
  Proof. intros. apply tensor_same; [reflexivity|]. unfold tconj, tmap. cbn [data]. now rewrite !row_data, map_map. Qed.

  Lemma op_col : forall n A f, matmul (op_tensor n A) (col n f) = Ok (col n (act n A f)).
  Proof.
    intros n A f. unfold op_tensor, col. rewrite matmul_2d. f_equal. apply tbuild_ext. intros idx Hv. vinv Hv. cbn [nth]. unfold act.
    rewrite bits_map, bigsum_map. reflexivity.
  Qed.
  Lemma row_op : forall n A f, matmul (row n f) (op_tensor n A) = Ok (row n (fun c => bigsum (bits n) (fun r => f r * A r c))).
  Proof.
    intros n A f. unfold op_tensor, row. rewrite matmul_2d. f_equal. apply tbuild_ext. intros idx Hv. vinv Hv. cbn [nth].
    rewrite bits_map, bigsum_map. reflexivity.
  Qed.
  Lemma row_col : forall n f g, matmul (row n f) (col n g) = Ok (mkT [1%nat; 1%nat] [bigsum (bits n) (fun b => f b * g b)]).
  Proof.
    intros n f g. unfold row, col. rewrite matmul_2d. f_equal. unfold tbuild. cbn. f_equal. f_equal. rewrite bits_map, bigsum_map. reflexivity.
  Qed.
  (** <psi| M |psi> *)
  Lemma quad : forall n f M, matmul (tconj (row n f)) (op_tensor n M) = Ok (row n (fun c => bigsum (bits n) (fun r => kconj (f r) * M r c))) /\
    bigsum (bits n) (fun c => bigsum (bits n) (fun r => kconj (f r) * M r c) * f c) = inner n f (act n M f).
  Proof.
    intros n f M. split; [rewrite conj_row; apply row_op|]. unfold inner, act.
    transitivity (bigsum (bits n) (fun c => bigsum (bits n) (fun r => kconj (f r) * M r c * f c))).
    { apply bigsum_ext. intros. now rewrite <- bigsum_mul_r. }
    rewrite bigsum_swap. apply bigsum_ext. intros r Hr. rewrite <- bigsum_mul_l. apply bigsum_ext. intros. ring.
  Qed.
End States.
