(** Lemmas: a function that decomposes every matrix exists. *)
From Coq Require Import List ZArith QArith Reals Lra Lia ZifyBool Arith Ring IndefiniteDescription.
From Verif Require Import PyBase Scalar CInst BigSum Index Tensor TensorFacts MeasSpec MeasFacts TruncSpec SVDExist1 SVDExist2 SVDExist3 SVDExist4.
Import ListNotations.
Local Close Scope Q_scope.
Local Open Scope nat_scope.

Lemma bigsum_nth : forall (SC : Scalar) A (L : list A) d f, bigsum L f = bigsum (seq 0 (length L)) (fun l => f (nth l L d)).
Proof.
  intros SC A L d f. induction L as [|a L IH]; [reflexivity|]. cbn [length seq]. rewrite !bigsum_cons. cbn [nth]. f_equal.
  rewrite IH, <- seq_shift, bigsum_map. reflexivity.
Qed.

Definition mat_of (m k : nat) (f : nat -> nat -> C) : @tensor C_scalar := tbuild (SC := C_scalar) [m; k] (fun idx => match idx with [i; l] => f i l | _ => RtoC 0 end).
Definition vec_t (k : nat) (f : nat -> C) : @tensor C_scalar := tbuild (SC := C_scalar) [k] (fun idx => match idx with [l] => f l | _ => RtoC 0 end).
Lemma mat_of_get : forall m k f i l, i < m -> l < k -> tget (mat_of m k f) [i; l] = f i l.
Proof. intros. unfold mat_of. rewrite tget_tbuild; [reflexivity|]. repeat constructor; auto. Qed.
Lemma vec_t_get : forall k f l, l < k -> tget (vec_t k f) [l] = f l.
Proof. intros. unfold vec_t. rewrite tget_tbuild; [reflexivity|]. repeat constructor; auto. Qed.

Lemma true_exists : forall A : @tensor C_scalar, exists USV, true_at (fun _ => USV) A.
Proof.
  intros A. destruct (shape A) as [|m [|n [|x r]]] eqn:ES.
  1, 2, 4: exists (A, A, A); intros m' n' E; rewrite ES in E; discriminate E.
  destruct (inv_fill m n (fun i j => tget A [i; j])) as (L & A' & H & Z & HL).
  set (k := Nat.min m n) in *.
  exists (mat_of m k (fun i l => tu (nth l L d0) i), vec_t k (fun l => RtoC (ts (nth l L d0))), mat_of n k (fun j l => tv (nth l L d0) j)).
  intros m' n' E _ _ _. rewrite ES in E. injection E as <- <-. cbv zeta. fold k.
  split; [reflexivity|]. split; [apply tbuild_wf|]. split; [reflexivity|]. split; [apply tbuild_wf|]. split; [reflexivity|]. split; [apply tbuild_wf|].
  split; [|split; [|split]].
  - intros i j Hi Hj. etransitivity; [exact (i_eq _ _ _ _ _ H i j Hi Hj)|]. rewrite Z by auto. unfold lowrank. rewrite (bigsum_nth C_scalar _ L d0), HL.
    transitivity (bigsum (SC := C_scalar) (seq 0 k) (fun l => Cmul (Cmul (RtoC (ts (nth l L d0))) (tu (nth l L d0) i)) (Cconj (tv (nth l L d0) j)))).
    { set (z := bigsum _ _). clearbody z. cbn in z. apply C_eq; cbn; ring. }
    apply (bigsum_ext (SC := C_scalar)). intros l Hl. apply in_seq in Hl. rewrite !mat_of_get, vec_t_get by lia. cbn. apply C_eq; cbn; ring.
  - intros l l' Hl Hl'. etransitivity; [|apply (on_nth (SC := C_scalar) m (map tu L) (tu d0) l l' (i_u _ _ _ _ _ H)); rewrite map_length; lia].
    unfold ip. apply (bigsum_ext (SC := C_scalar)). intros i Hi. apply in_seq in Hi. rewrite !mat_of_get by lia. now rewrite !map_nth.
  - intros l l' Hl Hl'. etransitivity; [|apply (on_nth (SC := C_scalar) n (map tv L) (tv d0) l l' (i_v _ _ _ _ _ H)); rewrite map_length; lia].
    unfold ip. apply (bigsum_ext (SC := C_scalar)). intros i Hi. apply in_seq in Hi. rewrite !mat_of_get by lia. now rewrite !map_nth.
  - destruct (i_big _ _ _ _ _ H) as (D & HD & HB). rewrite HL in HD, HB. exists D. split; [exact HD|]. intros l Hl. rewrite vec_t_get by exact Hl. apply HB. exact Hl.
Qed.

Lemma true_svd_exists : exists svd : @tensor C_scalar -> @tensor C_scalar * @tensor C_scalar * @tensor C_scalar, true_svd svd.
Proof.
  destruct (functional_choice (fun A USV => true_at (fun _ => USV) A) true_exists) as (svd & H). exists svd. intros A. exact (H A).
Qed.
