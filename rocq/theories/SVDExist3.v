(** Lemmas: orthonormal lists of complex vectors (Bessel, extension by a new vector). *)
From Coq Require Import List ZArith Reals Lra Lia ZifyBool Arith Ring Classical.
From Verif Require Import Scalar CInst BigSum MeasSpec MeasFacts SVDExist1 SVDExist2.
Import ListNotations.

Section On.
  Context {SC : Scalar}.
  Add Ring KR : k_ring.
  Local Open Scope k_scope.
  Fixpoint on (n : nat) (vs : list (nat -> K)) : Prop :=
    match vs with
    | [] => True
    | v :: r => ip n v v = 1 /\ (forall w, In w r -> ip n v w = 0) /\ on n r
    end.
  Lemma ip_0_sym : forall n v w, ip n v w = 0 -> ip n w v = 0.
  Proof. intros n v w H. rewrite <- ip_conj, H. apply kconj_0. Qed.
  Lemma on_end : forall n vs v, on n vs -> ip n v v = 1 -> (forall w, In w vs -> ip n v w = 0) -> on n (vs ++ [v]).
  Proof.
    intros n vs v. induction vs as [|a r IH]; intros H Hv Hp; cbn [app on] in *.
    - split; [exact Hv|]. split; [intros w []|exact I].
    - destruct H as (H1 & H2 & H3). split; [exact H1|]. split.
      + intros w Hw. apply in_app_or in Hw. destruct Hw as [Hw|[<-|[]]]; [now apply H2|]. apply ip_0_sym. apply Hp. now left.
      + apply IH; auto. intros w Hw. apply Hp. now right.
  Qed.
  Lemma on_nth : forall n vs d p q, on n vs -> (p < length vs)%nat -> (q < length vs)%nat ->
    ip n (nth p vs d) (nth q vs d) = if (p =? q)%nat then 1 else 0.
  Proof.
    intros n vs d. induction vs as [|v r IH]; intros p q H Hp Hq; [cbn in Hp; lia|]. destruct H as (H1 & H2 & H3).
    destruct p as [|p], q as [|q]; cbn [nth Nat.eqb length] in *.
    - exact H1.
    - apply H2. apply nth_In. lia.
    - apply ip_0_sym, H2, nth_In. lia.
    - apply IH; auto; lia.
  Qed.
  (** x without its components along vs *)
  Definition res (n : nat) (vs : list (nat -> K)) (x : nat -> K) : nat -> K := fun i => x i - bigsum vs (fun v => ip n v x * v i).
  Lemma ip_res : forall n vs x v, ip n v (res n vs x) = ip n v x - bigsum vs (fun w => ip n w x * ip n v w).
  Proof.
    intros. unfold res. rewrite ip_sub_r. f_equal. rewrite (ip_sum_r n v _ vs (fun w i => ip n w x * w i)).
    apply bigsum_ext. intros. apply ip_scale_r.
  Qed.
  Lemma ip_res_perp : forall n vs x v, (forall w, In w vs -> ip n v w = 0) -> ip n v (res n vs x) = ip n v x.
  Proof.
    intros n vs x v H. rewrite ip_res. rewrite bigsum_zero; [ring|]. intros w Hw. rewrite (H w Hw). ring.
  Qed.
  Lemma res_perp : forall n vs x v, on n vs -> In v vs -> ip n v (res n vs x) = 0.
  Proof.
    intros n vs x v. induction vs as [|a r IH]; intros H Hv; [destruct Hv|]. destruct H as (H1 & H2 & H3).
    rewrite ip_res, bigsum_cons. destruct Hv as [->|Hv].
    - rewrite H1, bigsum_zero; [ring|]. intros w Hw. rewrite (H2 w Hw). ring.
    - rewrite (ip_0_sym _ _ _ (H2 v Hv)). specialize (IH H3 Hv). rewrite ip_res in IH.
      transitivity (ip n v x - bigsum r (fun w => ip n w x * ip n v w)); [ring|exact IH].
  Qed.
  Lemma ip_res_res : forall n vs x, on n vs -> ip n (res n vs x) (res n vs x) = ip n x x - bigsum vs (fun v => kconj (ip n v x) * ip n v x).
  Proof.
    intros n vs x H. unfold res at 1. rewrite ip_sub_l. rewrite <- (ip_conj n (res n vs x) (fun i => bigsum vs (fun v => ip n v x * v i))).
    rewrite (ip_sum_r n _ _ vs (fun v i => ip n v x * v i)). rewrite (bigsum_zero _ vs).
    - rewrite kconj_0, ip_res. transitivity (ip n x x - bigsum vs (fun w => ip n w x * ip n x w)); [ring|]. f_equal.
      apply bigsum_ext. intros v _. rewrite ip_conj. ring.
    - intros v Hv. rewrite ip_scale_r. rewrite (ip_0_sym n v _ (res_perp n vs x v H Hv)). ring.
  Qed.
End On.

Local Open Scope R_scope.
Notation onC := (on (SC := C_scalar)).
Notation eC := (ei (SC := C_scalar)).

Lemma nrm_e : forall n j, (j < n)%nat -> nrm n (eC j) = 1.
Proof.
  intros n j H. assert (E : RtoC (nrm n (eC j)) = RtoC 1); [|now injection E]. rewrite <- nrm_ip.
  etransitivity; [exact (ip_e_r (SC := C_scalar) n (eC j) j H)|]. unfold ei. rewrite Nat.eqb_refl. cbn. apply C_eq; cbn; ring.
Qed.
Lemma nrm_res : forall n vs x, onC n vs -> nrm n (res (SC := C_scalar) n vs x) = nrm n x - rsum vs (fun v => Cnorm2 (ipC n v x)).
Proof.
  intros n vs x H. pose proof (ip_res_res (SC := C_scalar) n vs x H) as E. rewrite !nrm_ip in E. apply (f_equal Re) in E. cbn in E.
  unfold Re in E. rewrite E. f_equal. f_equal. etransitivity; [apply (Re_bigsum_rsum _ vs)|]. apply rsum_ext. intros v _. cbn. unfold Cnorm2, Re, Im. ring.
Qed.
Lemma ip_e_norm : forall n v j, (j < n)%nat -> Cnorm2 (ipC n v (eC j)) = Cnorm2 (v j).
Proof.
  intros n v j H. replace (ipC n v (eC j)) with (Cconj (v j)) by (symmetry; exact (ip_e_r (SC := C_scalar) n v j H)).
  unfold Cnorm2. cbn. ring.
Qed.
Lemma rsum_swap : forall A B (l : list A) (l' : list B) (f : A -> B -> R), rsum l (fun a => rsum l' (f a)) = rsum l' (fun b => rsum l (fun a => f a b)).
Proof.
  intros A B l l' f. induction l as [|a l IH]; cbn [rsum]; [now rewrite rsum_0|]. rewrite IH, <- rsum_add. reflexivity.
Qed.
Lemma rsum_1 : forall A (l : list A), rsum l (fun _ => 1) = INR (length l).
Proof. induction l as [|a l IH]; [reflexivity|]. cbn [rsum]. rewrite IH. cbn [length]. rewrite S_INR. lra. Qed.
Lemma on_total : forall n vs, onC n vs -> rsum (seq 0 n) (fun j => rsum vs (fun v => Cnorm2 (v j))) = INR (length vs).
Proof.
  intros n vs H. rewrite rsum_swap, <- rsum_1. induction vs as [|v r IH]; [reflexivity|]. destruct H as (H1 & _ & H3). cbn [rsum]. rewrite (IH H3). f_equal.
  change (nrm n v = 1). rewrite nrm_ip in H1. now injection H1.
Qed.
Lemma bessel : forall n vs j, onC n vs -> (j < n)%nat -> nrm n (res (SC := C_scalar) n vs (eC j)) = 1 - rsum vs (fun v => Cnorm2 (v j)).
Proof.
  intros n vs j H Hj. rewrite nrm_res, nrm_e by auto. f_equal. apply rsum_ext. intros v _. now apply ip_e_norm.
Qed.
Lemma on_length : forall n vs, onC n vs -> (length vs <= n)%nat.
Proof.
  intros n vs H. apply INR_le. rewrite <- (on_total n vs H). rewrite <- (seq_length n 0) at 2. rewrite <- rsum_1. apply rsum_le.
  intros j Hj. apply in_seq in Hj. pose proof (bessel n vs j H ltac:(lia)). pose proof (nrm_pos n (res (SC := C_scalar) n vs (eC j))). lra.
Qed.
Lemma normalise : forall n x, 0 < nrm n x -> exists c, 0 < c /\ c * c * nrm n x = 1.
Proof.
  intros n x H. exists (/ sqrt (nrm n x)). assert (P : 0 < sqrt (nrm n x)) by now apply sqrt_lt_R0. split; [now apply Rinv_0_lt_compat|].
  rewrite <- (sqrt_sqrt (nrm n x)) at 3 by lra. field. lra.
Qed.
Lemma ip_scale_self : forall n c x, ipC n (fun i => Cmul (RtoC c) (x i)) (fun i => Cmul (RtoC c) (x i)) = RtoC (c * c * nrm n x).
Proof.
  intros n c x. rewrite nrm_ip. f_equal. unfold nrm. rewrite <- rsum_mul. apply rsum_ext. intros i _. unfold Cnorm2. cbn. ring.
Qed.
Lemma on_extend : forall n vs, onC n vs -> (length vs < n)%nat -> exists v, ipC n v v = RtoC 1 /\ forall w, In w vs -> ipC n v w = RtoC 0.
Proof.
  intros n vs H L.
  assert (X : exists j, (j < n)%nat /\ 0 < nrm n (res (SC := C_scalar) n vs (eC j))).
  { apply NNPP. intros N. assert (Z : forall j, (j < n)%nat -> rsum vs (fun v => Cnorm2 (v j)) = 1).
    { intros j Hj. pose proof (bessel n vs j H Hj). destruct (nrm_pos n (res (SC := C_scalar) n vs (eC j))) as [P|P]; [|lra].
      exfalso. apply N. now exists j. }
    assert (E : INR (length vs) = INR n).
    { rewrite <- (on_total n vs H). rewrite <- (seq_length n 0) at 2. rewrite <- rsum_1. apply rsum_ext. intros j Hj. apply in_seq in Hj. apply Z. lia. }
    apply INR_eq in E. lia. }
  destruct X as (j & Hj & P). destruct (normalise _ _ P) as (c & Hc & E).
  exists (fun i => Cmul (RtoC c) (res (SC := C_scalar) n vs (eC j) i)). split; [rewrite ip_scale_self; now rewrite E|].
  intros w Hw. apply (ip_0_sym (SC := C_scalar)). etransitivity; [apply (ip_scale_r (SC := C_scalar))|].
  rewrite (res_perp (SC := C_scalar) n vs (eC j) w H Hw). cbn. apply C_eq; cbn; ring.
Qed.
