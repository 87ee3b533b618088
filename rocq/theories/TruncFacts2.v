(** Lemmas: the truncation error of StateVec2MPS over the complex numbers. *)
From Coq Require Import List ZArith QArith Reals Lra Lia ZifyBool Bool Arith Qreals Permutation.
From Verif Require Import PyBase Scalar CInst BigSum Index Tensor TensorFacts Spec SpecFacts QMath QTN
  MPSSpec MPSFacts1 MPSFacts2 MPSFacts6 MPSFacts7 MPSFacts9 MeasSpec MeasFacts QuanvFacts TruncSpec TruncFacts1.
Import ListNotations.
Local Close Scope Q_scope.
Local Close Scope R_scope.
Local Open Scope nat_scope.

(** ** the number of singular values *)
Lemma cut_count_left : forall N i, cut_count N i + 2 <= 2 ^ S i.
Proof. intros N i. induction i as [|i IH]; [cbn; lia|]. cbn [cut_count]. cbn [Nat.pow] in *. lia. Qed.
Lemma cut_count_right : forall N h j, h + j <= N -> cut_count N (h + j) + 2 ^ (N - (h + j)) <= cut_count N h + 2 ^ (N - h).
Proof.
  intros N h j. induction j as [|j IH]; intros H; [rewrite Nat.add_0_r; lia|].
  replace (h + S j) with (S (h + j)) in * by lia. cbn [cut_count]. specialize (IH ltac:(lia)).
  replace (N - (h + j)) with (S (N - S (h + j))) in IH by lia. cbn [Nat.pow] in IH. lia.
Qed.
Lemma cut_count_bound : forall N, cut_count N (N - 1) <= 4 * 2 ^ (N / 2).
Proof.
  intros N. destruct N as [|[|N']]; [cbn; lia|cbn; lia|]. set (N := S (S N')).
  set (h := N / 2). assert (Hh : N = 2 * h + N mod 2) by (apply Nat.div_mod; lia).
  assert (N mod 2 < 2) by (apply Nat.mod_upper_bound; lia).
  pose proof (cut_count_left N h) as L. pose proof (cut_count_right N h (N - 1 - h) ltac:(lia)) as R.
  replace (h + (N - 1 - h)) with (N - 1) in R by lia.
  assert (P : 2 ^ (N - h) <= 2 ^ S h) by (apply Nat.pow_le_mono_r; lia). cbn [Nat.pow] in *. lia.
Qed.

(** ** over C *)
Lemma weight_norm : forall dr : list C, weight (SC := C_scalar) dr = RtoC (rsum dr Cnorm2).
Proof.
  intros dr. unfold weight. apply C_eq; cbn [fst snd RtoC].
  - etransitivity; [apply (Re_bigsum_rsum _ dr)|]. apply rsum_ext. intros s _. cbn. unfold Cnorm2, Re, Im. ring.
  - etransitivity; [apply (Im_bigsum_rsum _ dr)|]. erewrite rsum_ext; [apply rsum_0|]. intros s _. cbn. unfold Re, Im. ring.
Qed.
Definition tol2 : R := (/ 10 ^ 16)%R.
Lemma tol_sq : (Q2R (1 # 100000000) * Q2R (1 # 100000000) = tol2)%R.
Proof. unfold tol2, Q2R. cbn [Qnum Qden]. simpl IZR. field. Qed.
Lemma small_norm : forall s : C, small (SC := C_scalar) s -> (Cnorm2 s <= tol2)%R.
Proof.
  intros s H. unfold small in H. cbn in H. unfold Cabsgt in H. destruct Rlt_dec as [|L]; [discriminate|].
  apply Rnot_lt_le in L. rewrite <- tol_sq. rewrite <- (sqrt_sqrt (Cnorm2 s)) by (apply Cnorm2_nonneg).
  fold (Cabs s). assert (0 <= Cabs s)%R by (apply sqrt_pos). apply Rmult_le_compat; auto.
Qed.
Lemma small_sum : forall dr : list C, Forall (small (SC := C_scalar)) dr -> (rsum dr Cnorm2 <= INR (length dr) * tol2)%R.
Proof.
  induction 1 as [|s dr Hs _ IH]; cbn [rsum length]; [rewrite Rmult_0_l; lra|]. rewrite S_INR. pose proof (small_norm s Hs). lra.
Qed.
Lemma tol2_pos : (0 < tol2)%R.
Proof. unfold tol2. apply Rinv_0_lt_compat, pow_lt. lra. Qed.
Lemma small_sum_count : forall (dr : list C) k, Forall (small (SC := C_scalar)) dr -> length dr <= k -> (rsum dr Cnorm2 <= INR k * tol2)%R.
Proof.
  intros dr k H L. eapply Rle_trans; [now apply small_sum|]. apply Rmult_le_compat_r; [pose proof tol2_pos; lra|]. now apply le_INR.
Qed.

Section Pyth.
  Context {SC : Scalar}.
  Add Ring KR : k_ring.
  Local Open Scope k_scope.
  Lemma pythagoras : forall n f g, inner n g (diff f g) = 0 -> inner n f f = inner n g g + inner n (diff f g) (diff f g).
  Proof.
    intros n f g H. rewrite <- inner_sub_add by (auto using inner_conj_sym). unfold inner, diff.
    apply bigsum_ext. intros b _. replace (g b + (f b - g b)) with (f b) by ring. reflexivity.
  Qed.
End Pyth.

Lemma diff_norm : forall n (f g : @qstate C_scalar), norm2 n (diff f g) = rsum (bits n) (fun b => Cnorm2 (Csub (f b) (g b))).
Proof. reflexivity. Qed.

Lemma trunc_core : forall weak svd N (psi : @qstate C_scalar), (forall A, cut_or_fail svd weak A) -> 0 < N ->
  (INR (cut_count N (N - 1)) * tol2 < norm2 N psi)%R ->
  (weak /\ exists e, StateVec2MPS svd (tbuild [1; 2 ^ N] (fun idx => psi (bitsof N (nth 1 idx 0)))) N = Err e) \/
  exists l t' phi, StateVec2MPS svd (tbuild [1; 2 ^ N] (fun idx => psi (bitsof N (nth 1 idx 0)))) N = Ok l /\ is_mps N l phi /\
    MPS2StateVec l = Ok t' /\ is_state N [1; 2 ^ N] t' phi /\
    (rsum (bits N) (fun b => Cnorm2 (Csub (psi b) (phi b))) <= INR (cut_count N (N - 1)) * tol2)%R /\
    (norm2 N phi = norm2 N psi - rsum (bits N) (fun b => Cnorm2 (Csub (psi b) (phi b))))%R.
Proof.
  intros weak svd N psi HT HN HB.
  destruct (tr_main svd N psi weak HT HN) as [W|[(dr & E & S & L)|(l & phi & dr & E & M & HE & HO & S & L)]].
  - now left.
  - exfalso. rewrite weight_norm, <- norm2_inner in E. injection E as E. pose proof (small_sum_count dr _ S L). lra.
  - right. exists l, (tbuild [1; 2 ^ N] (fun idx => phi (bitsof N (nth 1 idx 0)))), phi.
    split; [exact E|]. split; [exact M|]. split; [now apply MPS2StateVec_ok|].
    split; [now apply state_row|].
    rewrite <- diff_norm. pose proof (pythagoras N psi phi HO) as P. rewrite HE, weight_norm, <- !norm2_inner in P. cbn in P. injection P as P.
    rewrite weight_norm, <- norm2_inner in HE. injection HE as HE. rewrite HE. split; [now apply small_sum_count|lra].
Qed.

Lemma trunc_true : forall svd N t (psi : @qstate C_scalar), true_svd svd -> 0 < N -> is_state N [1; 2 ^ N] t psi ->
  (INR (cut_count N (N - 1)) * tol2 < norm2 N psi)%R ->
  exists l t' phi, StateVec2MPS svd t N = Ok l /\ is_mps N l phi /\ MPS2StateVec l = Ok t' /\ is_state N [1; 2 ^ N] t' phi /\
    (rsum (bits N) (fun b => Cnorm2 (Csub (psi b) (phi b))) <= INR (cut_count N (N - 1)) * tol2)%R /\
    (norm2 N phi = norm2 N psi - rsum (bits N) (fun b => Cnorm2 (Csub (psi b) (phi b))))%R.
Proof.
  intros svd N t psi HT HN Ht HB. apply state_row in Ht. subst t.
  destruct (trunc_core False svd N psi) as [[[] _]|H]; auto. intros A. left. apply HT.
Qed.

Lemma strict_cut_fails : forall (SC : Scalar) ok svd A, ok A = false -> exists e, svd_cut (strict ok svd) A = Err e.
Proof. intros SC ok svd A H. unfold svd_cut, strict. rewrite H. eexists. reflexivity. Qed.

Lemma trunc_strict : forall ok svd N t (psi : @qstate C_scalar) l, (forall A, ok A = true -> true_at svd A) -> 0 < N ->
  is_state N [1; 2 ^ N] t psi -> (INR (cut_count N (N - 1)) * tol2 < norm2 N psi)%R -> StateVec2MPS (strict ok svd) t N = Ok l ->
  StateVec2MPS svd t N = Ok l /\ exists t' phi, is_mps N l phi /\ MPS2StateVec l = Ok t' /\ is_state N [1; 2 ^ N] t' phi /\
    (rsum (bits N) (fun b => Cnorm2 (Csub (psi b) (phi b))) <= INR (cut_count N (N - 1)) * tol2)%R /\
    (norm2 N phi = norm2 N psi - rsum (bits N) (fun b => Cnorm2 (Csub (psi b) (phi b))))%R.
Proof.
  intros ok svd N t psi l HT HN Ht HB E. split.
  { revert E. apply (StateVec2MPS_mono ok svd svd). auto. }
  apply state_row in Ht. subst t.
  destruct (trunc_core True (strict ok svd) N psi) as [[_ (e & X)]|(l' & t' & phi & E' & H)]; auto.
  - intros A. specialize (HT A). destruct (ok A) eqn:O.
    + left. specialize (HT eq_refl). unfold true_at, strict in *. rewrite O. exact HT.
    + right. split; [exact I|]. now apply strict_cut_fails.
  - rewrite E in X. discriminate.
  - rewrite E in E'. injection E' as <-. eauto.
Qed.

(** ** a case: |00> + 1e-9 |11>, the second singular value is dropped *)
Definition eps9 : R := (/ 10 ^ 9)%R.
Definition nearly00 : @qstate C_scalar := fun b =>
  match b with [0; 0] => RtoC 1 | [1; 1] => RtoC eps9 | _ => RtoC 0 end.
Definition nearly_mat : @tensor C_scalar := mkT [2; 2] [RtoC 1; RtoC 0; RtoC 0; RtoC eps9].
Definition id2 : @tensor C_scalar := mkT [2; 2] [RtoC 1; RtoC 0; RtoC 0; RtoC 1].
Definition nearly_sg : @tensor C_scalar := mkT [2] [RtoC 1; RtoC eps9].
Definition nearly_svd (A : @tensor C_scalar) : @tensor C_scalar * @tensor C_scalar * @tensor C_scalar := (id2, nearly_sg, id2).
Definition C_eq_dec (x y : C) : {x = y} + {x <> y}.
Proof.
  destruct x as [a b], y as [c d]. destruct (Req_EM_T a c) as [->|N]; [|right; congruence].
  destruct (Req_EM_T b d) as [->|N]; [now left|right; congruence].
Defined.
Definition nearly_ok (A : @tensor C_scalar) : bool :=
  if list_eq_dec Nat.eq_dec (shape A) (shape nearly_mat) then if list_eq_dec C_eq_dec (data A) (data nearly_mat) then true else false else false.

Lemma nearly_ok_eq : forall A, nearly_ok A = true -> A = nearly_mat.
Proof.
  intros [s d] H. unfold nearly_ok in H. cbn [shape data] in H. destruct list_eq_dec as [->|]; [|discriminate].
  destruct list_eq_dec as [->|]; [|discriminate]. reflexivity.
Qed.
Lemma nearly_ok_refl : nearly_ok nearly_mat = true.
Proof. unfold nearly_ok. destruct list_eq_dec as [_|n]; [|now elim n]. destruct list_eq_dec as [_|n]; [reflexivity|now elim n]. Qed.

Lemma eps9_small : Cabsgt (RtoC eps9) (1 # 100000000) = false.
Proof.
  unfold Cabsgt. destruct Rlt_dec as [L|]; [|reflexivity]. exfalso. apply (Rlt_irrefl (Q2R (1 # 100000000))). eapply Rlt_trans; [exact L|].
  unfold Cabs. replace (Cnorm2 (RtoC eps9)) with (Rsqr eps9) by (unfold Cnorm2, Rsqr; cbn; ring).
  rewrite sqrt_Rsqr by (unfold eps9; apply Rlt_le, Rinv_0_lt_compat; lra). unfold eps9, Q2R. cbn [Qnum Qden]. lra.
Qed.
Lemma one_large : Cabsgt (RtoC 1) (1 # 100000000) = true.
Proof.
  unfold Cabsgt. destruct Rlt_dec as [|L]; [reflexivity|]. exfalso. apply L.
  unfold Cabs. replace (Cnorm2 (RtoC 1)) with 1%R by (unfold Cnorm2; cbn; ring). rewrite sqrt_1. unfold Q2R. cbn [Qnum Qden]. lra.
Qed.

Lemma nearly_true : forall A, nearly_ok A = true -> true_at nearly_svd A.
Proof.
  intros A H. apply nearly_ok_eq in H. subst A. intros m n HS _ _ _. cbn in HS. injection HS as <- <-. cbn [nearly_svd].
  cbv zeta. change (Nat.min 2 2) with 2. repeat split; auto.
  - intros i j Hi Hj. destruct i as [|[|]]; [| |lia]; (destruct j as [|[|]]; [| |lia]); cbn; ceq; ring.
  - intros i j Hi Hj. destruct i as [|[|]]; [| |lia]; (destruct j as [|[|]]; [| |lia]); cbn; ceq; ring.
  - intros i j Hi Hj. destruct i as [|[|]]; [| |lia]; (destruct j as [|[|]]; [| |lia]); cbn; ceq; ring.
  - exists 1. split; [lia|]. intros l Hl. destruct l as [|[|]]; [exact one_large|exact eps9_small|lia].
Qed.

Lemma nearly_state : is_state 2 [1; 2 ^ 2] (mkT [1; 4] (map nearly00 (bits 2))) nearly00.
Proof. split; [reflexivity|]. split; [reflexivity|]. intros b Hb. cbn in Hb. repeat (destruct Hb as [<-|Hb]); [..|destruct Hb]; reflexivity. Qed.
Lemma nearly_norm : (INR (cut_count 2 (2 - 1)) * tol2 < norm2 2 nearly00)%R.
Proof.
  change (cut_count 2 (2 - 1)) with 2. unfold norm2. cbn. unfold Cnorm2. cbn. unfold tol2, eps9. lra.
Qed.
(** one bond of size 1: the value 1e-9 was dropped *)
Lemma nearly_runs : exists l, StateVec2MPS (strict nearly_ok nearly_svd) (mkT [1; 4] (map nearly00 (bits 2))) 2 = Ok l /\ bond l 0 = 1.
Proof.
  assert (E : svd_cut (strict nearly_ok nearly_svd) nearly_mat =
    Ok (tbuild [2; 1] (tget id2), tbuild [1; 2] (fun idx => kmul (tget nearly_sg [nth 0 idx 0]) (kconj (tget id2 [nth 1 idx 0; nth 0 idx 0]))))).
  { apply (svd_cut_gen _ _ 2 2 2 1 (tget id2) (tget nearly_sg) (tget id2)).
    - unfold strict. rewrite nearly_ok_refl. reflexivity.
    - lia.
    - intros l Hl. destruct l as [|[|]]; [exact one_large|exact eps9_small|lia]. }
  assert (F : fold_cols (mkT [1; 4] (map nearly00 (bits 2))) = Ok nearly_mat) by reflexivity.
  unfold StateVec2MPS. cbn [shape length Nat.eqb negb nth orb raise_if seq mfold Nat.pow Nat.mul Nat.add fst snd].
  rewrite F. cbn [bind Nat.sub Nat.eqb]. rewrite E. eexists. split; reflexivity.
Qed.

(** ** nothing is left of a state of norm at most 1e-8 *)
Section None.
  Context {SC : Scalar}.
  Add Ring KR2 : k_ring.
  Local Open Scope k_scope.
  Lemma svd_cut_none : forall svd A m n k u s v,
    svd A = (tbuild [m; k] u, tbuild [k] s, tbuild [n; k] v) -> (0 < k)%nat ->
    (forall l, (l < k)%nat -> kabsgt (s [l]) (1 # 100000000)%Q = false) -> svd_cut svd A = Err TorchError.
  Proof.
    intros svd A m n k u s v E Hk HS. unfold svd_cut. rewrite E.
    change [1%Z; 0%Z] with (map Z.of_nat [1%nat; 0%nat]).
    rewrite permute_tbuild by (apply perm_swap). cbn [bind map nth].
    assert (L : length (filter (fun z : K => kabsgt z (1 # 100000000)) (data (tbuild [k] s))) = 0%nat).
    { apply filter_prefix; [lia|]. intros i Hi.
      assert (Hik : (i < k)%nat) by (cbn [data tbuild] in Hi; rewrite map_length, all_idx_length in Hi; cbn [prodn] in Hi; lia).
      replace (i <? 0)%nat with false by lia. rewrite <- (HS i) by lia. f_equal.
      replace i with (flat [k] [i]) at 1 by (cbn [flat prodn]; lia). exact (tget_tbuild [k] s [i] ltac:(vok)). }
    rewrite L. unfold diag. rewrite tbuild_shape. cbn [bind shape nth tbuild].
    replace (0 <? k)%nat with true by lia. reflexivity.
  Qed.

  Lemma frob : forall m n k (a u v s : list nat -> K),
    (forall i j, (i < m)%nat -> (j < n)%nat -> a [i; j] = bigsum (seq 0 k) (fun l => u [i; l] * s [l] * kconj (v [j; l]))) ->
    (forall l l', (l < k)%nat -> (l' < k)%nat -> bigsum (seq 0 m) (fun r => kconj (u [r; l]) * u [r; l']) = if (l =? l')%nat then 1 else 0) ->
    (forall l l', (l < k)%nat -> (l' < k)%nat -> bigsum (seq 0 n) (fun r => kconj (v [r; l]) * v [r; l']) = if (l =? l')%nat then 1 else 0) ->
    bigsum (seq 0 m) (fun i => bigsum (seq 0 n) (fun j => kconj (a [i; j]) * a [i; j])) = bigsum (seq 0 k) (fun l => kconj (s [l]) * s [l]).
  Proof.
    intros m n k a u v s HE HU HV.
    pose proof (dropped_norm m n k 0 (fun i l => u [i; l]) (fun i l => v [i; l]) (fun l => s [l]) ltac:(lia) HU HV) as X.
    rewrite Nat.sub_0_r in X. rewrite <- X. apply bigsum_ext. intros i Hi. apply in_seq in Hi. apply bigsum_ext. intros j Hj. apply in_seq in Hj.
    rewrite !HE by lia. rewrite (bigsum_ext _ (seq 0 k) (fun l => u [i; l] * s [l] * kconj (v [j; l])) (fun l => u [i; l] * (s [l] * kconj (v [j; l])))) by (intros; ring).
    reflexivity.
  Qed.
  Lemma first_fold : forall N' (psi : qstate) (a : list nat -> K),
    (forall x b, (x < 2)%nat -> In b (bits N') -> a [x; bval b] = psi (x :: b)) ->
    inner (S N') psi psi = bigsum (seq 0 2) (fun i => bigsum (seq 0 (2 ^ N')) (fun j => kconj (a [i; j]) * a [i; j])).
  Proof.
    intros N' psi a HA. rewrite (inner_split 0) by lia. apply bigsum_ext. intros x Hx. apply in_seq in Hx.
    replace (S N' - 1)%nat with N' by lia. rewrite <- (bigsum_bits_seq N' (fun j => kconj (a [x; j]) * a [x; j])).
    apply bigsum_ext. intros b Hb. change (bits 0) with [@nil nat]. rewrite bigsum_cons, bigsum_nil, HA by (auto; lia). cbn [app]. ring.
  Qed.
End None.

Lemma rsum_ge : forall A (l : list A) (f : A -> R) a, (forall x, 0 <= f x)%R -> In a l -> (f a <= rsum l f)%R.
Proof.
  intros A l f a P. induction l as [|b l IH]; intros H; [destruct H|]. cbn [rsum].
  assert (0 <= rsum l f)%R by (rewrite <- (rsum_0 _ l); now apply rsum_le).
  destruct H as [->|H]; [lra|]. specialize (IH H). pose proof (P b). lra.
Qed.
Lemma norm_small : forall s : C, (Cnorm2 s <= tol2)%R -> Cabsgt s (1 # 100000000) = false.
Proof.
  intros s H. unfold Cabsgt. destruct Rlt_dec as [L|]; [|reflexivity]. exfalso.
  assert (P : (0 <= Q2R (1 # 100000000))%R) by (unfold Q2R; cbn [Qnum Qden]; lra).
  assert (Q2R (1 # 100000000) * Q2R (1 # 100000000) < Cabs s * Cabs s)%R by (apply Rmult_le_0_lt_compat; auto).
  unfold Cabs in *. rewrite sqrt_sqrt in * by (apply Cnorm2_nonneg). rewrite tol_sq in *. lra.
Qed.

Lemma tiny_rejected : forall svd N t (psi : @qstate C_scalar), true_svd svd -> 1 < N -> is_state N [1; 2 ^ N] t psi ->
  (norm2 N psi <= tol2)%R -> StateVec2MPS svd t N = Err TorchError.
Proof.
  intros svd N t psi HT HN Ht HB. apply state_row in Ht. subst t.
  unfold StateVec2MPS. rewrite tbuild_shape. cbn [length Nat.eqb negb nth orb]. rewrite Nat.eqb_refl. cbn [raise_if negb].
  destruct N as [|N']; [lia|]. cbn [seq mfold fst snd].
  set (cf := fun idx : list nat => psi (bitsof (S N') (nth 1 idx 0))).
  assert (P2 : 0 < 2 ^ N') by (apply Nat.neq_0_lt_0, Nat.pow_nonzero; lia).
  replace (2 ^ S N') with (2 * 2 ^ N') by reflexivity. rewrite fold_cols_ok by lia. cbn [bind].
  replace (0 =? S N' - 1) with false by lia. change (2 * 1) with 2.
  match goal with |- context [svd_cut svd (tbuild _ ?f)] => set (a := f) end.
  specialize (HT (tbuild [2; 2 ^ N'] a) _ _ eq_refl (tbuild_wf _ _) ltac:(lia) P2).
  destruct (svd (tbuild [2; 2 ^ N'] a)) as [[U Sg] V] eqn:E. cbv zeta in HT.
  destruct HT as (SU & WU & SS & WS & SV & WV & EQ & HU & HV & D' & HD' & Hs).
  rewrite (tensor_eta U WU), SU, (tensor_eta Sg WS), SS, (tensor_eta V WV), SV in E.
  rewrite (svd_cut_none svd _ _ _ _ _ _ _ E); [reflexivity|lia|]. intros l Hl. apply norm_small.
  eapply Rle_trans; [|exact HB]. set (k := Nat.min 2 (2 ^ N')) in *.
  assert (X : RtoC (norm2 (S N') psi) = RtoC (rsum (seq 0 k) (fun l => Cnorm2 (tget Sg [l])))).
  { rewrite norm2_inner. transitivity (weight (SC := C_scalar) (map (fun l => tget Sg [l]) (seq 0 k))).
    - unfold weight. rewrite bigsum_map. rewrite <- (frob 2 (2 ^ N') k a (tget U) (tget V) (tget Sg)).
      + apply (first_fold (SC := C_scalar) N' psi a). intros x b Hx Hb. unfold a, cf. cbn [nth]. rewrite Nat.div_1_r.
        replace (x * 2 ^ N' + bval b) with (bval (x :: b)) by (rewrite bval_cons, (bits_length _ _ Hb); reflexivity).
        rewrite bitsof_bval; [reflexivity|]. apply bits_cons. split; [lia|exact Hb].
      + intros i j Hi Hj. rewrite <- EQ by auto. rewrite tget_tbuild by vok. reflexivity.
      + exact HU.
      + exact HV.
    - rewrite weight_norm. f_equal. generalize (seq 0 k). intros L. induction L as [|y L IH]; [reflexivity|]. cbn [map rsum]. now rewrite IH. }
  injection X as X. rewrite X. apply (rsum_ge _ (seq 0 k) (fun l => Cnorm2 (tget Sg [l])) l).
  - intros. apply Cnorm2_nonneg.
  - apply in_seq. lia.
Qed.
