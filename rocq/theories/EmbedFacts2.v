(** Lemmas: gram_encoding, PrepareState, PrepareRho. *)
From Coq Require Import List ZArith QArith Reals Lra Lia Bool Arith Permutation.
From Verif Require Import PyBase Scalar CInst BigSum Index Tensor TensorFacts Spec SpecFacts QMath QTN QOperator GateSpec QGates GateFacts6 GateProofs MPSFacts1
  QMathC MeasSpec MeasFacts EmbedSpec QEmbedding EmbedFacts.
Import ListNotations.
Local Close Scope Q_scope.
Local Close Scope R_scope.
Local Open Scope nat_scope.

Lemma transpose_2d : forall m n (f : list nat -> C), transpose (tbuild [m; n] f) = Ok (tbuild [n; m] (fun idx => f [nth 1 idx 0; nth 0 idx 0])).
Proof.
  intros m n f. unfold transpose. change [1%Z; 0%Z] with (map Z.of_nat [1; 0]). rewrite permute_tbuild by (cbn; apply perm_swap). reflexivity.
Qed.

Lemma row_tbuild : forall xs : list C, @mkT C_scalar [1; length xs] xs = tbuild [1; length xs] (fun idx => nth (nth 1 idx 0) xs (RtoC 0)).
Proof.
  intros xs. rewrite (tensor_eta (@mkT C_scalar [1; length xs] xs)) at 1 by (unfold wf; cbn; lia). cbn [shape]. apply tbuild_ext. intros idx H.
  destruct idx as [|i [|j [|]]]; try solve [inversion H as [|? ? ? ? ? H']; inversion H' as [|? ? ? ? ? H'']; inversion H''].
  apply valid_cons in H. destruct H as [H1 H2]. assert (i = 0) by lia. subst i. unfold tget. cbn [flat shape data nth]. f_equal. cbn. lia.
Qed.
Lemma vec_tbuild : forall xs : list C, @mkT C_scalar [length xs] xs = tbuild [length xs] (fun idx => nth (nth 0 idx 0) xs (RtoC 0)).
Proof.
  intros xs. rewrite (tensor_eta (@mkT C_scalar [length xs] xs)) at 1 by (unfold wf; cbn; lia). cbn [shape]. apply tbuild_ext. intros idx H.
  destruct idx as [|i [|]]; try solve [inversion H as [|? ? ? ? ? H']; inversion H']. unfold tget. cbn [flat shape data nth]. f_equal. cbn. lia.
Qed.

Lemma bigsum_one : forall (f : nat -> C), bigsum (SC := C_scalar) (seq 0 1) f = f 0.
Proof. intros f. cbn. ceq; ring. Qed.

(** the Gram matrix of a row *)
Lemma gram_row : forall xs : list C, (do xt <- transpose (@mkT C_scalar [1; length xs] xs); matmul xt (@mkT C_scalar [1; length xs] xs)) =
  Ok (tbuild [length xs; length xs] (fun idx => Cmul (nth (nth 0 idx 0) xs (RtoC 0)) (nth (nth 1 idx 0) xs (RtoC 0)))).
Proof.
  intros xs. rewrite row_tbuild, transpose_2d. cbn [bind]. rewrite matmul_2d. f_equal. apply tbuild_ext. intros idx _. cbn [nth].
  exact (bigsum_one (fun l => Cmul (nth (nth 0 idx 0) xs (RtoC 0)) (nth (nth 1 idx 0) xs (RtoC 0)))).
Qed.

Lemma fro_tbuild : forall s f, fro (tbuild s f) = sqrt (rsum (all_idx s) (fun idx => Cnorm2 (f idx))).
Proof. intros s f. unfold fro. rewrite fold_norm, Rplus_0_l. unfold tbuild. cbn [data]. now rewrite rsum_map. Qed.

Lemma rsum_flat : forall A B (l : list A) (g : A -> list B) f, rsum (flat_map g l) f = rsum l (fun a => rsum (g a) f).
Proof. induction l as [|a l IH]; intros g f; [reflexivity|]. cbn [flat_map rsum]. now rewrite rsum_app, IH. Qed.
Lemma rsum_idx_cons : forall n s f, rsum (all_idx (n :: s)) f = rsum (seq 0 n) (fun i => rsum (all_idx s) (fun idx => f (i :: idx))).
Proof. intros n s f. cbn [all_idx]. rewrite rsum_flat. apply rsum_ext. intros i _. now rewrite rsum_map. Qed.
Lemma rsum_scale_r : forall A (l : list A) f c, rsum l (fun x => f x * c)%R = (rsum l f * c)%R.
Proof. induction l; intros; cbn [rsum]; [ring|]. rewrite IHl. ring. Qed.

Lemma fro_gram : forall xs, fro (tbuild [length xs; length xs] (fun idx => Cmul (nth (nth 0 idx 0) xs (RtoC 0)) (nth (nth 1 idx 0) xs (RtoC 0)))) = rsum xs Cnorm2.
Proof.
  intros xs. rewrite fro_tbuild, rsum_idx_cons.
  rewrite (rsum_ext _ _ _ (fun i => Cnorm2 (nth i xs (RtoC 0)) * rsum xs Cnorm2)%R).
  - rewrite rsum_scale_r, (rsum_nth _ xs Cnorm2). apply sqrt_square. apply rsum_norm_nonneg. intros; apply Cnorm2_nonneg.
  - intros i _. rewrite rsum_idx_cons. cbn [all_idx rsum nth]. rewrite <- (rsum_nth _ xs Cnorm2 (RtoC 0)), <- rsum_scale. apply rsum_ext. intros j _. rewrite Cnorm2_mul. ring.
Qed.

Lemma Csqrt_square : forall z, Csqrt (Cmul z z) = right_half z.
Proof.
  intros [a b]. unfold Csqrt, right_half. cbn [Re Im Cmul fst snd].
  assert (M : Cabs (Cmul (a, b) (a, b)) = (a * a + b * b)%R).
  { unfold Cabs. rewrite Cnorm2_mul. unfold Cnorm2. cbn. apply sqrt_square. nra. }
  change (a * a - b * b, a * b + b * a)%R with (Cmul (a, b) (a, b)). rewrite M.
  replace ((a * a + b * b + (a * a - b * b)) / 2)%R with (Rsqr a) by (unfold Rsqr; field).
  replace ((a * a + b * b - (a * a - b * b)) / 2)%R with (Rsqr b) by (unfold Rsqr; field).
  rewrite !sqrt_Rsqr_abs. unfold Re, Im. cbn [fst snd].
  destruct (Rlt_dec (a * b + b * a) 0) as [L|L], (Rlt_dec 0 a) as [A|A], (Rlt_dec a 0) as [A'|A'], (Rlt_dec b 0) as [B|B]; try lra; ceq; unfold Rabs;
    destruct (Rcase_abs a), (Rcase_abs b); nra.
Qed.

Lemma right_half_norm : forall z, Cnorm2 (right_half z) = Cnorm2 z.
Proof. intros z. unfold right_half. destruct (Rlt_dec 0 (Re z)), (Rlt_dec (Re z) 0), (Rlt_dec (Im z) 0); unfold Cnorm2, Copp; cbn; ring. Qed.

Definition gram_unit := (1 / 10 ^ 12)%R.

Lemma gram_ok : forall xs : list C, (0 < length xs) -> let c := (1 / (vnorm xs + gram_unit))%R in
  gram_encoding (@mkT C_scalar [1; length xs] xs) = Ok (tbuild [length xs; length xs] (fun idx =>
    if Req_EM_T (rsum xs Cnorm2) 1 then Cmul (nth (nth 0 idx 0) xs (RtoC 0)) (nth (nth 1 idx 0) xs (RtoC 0))
    else Cmul (Cmul (RtoC c) (right_half (nth (nth 0 idx 0) xs (RtoC 0)))) (Cconj (Cmul (RtoC c) (right_half (nth (nth 1 idx 0) xs (RtoC 0))))))).
Proof.
  intros xs HL c. pose proof (gram_row xs) as G. unfold gram_encoding. destruct (transpose (@mkT C_scalar [1; length xs] xs)) as [xt|er]; [|discriminate]. cbn [bind] in G |- *. rewrite G. cbn [bind].
  rewrite fro_gram. destruct (Req_EM_T (rsum xs Cnorm2) 1) as [E|NE]; [reflexivity|].
  unfold diag. rewrite tbuild_shape. cbn [bind]. rewrite Nat.min_id.
  set (D := tbuild [length xs] _). assert (ED : D = tbuild [length xs] (fun idx => Cmul (nth (nth 0 idx 0) xs (RtoC 0)) (nth (nth 0 idx 0) xs (RtoC 0)))).
  { apply tbuild_ext. intros idx H. destruct idx as [|i [|]]; try solve [inversion H as [|? ? ? ? ? H']; inversion H']. apply valid_cons in H. destruct H as [H _]. cbn [nth].
    rewrite tget_tbuild by (repeat (apply valid_cons; split; [auto|]); constructor). reflexivity. }
  rewrite ED, tmap_tbuild. change 1%Z with (Z.of_nat 1). rewrite unsqueeze_tbuild by (cbn; lia). cbn [bind firstn skipn app].
  set (T := tbuild [length xs; 1] _). assert (ET : T = tbuild [length xs; 1] (fun idx => right_half (nth (nth 0 idx 0) xs (RtoC 0)))).
  { apply tbuild_ext. intros idx H. rewrite Csqrt_square. destruct idx as [|i [|j [|]]]; try solve [inversion H as [|? ? ? ? ? H']; inversion H' as [|? ? ? ? ? H'']; inversion H'']. reflexivity. }
  rewrite ET.
  assert (EF : fro (tbuild [length xs; 1] (fun idx => right_half (nth (nth 0 idx 0) xs (RtoC 0)))) = vnorm xs).
  { rewrite fro_tbuild. unfold vnorm. f_equal. rewrite rsum_idx_cons. rewrite <- (rsum_nth _ xs Cnorm2 (RtoC 0)). apply rsum_ext. intros i _. cbn [all_idx seq map flat_map app rsum nth].
    rewrite right_half_norm. ring. }
  rewrite EF. change (cR (1 / (vnorm xs + 1 / 10 ^ 12)))%R with (RtoC c). rewrite tscale_tbuild, dag_2d. cbn [bind]. rewrite matmul_2d. f_equal. apply tbuild_ext. intros idx _. cbn [nth].
  exact (bigsum_one (fun l => Cmul (Cmul (RtoC c) (right_half (nth (nth 0 idx 0) xs (RtoC 0)))) (Cconj (Cmul (RtoC c) (right_half (nth (nth 1 idx 0) xs (RtoC 0))))))).
Qed.

Lemma idx2 : forall n (f : list nat -> C) i j, i < n -> j < n -> tget (tbuild [n; n] f) [i; j] = f [i; j].
Proof. intros. apply tget_tbuild. repeat (apply valid_cons; split; [auto|]). constructor. Qed.

Lemma gram_general : forall xs : list C, 0 < length xs -> rsum xs Cnorm2 <> 1%R -> exists t, gram_encoding (@mkT C_scalar [1; length xs] xs) = Ok t /\
  shape t = [length xs; length xs] /\ wf t /\
  forall i j, i < length xs -> j < length xs -> tget t [i; j] =
    Cmul (RtoC (/ (vnorm xs + / 10 ^ 12) ^ 2)) (Cmul (right_half (nth i xs (RtoC 0))) (Cconj (right_half (nth j xs (RtoC 0))))).
Proof.
  intros xs HL HN. rewrite gram_ok by auto. eexists. split; [reflexivity|]. split; [reflexivity|]. split; [apply tbuild_wf|]. intros i j Hi Hj. rewrite idx2 by auto. cbn [nth].
  destruct (Req_EM_T _ _) as [E|_]; [contradiction|].
  assert (P : (0 < vnorm xs + gram_unit)%R) by (pose proof (sqrt_pos (rsum xs Cnorm2)); unfold vnorm, gram_unit; lra).
  replace (/ (vnorm xs + / 10 ^ 12) ^ 2)%R with (1 / (vnorm xs + gram_unit) * (1 / (vnorm xs + gram_unit)))%R.
  - ceq; ring.
  - unfold gram_unit in *. replace (/ 10 ^ 12)%R with (1 / 10 ^ 12)%R by (unfold Rdiv; apply Rmult_1_l). field. lra.
Qed.
Lemma gram_unit_row : forall xs : list C, 0 < length xs -> rsum xs Cnorm2 = 1%R -> exists t, gram_encoding (@mkT C_scalar [1; length xs] xs) = Ok t /\
  shape t = [length xs; length xs] /\ wf t /\
  forall i j, i < length xs -> j < length xs -> tget t [i; j] = Cmul (nth i xs (RtoC 0)) (nth j xs (RtoC 0)).
Proof.
  intros xs HL HN. rewrite gram_ok by auto. eexists. split; [reflexivity|]. split; [reflexivity|]. split; [apply tbuild_wf|]. intros i j Hi Hj. rewrite idx2 by auto. cbn [nth].
  destruct (Req_EM_T _ _) as [E|N]; [reflexivity|contradiction].
Qed.

Lemma bigsum_factor : forall n (f g : nat -> C) z, bigsum (SC := C_scalar) (seq 0 n) (fun i => bigsum (SC := C_scalar) (seq 0 n) (fun j => Cmul (Cmul (f i) (Cmul (RtoC z) (Cmul (g i) (Cconj (g j))))) (Cconj (f j)))) =
  RtoC (z * Cnorm2 (bigsum (SC := C_scalar) (seq 0 n) (fun i => Cmul (f i) (g i)))).
Proof.
  intros n f g z. set (S0 := bigsum (SC := C_scalar) (seq 0 n) (fun i => Cmul (f i) (g i))).
  assert (CS : Cconj S0 = bigsum (SC := C_scalar) (seq 0 n) (fun j => Cconj (Cmul (f j) (g j)))) by exact (bigsum_conj (SC := C_scalar) _ _ _).
  transitivity (bigsum (SC := C_scalar) (seq 0 n) (fun i => @kmul C_scalar (Cmul (f i) (g i)) (Cmul (RtoC z) (Cconj S0)))).
  - apply (bigsum_ext (SC := C_scalar)). intros i _. rewrite CS.
    transitivity (@kmul C_scalar (Cmul (Cmul (f i) (g i)) (RtoC z)) (bigsum (SC := C_scalar) (seq 0 n) (fun j => Cconj (Cmul (f j) (g j))))); [|ceq; ring].
    rewrite <- (bigsum_mul_l (SC := C_scalar)). apply (bigsum_ext (SC := C_scalar)). intros j _. ceq; ring.
  - rewrite (bigsum_mul_r (SC := C_scalar)). fold S0. unfold Cnorm2. ceq; ring.
Qed.

(** outside norm 1 the result is Hermitian, positive, and has trace just below 1 *)
Lemma gram_density : forall xs : list C, 0 < length xs -> rsum xs Cnorm2 <> 1%R -> exists t, gram_encoding (@mkT C_scalar [1; length xs] xs) = Ok t /\
  IsHermitian t = Ok true /\
  (forall v : nat -> C, exists q, (0 <= q)%R /\
     bigsum (SC := C_scalar) (seq 0 (length xs)) (fun i => bigsum (SC := C_scalar) (seq 0 (length xs)) (fun j => Cmul (Cmul (Cconj (v i)) (tget t [i; j])) (v j))) = RtoC q) /\
  ttrace t = Ok (RtoC ((vnorm xs / (vnorm xs + / 10 ^ 12)) ^ 2)).
Proof.
  intros xs HL HN. destruct (gram_general xs HL HN) as (t & E & S & Wf & T). exists t. split; [exact E|].
  assert (P : (0 < vnorm xs + / 10 ^ 12)%R) by (pose proof (sqrt_pos (rsum xs Cnorm2)); assert (0 < / 10 ^ 12)%R by (apply Rinv_0_lt_compat; lra); unfold vnorm; lra).
  split; [|split].
  - apply (IsHermitian_exact (length xs)); [exact S|]. intros i j Hi Hj. rewrite !T by auto. ceq; ring.
  - intros v. exists (/ (vnorm xs + / 10 ^ 12) ^ 2 * Cnorm2 (bigsum (SC := C_scalar) (seq 0 (length xs)) (fun i => Cmul (Cconj (v i)) (right_half (nth i xs (RtoC 0))))))%R. split.
    + apply Rmult_le_pos; [|apply Cnorm2_nonneg]. left. apply Rinv_0_lt_compat, pow_lt, P.
    + rewrite <- bigsum_factor. apply (bigsum_ext (SC := C_scalar)). intros i Hi. apply in_seq in Hi. apply (bigsum_ext (SC := C_scalar)). intros j Hj. apply in_seq in Hj.
      rewrite T by lia. ceq; ring.
  - unfold ttrace. rewrite S, Nat.min_id. f_equal.
    rewrite (bigsum_ext (SC := C_scalar) _ _ _ (fun i => RtoC (/ (vnorm xs + / 10 ^ 12) ^ 2 * Cnorm2 (nth i xs (RtoC 0))))).
    + apply C_eq.
      * change (fst (bigsum (SC := C_scalar) (seq 0 (length xs)) (fun i => RtoC (/ (vnorm xs + / 10 ^ 12) ^ 2 * Cnorm2 (nth i xs (RtoC 0)))))) with
          (Re (bigsum (SC := C_scalar) (seq 0 (length xs)) (fun i => RtoC (/ (vnorm xs + / 10 ^ 12) ^ 2 * Cnorm2 (nth i xs (RtoC 0)))))). rewrite Re_bigsum_rsum.
        unfold Re, RtoC. cbn [fst]. rewrite rsum_scale, (rsum_nth _ xs Cnorm2).
        assert (V : (vnorm xs * vnorm xs = rsum xs Cnorm2)%R) by (apply sqrt_sqrt, rsum_norm_nonneg; intros; apply Cnorm2_nonneg). rewrite <- V. field. lra.
      * change (snd (bigsum (SC := C_scalar) (seq 0 (length xs)) (fun i => RtoC (/ (vnorm xs + / 10 ^ 12) ^ 2 * Cnorm2 (nth i xs (RtoC 0)))))) with
          (Im (bigsum (SC := C_scalar) (seq 0 (length xs)) (fun i => RtoC (/ (vnorm xs + / 10 ^ 12) ^ 2 * Cnorm2 (nth i xs (RtoC 0)))))). rewrite Im_bigsum_rsum.
        unfold Im, RtoC. cbn [snd]. clear. induction (seq 0 (length xs)); cbn [rsum]; [reflexivity|]. rewrite IHl. ring.
    + intros i Hi. apply in_seq in Hi. rewrite T by lia. rewrite <- (right_half_norm (nth i xs (RtoC 0))). unfold Cnorm2. ceq; ring.
Qed.

Lemma right_half_opp : forall z, right_half (Copp z) = right_half z.
Proof.
  intros [a b]. unfold right_half, Copp, Re, Im. cbn [fst snd].
  destruct (Rlt_dec 0 (- a)), (Rlt_dec 0 a), (Rlt_dec (- a) 0), (Rlt_dec a 0), (Rlt_dec (- b) 0), (Rlt_dec b 0); try lra; ceq; lra.
Qed.

(** every relative sign of the input is lost *)
Lemma gram_signs : forall xs ys : list C, 0 < length xs -> rsum xs Cnorm2 <> 1%R -> Forall2 (fun x y => y = x \/ y = Copp x) xs ys ->
  gram_encoding (@mkT C_scalar [1; length xs] xs) = gram_encoding (@mkT C_scalar [1; length ys] ys).
Proof.
  intros xs ys HL HN H. assert (LE : length ys = length xs) by (clear - H; induction H; cbn; auto).
  assert (SE : rsum ys Cnorm2 = rsum xs Cnorm2).
  { clear - H. induction H as [|x y xs ys [->| ->] H IH]; cbn [rsum]; [reflexivity|now rewrite IH|]. rewrite IH. f_equal. unfold Cnorm2, Copp. cbn. ring. }
  rewrite !gram_ok by lia. unfold vnorm. rewrite SE, LE. f_equal. apply tbuild_ext. intros idx Hv.
  destruct (Req_EM_T _ _) as [E|_]; [contradiction|].
  destruct idx as [|i [|j [|]]]; try solve [inversion Hv as [|? ? ? ? ? H']; inversion H' as [|? ? ? ? ? H'']; inversion H''].
  apply valid_cons in Hv. destruct Hv as [Hi Hv]. apply valid_cons in Hv. destruct Hv as [Hj _]. cbn [nth].
  assert (N : forall k, k < length xs -> right_half (nth k ys (RtoC 0)) = right_half (nth k xs (RtoC 0))).
  { clear - H. induction H as [|x y xs ys D H IH]; intros k Hk; [cbn in Hk; lia|]. destruct k as [|k]; cbn [nth].
    - destruct D as [->| ->]; [reflexivity|apply right_half_opp].
    - apply IH. cbn in Hk. lia. }
  now rewrite !N.
Qed.

(** * PrepareState, PrepareRho *)
Lemma prepare_rho_ok : forall xs : list C, exists t, PrepareRho xs = Ok t /\ shape t = [length xs; length xs] /\ wf t /\
  forall i j, i < length xs -> j < length xs -> tget t [i; j] = Cmul (nth i xs (RtoC 0)) (nth j xs (RtoC 0)).
Proof.
  intros xs. unfold PrepareRho, PrepareState. change 0%Z with (Z.of_nat 0). rewrite unsqueeze_nat by (cbn; lia). cbn [bind firstn skipn app shape data].
  pose proof (gram_row xs) as G. destruct (transpose (@mkT C_scalar [1; length xs] xs)) as [xt|er]; [|discriminate]. cbn [bind] in G |- *. rewrite G.
  eexists. split; [reflexivity|]. split; [reflexivity|]. split; [apply tbuild_wf|]. intros i j Hi Hj. now rewrite idx2.
Qed.
Lemma prepare_rho_pure : forall xs : list C, exists t, PrepareRho xs = Ok t /\ shape t = [length xs; length xs] /\ wf t /\
  ((forall i j, i < length xs -> j < length xs -> tget t [i; j] = Cmul (nth i xs (RtoC 0)) (Cconj (nth j xs (RtoC 0)))) <-> Forall (fun x => Im x = 0%R) xs).
Proof.
  intros xs. destruct (prepare_rho_ok xs) as (t & E & S & Wf & T). exists t. split; [exact E|]. split; [exact S|]. split; [exact Wf|]. split.
  - intros H. apply Forall_forall. intros x Hx. apply (In_nth _ _ (RtoC 0)) in Hx. destruct Hx as (i & Hi & <-). specialize (H i i Hi Hi). rewrite T in H by auto.
    destruct (nth i xs (RtoC 0)) as [a b]. unfold Im. cbn [snd]. apply (f_equal fst) in H. cbn in H. nra.
  - intros H i j Hi Hj. rewrite T by auto. rewrite Forall_forall in H. specialize (H (nth j xs (RtoC 0)) (nth_In _ _ Hj)). unfold Im in H. ceq; rewrite H; ring.
Qed.
Lemma prepare_state_ok : forall xs : list C, shape (PrepareState xs) = [length xs] /\ data (PrepareState xs) = xs /\
  (rsum xs Cnorm2 = 1%R -> IsNormalized (PrepareState xs) = Ok true).
Proof.
  intros xs. split; [reflexivity|]. split; [reflexivity|]. intros H. apply (IsNormalized_exact (length xs)); [reflexivity|].
  rewrite <- H, <- (rsum_nth _ xs Cnorm2 (RtoC 0)). apply rsum_ext. intros i _. unfold tget. cbn. do 2 f_equal. lia.
Qed.
(** (1, i)/sqrt 2 is a normalised state, but the matrix returned for it has trace 0 *)
Lemma prepare_rho_bad : let xs := [RtoC (/ sqrt 2); (0, / sqrt 2)%R] in rsum xs Cnorm2 = 1%R /\ exists t, PrepareRho xs = Ok t /\ ttrace t = Ok (RtoC 0).
Proof.
  intros xs. assert (S2 : (/ sqrt 2 * / sqrt 2 = / 2)%R) by (rewrite <- Rinv_mult, sqrt_sqrt by lra; reflexivity).
  split; [unfold xs, Cnorm2, RtoC; cbn [rsum fst snd]; rewrite S2; lra|].
  destruct (prepare_rho_ok xs) as (t & E & S & _ & T). exists t. split; [exact E|]. unfold ttrace. rewrite S.
  transitivity (Ok (Cadd (tget t [0; 0]) (Cadd (tget t [1; 1]) (RtoC 0)))); [reflexivity|].
  rewrite !T by (cbn; lia). cbn [nth xs]. f_equal. ceq; [rewrite S2; ring|ring].
Qed.
