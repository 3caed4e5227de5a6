(** C88: elementwise arithmetic on the GPU. *)
From Coq Require Import List ZArith Bool Arith Lia Permutation.
From Verif Require Import BroadcastModel ShapeGradModel GpuModel GpuProofs.
Import ListNotations.

Section C88.
Context {V : Type}.
Variable opSem : opname -> V -> V -> V.
Variable e : device.
(** The device runs the threads of a grid in any order. *)
Variable order : grid -> list thread.
Hypothesis order_any : forall g, Permutation (order g) (threads g).
Hypothesis limits : 0 < mtpb e /\ 0 < mgdx e /\ 0 < mgdy e /\ 0 < mgdz e.
Notation memory := (@memory V).
Notation engineOp := (engineOp opSem e order).
Notation engineScalar := (engineScalar opSem e order).

(** Operands the engine takes: floats of one type and shape, no views; a place for the
    result of the same type and size. *)
Definition float (d : edt) : Prop := d = F32 \/ d = F64.
Definition operands (a b : dten) : Prop :=
  float (ddt a) /\ ddt a = ddt b /\ dshape a = dshape b /\ dview a = false /\ dview b = false.
Definition place (r a : dten) : Prop := ddt r = ddt a /\ dshape r = dshape a.
(** The number of elements of a tensor. *)
Definition elems (a : dten) : nat := Z.to_nat (fold_right Z.mul 1%Z (dshape a)).
(** Sizes for which one axis of the grid is enough. *)
Definition fits (n : nat) : Prop := 0 < n <= mtpb e \/ n <= (mgdx e - 1) * mtpb e.

Lemma elems_logical : forall a, elems a = logicalSize (dshape a).
Proof. reflexivity. Qed.
Lemma fits_total : forall n, fits n -> n <= total (elemGridSize e n).
Proof.
  intros n [F|F]; destruct limits as (HT & HX & HY & HZ).
  - assert (B : calcBlocks n (mtpb e) = 1).
    { pose proof (blocks_le n (mtpb e) 1 HT ltac:(lia)). pose proof (blocks_enough n (mtpb e) HT).
      destruct (calcBlocks n (mtpb e)) as [|[|k]]; lia. }
    rewrite (total_single e n B). lia.
  - apply total_small; [exact HT|exact HY|exact HZ|].
    pose proof (blocks_le n (mtpb e) _ HT F). lia.
Qed.
Lemma dt_refl : forall d, edtEq d d = true.
Proof. intros [| |n]; [reflexivity|reflexivity|apply Nat.eqb_refl]. Qed.
Lemma float_dt : forall d, float d <-> floatDt d = true.
Proof. intros [| |n]; cbn; unfold float; split; auto; [intros [X|X]; discriminate X|discriminate]. Qed.
Lemma float_func : forall o d, o <> Mod -> float d -> hasFunc o (bitsOf d) = true.
Proof. intros o d NM [-> | ->]; destruct o; try reflexivity; contradiction NM; reflexivity. Qed.
Lemma shapeEq_same : forall s, shapeEq s s = true.
Proof.
  intro s. assert (E : eqShape s s = true).
  { unfold eqShape. destruct (list_eq_dec Z.eq_dec s s) as [_|N]; [reflexivity|contradiction N; reflexivity]. }
  destruct s as [|x [|y [|z s]]]; exact E.
Qed.
Lemma check_ok : forall a b, operands a b -> binaryCheck a b = true.
Proof.
  intros a b (F & D & S & VA & VB). apply float_dt in F. unfold binaryCheck. rewrite <- D, F, dt_refl, <- S, shapeEq_same, VA, VB. reflexivity.
Qed.
Lemma opts_ok : forall a r, place r a -> handleFuncOpts (dshape a) (ddt a) (Reuse r) = Ok (Some r)
  /\ handleFuncOpts (dshape a) (ddt a) (Incr r) = Ok (Some r).
Proof. intros a r [D S]. unfold handleFuncOpts. rewrite D, dt_refl, S, Nat.eqb_refl. split; reflexivity. Qed.

(** One launch of the binary kernel on two tensors of one shape. *)
Lemma launch_binary : forall op s A B (m : memory) b i,
  let n := logicalSize s in
  let k := if isScalarShape s then SS else VV in
  let g := elemGridSize e n in
  launch (kernel2 k op g A B n) (order g) m b i
    = if (b =? A) && (i <? n) && (i <? total g) then op (m A i) (m B i) else m b i.
Proof.
  intros op s A B m b i n k g.
  rewrite (launch_grid g A n (fun i v => op v (if B =? A then v else m B i)) (kernel2 k op g A B n) m (order g) (order_any g)).
  - destruct (B =? A) eqn:E; [|reflexivity]. apply Nat.eqb_eq in E. subst B. reflexivity.
  - intros m' t H. unfold kernel2. destruct (n <=? threadId g t) eqn:L; [reflexivity|].
    assert (MB : forall j, m' B j = if B =? A then m' A j else m B j).
    { intro j. destruct (B =? A) eqn:E; [apply Nat.eqb_eq in E; subst B; reflexivity|].
      apply Nat.eqb_neq in E. apply H. exact E. }
    unfold k. destruct s as [|z s]; cbn [isScalarShape].
    + apply Nat.leb_gt in L. change n with 1 in L. replace (threadId g t) with 0 by lia. rewrite MB. reflexivity.
    + rewrite MB. reflexivity.
Qed.
Lemma name_same : forall a b, dshape a = dshape b -> constructName2 a b = if isScalarShape (dshape a) then SS else VV.
Proof. intros a b E. unfold constructName2. rewrite <- E. destruct (isScalarShape (dshape a)); reflexivity. Qed.

(** What a call computes, for any size. *)
Lemma engine_any : forall o a b r (m : memory), o <> Mod -> operands a b -> place r a ->
  forall opt, opt = Reuse r \/ opt = Incr r ->
  exists m', engineOp o a b opt m = Ok (r, m') /\
    let m1 := memcpy m (dbuf r) (dbuf a) (elems a) in
    let g := elemGridSize e (elems a) in
    forall b' i, m' b' i = if (b' =? dbuf r) && (i <? elems a) && (i <? total g)
                           then opSem o (m1 (dbuf r) i) (m1 (dbuf b) i) else m1 b' i.
Proof.
  intros o a b r m NM OP PL opt HO. pose proof OP as (F & D & S & VA & VB). pose proof PL as [PD PS].
  unfold GpuModel.engineOp. rewrite (float_func o _ NM F), (check_ok a b OP). cbn [negb].
  assert (HF : handleFuncOpts (dshape a) (ddt a) opt = Ok (Some r)).
  { destruct (opts_ok a r PL) as [O1 O2]. destruct HO as [HO|HO]; subst opt; assumption. }
  rewrite HF. cbn [bind target]. eexists. split; [reflexivity|]. cbv zeta. intros b' i.
  rewrite (name_same a b S), PS. rewrite launch_binary. reflexivity.
Qed.

(** For a result place that is not the second operand, sizes that fit one axis of the grid
    and any order of threads: every element of the result is the operator applied to the
    two elements, and nothing else in device memory changes. *)
Theorem C88_elementwise : forall o a b r (m : memory), o <> Mod -> operands a b -> place r a ->
  dbuf r <> dbuf b -> fits (elems a) ->
  exists m', engineOp o a b (Reuse r) m = Ok (r, m')
    /\ (forall i, i < elems a -> m' (dbuf r) i = opSem o (m (dbuf a) i) (m (dbuf b) i))
    /\ (forall b' i, b' <> dbuf r \/ elems a <= i -> m' b' i = m b' i).
Proof.
  intros o a b r m NM OP PL NB FI. destruct (engine_any o a b r m NM OP PL _ (or_introl eq_refl)) as (m' & E & H).
  exists m'. split; [exact E|]. cbv zeta in H. pose proof (fits_total _ FI) as T. split.
  - intros i L. rewrite H. rewrite Nat.eqb_refl.
    assert (L1 : (i <? elems a) = true) by (apply Nat.ltb_lt; exact L).
    assert (L2 : (i <? total (elemGridSize e (elems a))) = true) by (apply Nat.ltb_lt; lia).
    rewrite L1, L2. cbn [andb]. unfold memcpy. rewrite Nat.eqb_refl, L1. cbn [andb].
    assert (N : (dbuf b =? dbuf r) = false) by (apply Nat.eqb_neq; intro X; apply NB; symmetry; exact X).
    rewrite N. reflexivity.
  - intros b' i Q. rewrite H. unfold memcpy. destruct (b' =? dbuf r) eqn:EB; [|reflexivity].
    apply Nat.eqb_eq in EB. destruct Q as [Q|Q]; [contradiction|].
    assert (L1 : (i <? elems a) = false) by (apply Nat.ltb_ge; exact Q). rewrite L1. reflexivity.
Qed.

(** In place: the first operand is overwritten by the result, also when both operands are
    the same tensor. *)
Theorem C88_in_place : forall o a b (m : memory), o <> Mod -> operands a b -> fits (elems a) ->
  exists m', engineOp o a b Unsafe m = Ok (a, m')
    /\ (forall i, i < elems a -> m' (dbuf a) i = opSem o (m (dbuf a) i) (m (dbuf b) i))
    /\ (forall b' i, b' <> dbuf a \/ elems a <= i -> m' b' i = m b' i).
Proof.
  intros o a b m NM OP FI. pose proof OP as (F & D & S & VA & VB).
  unfold GpuModel.engineOp. rewrite (float_func o _ NM F), (check_ok a b OP). cbn [negb handleFuncOpts bind target].
  eexists. split; [reflexivity|]. rewrite (name_same a b S).
  pose proof (fits_total _ FI) as T. rewrite elems_logical in T. split.
  - intros i L. rewrite launch_binary. rewrite Nat.eqb_refl. rewrite elems_logical in L.
    assert (L1 : (i <? logicalSize (dshape a)) = true) by (apply Nat.ltb_lt; exact L).
    assert (L2 : (i <? total (elemGridSize e (logicalSize (dshape a)))) = true) by (apply Nat.ltb_lt; lia).
    rewrite L1, L2. reflexivity.
  - intros b' i Q. rewrite launch_binary. destruct (b' =? dbuf a) eqn:EB; [|reflexivity].
    apply Nat.eqb_eq in EB. destruct Q as [Q|Q]; [contradiction|].
    assert (L1 : (i <? logicalSize (dshape a)) = false) by (apply Nat.ltb_ge; exact Q). rewrite L1. reflexivity.
Qed.

(** With the second operand as the place of the result, the operator is applied to the
    first operand twice. *)
Theorem C88_reuse_second_refuted : forall o a b r (m : memory), o <> Mod -> operands a b -> place r a ->
  dbuf r = dbuf b -> fits (elems a) ->
  exists m', engineOp o a b (Reuse r) m = Ok (r, m')
    /\ forall i, i < elems a -> m' (dbuf r) i = opSem o (m (dbuf a) i) (m (dbuf a) i).
Proof.
  intros o a b r m NM OP PL NB FI. destruct (engine_any o a b r m NM OP PL _ (or_introl eq_refl)) as (m' & E & H).
  exists m'. split; [exact E|]. cbv zeta in H. pose proof (fits_total _ FI) as T.
  intros i L. rewrite H. rewrite Nat.eqb_refl.
  assert (L1 : (i <? elems a) = true) by (apply Nat.ltb_lt; exact L).
  assert (L2 : (i <? total (elemGridSize e (elems a))) = true) by (apply Nat.ltb_lt; lia).
  rewrite L1, L2, <- NB. cbn [andb]. unfold memcpy. rewrite Nat.eqb_refl, L1. reflexivity.
Qed.

(** An incrementing call, which the comment on every method says is refused, succeeds and
    overwrites the tensor to be incremented. *)
Theorem C88_incr_refuted : forall o a b r (m : memory), o <> Mod -> operands a b -> place r a ->
  dbuf r <> dbuf b -> fits (elems a) ->
  exists m', engineOp o a b (Incr r) m = Ok (r, m')
    /\ forall i, i < elems a -> m' (dbuf r) i = opSem o (m (dbuf a) i) (m (dbuf b) i).
Proof.
  intros o a b r m NM OP PL NB FI. destruct (engine_any o a b r m NM OP PL _ (or_intror eq_refl)) as (m' & E & H).
  exists m'. split; [exact E|]. cbv zeta in H. pose proof (fits_total _ FI) as T.
  intros i L. rewrite H. rewrite Nat.eqb_refl.
  assert (L1 : (i <? elems a) = true) by (apply Nat.ltb_lt; exact L).
  assert (L2 : (i <? total (elemGridSize e (elems a))) = true) by (apply Nat.ltb_lt; lia).
  rewrite L1, L2. cbn [andb]. unfold memcpy. rewrite Nat.eqb_refl, L1. cbn [andb].
  assert (N : (dbuf b =? dbuf r) = false) by (apply Nat.eqb_neq; intro X; apply NB; symmetry; exact X).
  rewrite N. reflexivity.
Qed.

(** Safe calls, the remainder operator, operands of different types and views are refused. *)
Theorem C88_refused : forall o a b (m : memory) opt,
  o = Mod \/ ddt a <> ddt b \/ ~ float (ddt a) \/ dview a = true \/ dview b = true \/ opt = Safe ->
  engineOp o a b opt m = Err.
Proof.
  intros o a b m opt H. unfold GpuModel.engineOp.
  destruct (hasFunc o (bitsOf (ddt a))) eqn:HF; [|reflexivity]. cbn [negb].
  destruct (binaryCheck a b) eqn:BC; [|reflexivity]. cbn [negb].
  unfold binaryCheck in BC. rewrite !andb_true_iff, !negb_true_iff in BC.
  destruct BC as (((((B1 & B2) & B3) & B4) & B5) & B6).
  destruct H as [H|[H|[H|[H|[H|H]]]]].
  - subst o. discriminate HF.
  - exfalso. apply H. destruct (ddt a), (ddt b); try reflexivity; try discriminate B3; discriminate B1.
  - exfalso. apply H, float_dt. exact B1.
  - rewrite H in B5. discriminate B5.
  - rewrite H in B6. discriminate B6.
  - subst opt. reflexivity.
Qed.

(** A tensor and a scalar in another buffer, on either side. *)
Theorem C88_scalar : forall o a s left r (m : memory), o <> Mod -> float (ddt a) -> dview a = false ->
  place r a -> dbuf r <> s -> fits (elems a) ->
  exists m', engineScalar o a s left (Reuse r) m = Ok (r, m')
    /\ (forall i, i < elems a -> m' (dbuf r) i = if left : bool then opSem o (m (dbuf a) i) (m s 0) else opSem o (m s 0) (m (dbuf a) i))
    /\ (forall b' i, b' <> dbuf r \/ elems a <= i -> m' b' i = m b' i).
Proof.
  intros o a s left r m NM F VA PL NB FI. pose proof PL as [PD PS].
  unfold GpuModel.engineScalar, unaryCheck. rewrite (float_func o _ NM F), (proj1 (float_dt _) F), VA. cbn [negb andb].
  destruct (opts_ok a r PL) as [HF _]. rewrite HF. cbn [bind target]. rewrite PS.
  pose proof (fits_total _ FI) as T. fold (elems a) in *.
  change (logicalSize (dshape a)) with (elems a).
  set (m1 := memcpy m (dbuf r) (dbuf a) (elems a)).
  set (g := elemGridSize e (elems a)) in *.
  assert (MS : m1 s 0 = m s 0).
  { unfold m1, memcpy. assert (N : (s =? dbuf r) = false) by (apply Nat.eqb_neq; intro X; apply NB; symmetry; exact X).
    rewrite N. reflexivity. }
  assert (L : forall b i, launch (kernel2 (constructName1 left) (opSem o) g (if left then dbuf r else s) (if left then s else dbuf r) (elems a)) (order g) m1 b i
     = if (b =? dbuf r) && (i <? elems a) && (i <? total g) then
         (if left then opSem o (m1 (dbuf r) i) (m s 0) else opSem o (m s 0) (m1 (dbuf r) i)) else m1 b i).
  { intros b i.
    rewrite (launch_grid g (dbuf r) (elems a) (fun i v => if left then opSem o v (m s 0) else opSem o (m s 0) v)
               _ m1 (order g) (order_any g)); [reflexivity|].
    intros m' t H. rewrite <- MS, <- (H s 0) by (intro X; apply NB; symmetry; exact X).
    unfold kernel2, constructName1. destruct left; reflexivity. }
  exists (launch (kernel2 (constructName1 left) (opSem o) g (if left then dbuf r else s) (if left then s else dbuf r) (elems a)) (order g) m1).
  split; [destruct left; reflexivity|]. split.
  - intros i LT. rewrite L, Nat.eqb_refl.
    assert (L1 : (i <? elems a) = true) by (apply Nat.ltb_lt; exact LT).
    assert (L2 : (i <? total g) = true) by (apply Nat.ltb_lt; lia). rewrite L1, L2. cbn [andb].
    unfold m1, memcpy. rewrite Nat.eqb_refl, L1. reflexivity.
  - intros b' i Q. rewrite L. unfold m1, memcpy. destruct (b' =? dbuf r) eqn:EB; [|reflexivity].
    apply Nat.eqb_eq in EB. destruct Q as [Q|Q]; [contradiction|].
    assert (L1 : (i <? elems a) = false) by (apply Nat.ltb_ge; exact Q). rewrite L1. reflexivity.
Qed.

(** The same are refused with a scalar. *)
Theorem C88_scalar_refused : forall o a s left (m : memory) opt,
  o = Mod \/ ~ float (ddt a) \/ dview a = true \/ opt = Safe -> engineScalar o a s left opt m = Err.
Proof.
  intros o a s left m opt H. unfold GpuModel.engineScalar.
  destruct (hasFunc o (bitsOf (ddt a))) eqn:HF; [|reflexivity]. cbn [negb].
  destruct (unaryCheck a) eqn:UC; [|reflexivity]. cbn [negb].
  unfold unaryCheck in UC. apply andb_true_iff in UC. destruct UC as [U1 U2]. apply negb_true_iff in U2.
  destruct H as [->|[H|[H| ->]]].
  - discriminate HF.
  - exfalso. apply H, float_dt. exact U1.
  - congruence.
  - reflexivity.
Qed.

(** Unary operators. *)
Theorem C88_unary : forall f a out (m : memory), dshape out = dshape a -> fits (elems a) ->
  let m' := unaryCUDADo e order f a out m in
  (forall i, i < elems a -> m' (dbuf out) i = f (m (dbuf a) i))
  /\ (forall b' i, b' <> dbuf out \/ elems a <= i -> m' b' i = m b' i).
Proof.
  intros f a out m S FI m'. unfold m', unaryCUDADo. rewrite S, shapeEq_same, andb_true_r.
  change (logicalSize (dshape a)) with (elems a).
  pose proof (fits_total _ FI) as T. set (g := elemGridSize e (elems a)) in *.
  set (m1 := if dbuf out =? dbuf a then m else memcpy m (dbuf out) (dbuf a) (elems a)).
  assert (L : forall b i, launch (kernel1 f g (dbuf out) (elems a)) (order g) m1 b i
     = if (b =? dbuf out) && (i <? elems a) && (i <? total g) then f (m1 (dbuf out) i) else m1 b i).
  { intros b i. rewrite (launch_grid g (dbuf out) (elems a) (fun _ v => f v) _ m1 (order g) (order_any g)); [reflexivity|].
    intros m0 t H. reflexivity. }
  split.
  - intros i LT. rewrite L, Nat.eqb_refl.
    assert (L1 : (i <? elems a) = true) by (apply Nat.ltb_lt; exact LT).
    assert (L2 : (i <? total g) = true) by (apply Nat.ltb_lt; lia). rewrite L1, L2. cbn [andb].
    unfold m1. destruct (dbuf out =? dbuf a) eqn:E; [apply Nat.eqb_eq in E; rewrite E; reflexivity|].
    unfold memcpy. rewrite Nat.eqb_refl, L1. reflexivity.
  - intros b' i Q. rewrite L. destruct Q as [Q|Q].
    + apply Nat.eqb_neq in Q. rewrite Q. cbn [andb]. unfold m1. destruct (dbuf out =? dbuf a); [reflexivity|].
      unfold memcpy. rewrite Q. reflexivity.
    + assert (L1 : (i <? elems a) = false) by (apply Nat.ltb_ge; exact Q). rewrite L1, andb_false_r. cbn [andb].
      unfold m1. destruct (dbuf out =? dbuf a); [reflexivity|]. unfold memcpy. rewrite L1, andb_false_r. reflexivity.
Qed.

(** ** Large tensors *)
(** The blocks needed for [n] elements. *)
Definition needed (n k : nat) : Prop := (k - 1) * mtpb e < n <= k * mtpb e.
Lemma needed_blocks : forall n k, 0 < k -> needed n k -> calcBlocks n (mtpb e) = k.
Proof.
  intros n k HK [L U]. destruct limits as (HT & _). pose proof (blocks_le n (mtpb e) k HT U) as LE.
  pose proof (blocks_enough n (mtpb e) HT) as [B _].
  destruct (Nat.eq_dec (calcBlocks n (mtpb e)) k) as [E|E]; [exact E|].
  assert (calcBlocks n (mtpb e) <= k - 1) by lia. nia.
Qed.

(** A tensor that needs more blocks than the first axis of the grid has: when the number of
    blocks modulo the size of the first axis is at most the size of the second, the elements
    behind the first axis are not computed. The call reports success; they hold the first
    operand. *)
Theorem C88_large_refuted : forall o a b r (m : memory) k, o <> Mod -> operands a b -> place r a ->
  needed (elems a) k -> 1 < k -> mgdx e < k < mgdx e * mgdy e -> k mod mgdx e <= mgdy e ->
  mgdx e * mtpb e < elems a
  /\ exists m', engineOp o a b (Reuse r) m = Ok (r, m')
    /\ forall i, mgdx e * mtpb e <= i < elems a -> m' (dbuf r) i = m (dbuf a) i.
Proof.
  intros o a b r m k NM OP PL NE K1 [KX KXY] KM. destruct limits as (HT & HX & HY & HZ).
  pose proof (needed_blocks (elems a) k ltac:(lia) NE) as B. destruct NE as [NL NU].
  split; [pose proof (Nat.mul_le_mono_r (mgdx e) (k - 1) (mtpb e) ltac:(lia)); lia|].
  destruct (engine_any o a b r m NM OP PL _ (or_introl eq_refl)) as (m' & E & H).
  exists m'. split; [exact E|]. cbv zeta in H. intros i [I1 I2]. rewrite H.
  assert (TL : total (elemGridSize e (elems a)) <= mgdx e * mtpb e).
  { unfold elemGridSize. rewrite B.
    assert (E1 : (k =? 1) = false) by (apply Nat.eqb_neq; lia). rewrite E1.
    assert (E2 : (mgdx e * mgdy e * mgdz e <=? k) = false) by (apply Nat.leb_gt; nia). rewrite E2.
    assert (E3 : (mgdx e * mgdy e <=? k) = false) by (apply Nat.leb_gt; lia). rewrite E3.
    assert (E4 : (mgdx e <=? k) = true) by (apply Nat.leb_le; lia). rewrite E4.
    unfold total. cbn [gridX gridY gridZ blockX blockY blockZ].
    pose proof (blocks_le (k mod mgdx e) (mgdy e) 1 HY ltac:(lia)) as Q. nia. }
  assert (L2 : (i <? total (elemGridSize e (elems a))) = false) by (apply Nat.ltb_ge; lia).
  rewrite L2, andb_false_r. unfold memcpy. rewrite Nat.eqb_refl.
  assert (L1 : (i <? elems a) = true) by (apply Nat.ltb_lt; exact I2). rewrite L1. reflexivity.
Qed.

(** When the number of blocks is a multiple of the first axis, nothing is computed. *)
Theorem C88_multiple_refuted : forall o a b r (m : memory) q, o <> Mod -> operands a b -> place r a ->
  needed (elems a) (q * mgdx e) -> 1 < q * mgdx e -> 0 < q < mgdy e ->
  exists m', engineOp o a b (Reuse r) m = Ok (r, m')
    /\ forall i, i < elems a -> m' (dbuf r) i = m (dbuf a) i.
Proof.
  intros o a b r m q NM OP PL NE K1 [Q1 Q2]. destruct limits as (HT & HX & HY & HZ).
  pose proof (needed_blocks (elems a) (q * mgdx e) ltac:(lia) NE) as B.
  destruct (engine_any o a b r m NM OP PL _ (or_introl eq_refl)) as (m' & E & H).
  exists m'. split; [exact E|]. cbv zeta in H. intros i I. rewrite H.
  assert (TL : total (elemGridSize e (elems a)) = 0).
  { unfold elemGridSize. rewrite B.
    assert (E1 : (q * mgdx e =? 1) = false) by (apply Nat.eqb_neq; lia). rewrite E1.
    assert (A1 : q * mgdx e < mgdx e * mgdy e) by (rewrite (Nat.mul_comm q); apply Nat.mul_lt_mono_pos_l; lia).
    assert (A2 : mgdx e * mgdy e * 1 <= mgdx e * mgdy e * mgdz e) by (apply Nat.mul_le_mono_l; lia).
    assert (E2 : (mgdx e * mgdy e * mgdz e <=? q * mgdx e) = false) by (apply Nat.leb_gt; lia). rewrite E2.
    assert (E3 : (mgdx e * mgdy e <=? q * mgdx e) = false) by (apply Nat.leb_gt; lia). rewrite E3.
    assert (E4 : (mgdx e <=? q * mgdx e) = true) by (apply Nat.leb_le; nia). rewrite E4.
    rewrite Nat.mod_mul by lia. rewrite (blocks_zero _ HY). unfold total.
    cbn [gridX gridY gridZ blockX blockY blockZ]. lia. }
  rewrite TL. change (i <? 0) with false. rewrite andb_false_r. unfold memcpy. rewrite Nat.eqb_refl.
  assert (L1 : (i <? elems a) = true) by (apply Nat.ltb_lt; exact I). rewrite L1. reflexivity.
Qed.

(** From the whole grid on, one element is computed. *)
Theorem C88_whole_grid_refuted : forall o a b r (m : memory) k, o <> Mod -> operands a b -> place r a ->
  needed (elems a) k -> 1 < k -> mgdx e * mgdy e * mgdz e <= k ->
  exists m', engineOp o a b (Reuse r) m = Ok (r, m')
    /\ forall i, 0 < i < elems a -> m' (dbuf r) i = m (dbuf a) i.
Proof.
  intros o a b r m k NM OP PL NE K1 KX.
  pose proof (needed_blocks (elems a) k ltac:(lia) NE) as B.
  destruct (engine_any o a b r m NM OP PL _ (or_introl eq_refl)) as (m' & E & H).
  exists m'. split; [exact E|]. cbv zeta in H. intros i [I0 I]. rewrite H.
  assert (TL : total (elemGridSize e (elems a)) = 1).
  { unfold elemGridSize. rewrite B.
    assert (E1 : (k =? 1) = false) by (apply Nat.eqb_neq; lia). rewrite E1.
    assert (E2 : (mgdx e * mgdy e * mgdz e <=? k) = true) by (apply Nat.leb_le; lia). rewrite E2. reflexivity. }
  rewrite TL. assert (L2 : (i <? 1) = false) by (apply Nat.ltb_ge; lia). rewrite L2, andb_false_r.
  unfold memcpy. rewrite Nat.eqb_refl.
  assert (L1 : (i <? elems a) = true) by (apply Nat.ltb_lt; exact I). rewrite L1. reflexivity.
Qed.
End C88.

Print Assumptions C88_elementwise.
Print Assumptions C88_in_place.
Print Assumptions C88_reuse_second_refuted.
Print Assumptions C88_incr_refuted.
Print Assumptions C88_refused.
Print Assumptions C88_scalar.
Print Assumptions C88_scalar_refused.
Print Assumptions C88_unary.
Print Assumptions C88_large_refuted.
Print Assumptions C88_multiple_refuted.
Print Assumptions C88_whole_grid_refuted.

(** ** Examples: a device with four threads per block and a grid of 3 x 5 x 2 *)
Definition exDev : device := Build_device 4 3 5 2.
Definition exOp (o : opname) : Z -> Z -> Z := match o with Sub => Z.sub | Mul => Z.mul | _ => Z.add end.
(** The threads in reverse order. *)
Definition exOrder (g : grid) : list thread := rev (threads g).
Definition exT (buf : nat) (s : list Z) : dten := Build_dten buf s F64 false.
Definition exMem : memory := fun b i => (10 * Z.of_nat b + Z.of_nat i)%Z.
Definition exRead (r : res (dten * memory)) (b n : nat) : option (list Z) :=
  match r with Ok (_, m) => Some (map (m b) (seq 0 n)) | _ => None end.
(** Hypotheses of the theorems for tensors of shape [2; 4]. *)
Example C88_ex_hyps : operands (exT 1 [2; 4]%Z) (exT 2 [2; 4]%Z) /\ place (exT 3 [2; 4]%Z) (exT 1 [2; 4]%Z)
  /\ fits exDev (elems (exT 1 [2; 4]%Z)) /\ (forall g, Permutation (exOrder g) (threads g)).
Proof.
  split; [split; [unfold float; cbn; auto|repeat split]|]. split; [split; reflexivity|]. split; [right; vm_compute; lia|].
  intro g. apply Permutation_sym, Permutation_rev.
Qed.
Example C88_ex_sub : exRead (engineOp exOp exDev exOrder Sub (exT 2 [2; 4]%Z) (exT 1 [2; 4]%Z) (Reuse (exT 3 [2; 4]%Z)) exMem) 3 9
  = Some [10; 10; 10; 10; 10; 10; 10; 10; 38]%Z.
Proof. vm_compute. reflexivity. Qed.
Example C88_ex_reuse_second : exRead (engineOp exOp exDev exOrder Sub (exT 2 [2; 4]%Z) (exT 1 [2; 4]%Z) (Reuse (exT 1 [2; 4]%Z)) exMem) 1 8
  = Some [0; 0; 0; 0; 0; 0; 0; 0]%Z.
Proof. vm_compute. reflexivity. Qed.
Example C88_ex_scalar : exRead (engineScalar exOp exDev exOrder Sub (exT 2 [3]%Z) 1 false (Reuse (exT 3 [3]%Z)) exMem) 3 3
  = Some [-10; -11; -12]%Z.
Proof. vm_compute. reflexivity. Qed.
(** Sixteen elements need four blocks, one more than the first axis has. *)
Example C88_ex_scalar_refused : engineScalar exOp exDev exOrder Sub (Build_dten 2 [3]%Z (OtherDt 64) false) 1 true (Reuse (Build_dten 3 [3]%Z (OtherDt 64) false)) exMem = Err.
Proof. reflexivity. Qed.
Example C88_ex_large_hyps : needed exDev (elems (exT 2 [16]%Z)) 4 /\ 3 < 4 < 3 * 5 /\ 4 mod 3 <= 5.
Proof. vm_compute. repeat split; lia. Qed.
Example C88_ex_large : exRead (engineOp exOp exDev exOrder Sub (exT 2 [16]%Z) (exT 1 [16]%Z) (Reuse (exT 3 [16]%Z)) exMem) 3 16
  = Some [10; 10; 10; 10; 10; 10; 10; 10; 10; 10; 10; 10; 32; 33; 34; 35]%Z.
Proof. vm_compute. reflexivity. Qed.
Example C88_ex_multiple : needed exDev (elems (exT 2 [12]%Z)) (1 * mgdx exDev)
  /\ exRead (engineOp exOp exDev exOrder Sub (exT 2 [12]%Z) (exT 1 [12]%Z) (Reuse (exT 3 [12]%Z)) exMem) 3 4 = Some [20; 21; 22; 23]%Z.
Proof. split; vm_compute; [lia|reflexivity]. Qed.
Example C88_ex_whole : needed exDev (elems (exT 2 [120]%Z)) 30 /\ 3 * 5 * 2 <= 30.
Proof. vm_compute. lia. Qed.
