(** C96: products on a CUDA device are right for tensors stored without gaps in one order,
    transposed or not; wrong for other layouts. *)
From Coq Require Import List Arith ZArith Bool Lia Ring.
From Verif Require Import Sums BroadcastModel ShapeGradModel CudaLinModel CudaLinSpec.
Import ListNotations.

Section Props.
Context {A : Type} {CR : CRing A}.
Add Ring Aring : (@cr_th A CR).
Implicit Types (a b c : dten A).

Lemma mod_col i j ld : i < ld -> (j * ld + i) mod ld = i.
Proof. intro H. rewrite Nat.add_comm, Nat.mod_add by lia. apply Nat.mod_small, H. Qed.
Lemma div_col i j ld : i < ld -> (j * ld + i) / ld = j.
Proof. intro H. rewrite Nat.add_comm, Nat.div_add by lia. rewrite Nat.div_small by exact H. reflexivity. Qed.
Lemma check_ok a b c : onDevice a b c -> checkThree a b c = true.
Proof.
  intros [Ma [Mb [Mc [E1 [E2 N]]]]]. unfold checkThree. rewrite Ma, Mb, Mc, E1, E2. destruct (elt c); reflexivity.
Qed.
Lemma gemm_ok (tA tB : bool) m n k (x : nat -> A) lda y ldb z ldc :
  1 <= lda -> (if tA then k else m) <= lda -> 1 <= ldb -> (if tB then n else k) <= ldb -> 1 <= ldc -> m <= ldc ->
  exists f, gemm tA tB m n k x lda y ldb z ldc = Ok f /\
    (forall i j, i < m -> j < n -> f (j * ldc + i) = sum k (fun l => rmul (opAt tA x lda i l) (opAt tB y ldb l j))) /\
    (forall p, n * ldc <= p -> f p = z p).
Proof.
  intros A1 A2 B1 B2 C1 C2. unfold gemm. cbv zeta.
  replace (lda <? Nat.max 1 (if tA then k else m)) with false by (symmetry; apply Nat.ltb_ge; lia).
  replace (ldb <? Nat.max 1 (if tB then n else k)) with false by (symmetry; apply Nat.ltb_ge; lia).
  replace (ldc <? Nat.max 1 m) with false by (symmetry; apply Nat.ltb_ge; lia). cbn [orb].
  eexists. split; [reflexivity|]. cbv beta. split.
  - intros i j Hi Hj. rewrite mod_col, div_col by lia. apply Nat.ltb_lt in Hi, Hj. rewrite Hi, Hj. reflexivity.
  - intros p Hp. replace (p / ldc <? n) with false; [rewrite andb_false_r; reflexivity|].
    symmetry. apply Nat.ltb_ge. apply Nat.div_le_lower_bound; lia.
Qed.

(** MatMul: the product, for both orders and all four combinations of transpositions, into
    a tensor of the same order. Nothing beyond its entries is written. *)
Theorem C96_matmul a b c m k n : onDevice a b c -> 1 <= m -> 1 <= k -> 1 <= n ->
  stored a m k -> stored b k n -> stored c m n -> transposed c = false ->
  colMajor b = colMajor a -> colMajor c = colMajor a ->
  exists c', matMulEngine a b c = Ok c' /\ sameTensor c c' /\
    (forall i j, i < m -> j < n -> at2 c' i j = sum k (fun l => rmul (at2 a i l) (at2 b l j))) /\
    (forall p, m * n <= p -> mem c' p = mem c p).
Proof.
  intros D Hm Hk Hn [Sa Ta] [Sb Tb] [Sc Tc] Nc Ob Oc.
  assert (Ne : elt a <> COther) by apply D.
  unfold matMulEngine. rewrite (check_ok _ _ _ D), Ob, eqb_reflx. cbn [negb].
  unfold axis. rewrite Sa, Sb, Sc. cbn [nth_error bind].
  rewrite Nc, Oc in Tc. rewrite Ob in Tb. unfold at2. rewrite Ta, Tb. cbn [withMem strides].
  destruct (colMajor a) eqn:Oa; cbn [nth_error bind] in *.
  - destruct (transposed a) eqn:Za, (transposed b) eqn:Zb;
    match goal with |- context [gemm ?tA ?tB m n k ?x ?la ?y ?lb ?z ?lc] =>
      destruct (gemm_ok tA tB m n k x la y lb z lc) as [f [G [V U]]]; try lia end;
    (exists (withMem c f); split; [destruct (elt a); [rewrite G; reflexivity|rewrite G; reflexivity|contradiction]|]);
    (split; [repeat split|]; split; [|intros p Hp; apply U; lia]);
    intros i j Hi Hj; cbn [withMem mem strides]; rewrite Tc; cbn [nth];
    (replace (i * 1 + j * m) with (j * m + i) by lia); rewrite (V i j Hi Hj); apply sum_ext; intros l Hl; cbn [opAt];
    f_equal; f_equal; lia.
  - destruct (transposed a) eqn:Za, (transposed b) eqn:Zb;
    match goal with |- context [gemm ?tA ?tB n m k ?x ?la ?y ?lb ?z ?lc] =>
      destruct (gemm_ok tA tB n m k x la y lb z lc) as [f [G [V U]]]; try lia end;
    (exists (withMem c f); split; [destruct (elt a); [rewrite G; reflexivity|rewrite G; reflexivity|contradiction]|]);
    (split; [repeat split|]; split; [|intros p Hp; apply U; lia]);
    intros i j Hi Hj; cbn [withMem mem strides]; rewrite Tc; cbn [nth];
    (replace (i * n + j * 1) with (i * n + j) by lia); rewrite (V j i Hj Hi); apply sum_ext; intros l Hl; cbn [opAt];
    rewrite (Rmul_comm cr_th); f_equal; f_equal; lia.
Qed.

(** MatVecMul: the product, for both orders, transposed or not. *)
Theorem C96_matvec a b c m n : onDevice a b c -> 1 <= m -> 1 <= n ->
  stored a m n -> storedVec b n -> storedVec c m ->
  exists c', matVecEngine a b c = Ok c' /\ sameTensor c c' /\
    (forall i, i < m -> at1 c' i = sum n (fun l => rmul (at2 a i l) (at1 b l))) /\
    (forall p, m <= p -> mem c' p = mem c p).
Proof.
  intros D Hm Hn [Sa Ta] [Sb [Tb _]] [Sc [Tc _]].
  assert (Ne : elt a <> COther) by apply D.
  unfold matVecEngine. rewrite (check_ok _ _ _ D). cbn [negb]. unfold axis. rewrite Sa. cbn [nth_error bind].
  assert (L1 : (n <? Nat.max 1 n) = false) by (apply Nat.ltb_ge; lia).
  assert (L2 : (m <? Nat.max 1 m) = false) by (apply Nat.ltb_ge; lia).
  unfold at1, at2, gemv. rewrite Ta, Tb.
  destruct (colMajor a), (transposed a); rewrite ?L1, ?L2; cbn [bind];
  (eexists; split; [destruct (elt a); [reflexivity|reflexivity|contradiction]|]);
  (split; [repeat split|]; split; [|intros p Hp; cbn [withMem mem]; apply Nat.ltb_ge in Hp; rewrite Hp; reflexivity]);
  intros i Hi; cbn [withMem mem strides]; rewrite Tc; cbn [nth]; rewrite Nat.mul_1_r; apply Nat.ltb_lt in Hi; rewrite Hi;
  apply sum_ext; intros l Hl; f_equal; f_equal; lia.
Qed.

(** Outer into a tensor stored by rows: the outer product, the operands as they were. *)
Theorem C96_outer_rows a b c m n : onDevice a b c -> 1 <= m -> 1 <= n ->
  storedVec a m -> storedVec b n -> stored c m n -> transposed c = false ->
  colMajor a = false -> colMajor b = false -> colMajor c = false ->
  exists c', outerEngine a b c = (Ok c', a, b) /\ sameTensor c c' /\
    forall i j, i < m -> j < n -> at2 c' i j = rmul (at1 a i) (at1 b j).
Proof.
  intros D Hm Hn [Sa [Ta Za]] [Sb [Tb Zb]] Kc Nc Oa Ob Oc.
  unfold outerEngine. rewrite (check_ok _ _ _ D), Oc. cbn [negb]. unfold axis. rewrite Sa, Sb. cbn [nth_error].
  set (a1 := DT [m; 1] false false (managed a) (elt a) [1; 1] (mem a)).
  set (b1 := DT [1; n] false false (managed b) (elt b) [n; 1] (mem b)).
  assert (Ra : reshapeD a [m; 1] = Ok a1).
  { unfold reshapeD, sizeD. rewrite Sa, Oa, Za. cbn [fold_right]. rewrite Nat.eqb_refl. reflexivity. }
  assert (Rb : reshapeD b [1; n] = Ok b1).
  { unfold reshapeD, sizeD. rewrite Sb, Ob, Zb. cbn [fold_right]. replace (1 * (n * 1)) with (n * 1) by lia. rewrite Nat.eqb_refl. reflexivity. }
  rewrite Ra, Rb.
  destruct (C96_matmul a1 b1 c m 1 n) as [c' [E [S' [V _]]]]; try assumption; try lia; try reflexivity.
  { split; reflexivity. } { split; reflexivity. }
  rewrite E.
  assert (Rb' : reshapeD b1 [n] = Ok b).
  { unfold reshapeD, sizeD. cbn [dshape b1 fold_right]. replace (1 * (n * 1)) with (n * 1) by lia. rewrite Nat.eqb_refl. cbn.
    destruct b as [bs bo bt bm be bst bd]. cbn in *. subst. reflexivity. }
  assert (Ra' : reshapeD a1 [m] = Ok a).
  { unfold reshapeD, sizeD. cbn [dshape a1 fold_right]. replace (m * (1 * 1)) with (m * 1) by lia. rewrite Nat.eqb_refl. cbn.
    destruct a as [bs bo bt bm be bst bd]. cbn in *. subst. reflexivity. }
  rewrite Rb', Ra'. exists c'. split; [reflexivity|]. split; [exact S'|].
  intros i j Hi Hj. rewrite (V i j Hi Hj). cbn [sum]. rewrite (Radd_0_l cr_th). unfold at2, at1. cbn [strides a1 b1 mem nth].
  rewrite Ta, Tb. cbn [nth]. f_equal; f_equal; lia.
Qed.
(** Outer into a tensor stored by columns adds to what was there. *)
Theorem C96_outer_columns_adds a b c m n : onDevice a b c -> 1 <= m -> 1 <= n ->
  storedVec a m -> storedVec b n -> stored c m n -> transposed c = false -> colMajor c = true ->
  exists c', outerEngine a b c = (Ok c', a, b) /\ sameTensor c c' /\
    forall i j, i < m -> j < n -> at2 c' i j = radd (at2 c i j) (rmul (at1 a i) (at1 b j)).
Proof.
  intros D Hm Hn [Sa [Ta Za]] [Sb [Tb Zb]] [Sc Tc] Nc Oc.
  assert (Ne : elt a <> COther) by apply D.
  unfold outerEngine. rewrite (check_ok _ _ _ D), Oc. cbn [negb]. unfold axis, sizeD. rewrite Sa, Sb, Sc. cbn [nth_error bind fold_right].
  rewrite !Nat.mul_1_r. unfold ger. replace (m <? Nat.max 1 m) with false by (symmetry; apply Nat.ltb_ge; lia). cbn [bind].
  eexists. split; [destruct (elt a); [reflexivity|reflexivity|contradiction]|]. split; [repeat split|].
  intros i j Hi Hj. unfold at2, at1. cbn [withMem mem strides]. rewrite Tc, Nc, Oc, Ta, Tb. cbn [nth].
  replace (i * 1 + j * m) with (j * m + i) by lia. rewrite mod_col, div_col by exact Hi. rewrite !Nat.mul_1_r.
  apply Nat.ltb_lt in Hi, Hj. rewrite Hi, Hj. reflexivity.
Qed.
(** Other element types: products report an error, Outer by columns reports success and
    does nothing. *)
Theorem C96_other_types a b c : checkThree a b c = true -> elt a = COther ->
  (forall c', matMulEngine a b c <> Ok c') /\ (forall c', matVecEngine a b c <> Ok c') /\
  (colMajor c = true -> outerEngine a b c = (Ok c, a, b)).
Proof.
  intros K E.
  assert (V : forall c', matVecEngine a b c <> Ok c').
  { intro c'. unfold matVecEngine. rewrite K. cbn [negb]. destruct (axis a 0) as [m| |]; cbn [bind]; try discriminate.
    destruct (axis a 1) as [n| |]; cbn [bind]; try discriminate. rewrite E. destruct (colMajor a), (transposed a); discriminate. }
  split; [|split; [exact V|]].
  - intro c'. unfold matMulEngine. rewrite K. cbn [negb]. destruct (negb (Bool.eqb (colMajor a) (colMajor b))); [discriminate|].
    destruct (axis a 0) as [m| |]; cbn [bind]; try discriminate. destruct (axis a 1) as [k| |]; cbn [bind]; try discriminate.
    destruct (axis b 1) as [n| |]; cbn [bind]; try discriminate.
    destruct (axis c (if colMajor a then 0 else 1)) as [ldc| |]; cbn [bind]; try discriminate.
    rewrite E. destruct (colMajor a), (transposed a), (transposed b); discriminate.
  - intro O. unfold outerEngine. rewrite K, O, E. reflexivity.
Qed.
(** Outer with a vector and a matrix, stored by rows, fails and leaves the vector a column. *)
Theorem C96_outer_leaves_a_column a b c m r q : checkThree a b c = true -> colMajor c = false ->
  dshape a = [m] -> dshape b = [r; q] -> 1 <= r -> q <> 1 ->
  exists a', outerEngine a b c = (Err, a', b) /\ dshape a' = [m; 1].
Proof.
  intros K O Sa Sb Hr Hq. unfold outerEngine. rewrite K, O. cbn [negb]. unfold axis. rewrite Sa, Sb. cbn [nth_error].
  unfold reshapeD at 1, sizeD. rewrite Sa. cbn [fold_right]. rewrite Nat.eqb_refl. cbn [negb].
  unfold reshapeD at 1, sizeD. rewrite Sb. cbn [fold_right].
  replace (1 * (r * 1) =? r * (q * 1)) with false by (symmetry; apply Nat.eqb_neq; nia). cbn [negb].
  eexists. split; [reflexivity|reflexivity].
Qed.
(** Memory that is not the device's, tensors of different types, orders that differ: errors. *)
Theorem C96_refused a b c :
  (managed a = false \/ managed b = false \/ managed c = false \/ elt a <> elt b \/ elt b <> elt c ->
   matMulEngine a b c = Err /\ matVecEngine a b c = Err /\ outerEngine a b c = (Err, a, b)) /\
  (colMajor a <> colMajor b -> matMulEngine a b c = Err).
Proof.
  split.
  - intro H. assert (K : checkThree a b c = false).
    { unfold checkThree. destruct H as [H|[H|[H|[H|H]]]]; try (rewrite H); rewrite ?andb_false_r, ?andb_false_l; try reflexivity.
      - destruct (managed a), (managed b), (managed c); try reflexivity. destruct (elt a), (elt b); try reflexivity; contradiction.
      - destruct (managed a), (managed b), (managed c); try reflexivity. destruct (elt b), (elt c), (elt a); try reflexivity; contradiction. }
    unfold matMulEngine, matVecEngine, outerEngine. rewrite K. repeat split.
  - intro H. unfold matMulEngine. destruct (negb (checkThree a b c)); [reflexivity|].
    destruct (colMajor a), (colMajor b); try contradiction; reflexivity.
Qed.

(** ** The operator *)
Lemma flip_flip (t : dten A) : flipT (flipT t) = t.
Proof. destruct t. unfold flipT. cbn. rewrite !rev_involutive, negb_involutive. reflexivity. Qed.
Lemma stored_flip (t : dten A) r q : stored t r q -> stored (flipT t) q r.
Proof.
  intros [Sh T]. unfold stored, flipT. cbn [dshape strides colMajor transposed]. rewrite Sh, T. split; [reflexivity|].
  destruct (colMajor t), (transposed t); reflexivity.
Qed.
Lemma at2_flip (t : dten A) r q i j : stored t r q -> at2 (flipT t) i j = at2 t j i.
Proof.
  intros [Sh T]. unfold at2, flipT. cbn [strides mem]. rewrite T. destruct (colMajor t), (transposed t); cbn [rev app nth]; f_equal; lia.
Qed.
(** The product of two matrix nodes on the device: each operand transposed if asked, and as
    it was afterwards. *)
Theorem C96_operator (ta tb : bool) a b c m k n : onDevice a b c -> 1 <= m -> 1 <= k -> 1 <= n ->
  stored a (if ta then k else m) (if ta then m else k) -> stored b (if tb then n else k) (if tb then k else n) -> stored c m n ->
  transposed c = false -> colMajor b = colMajor a -> colMajor c = colMajor a ->
  exists c', cudaMatMul ta tb a b c = (Ok c', a, b) /\ sameTensor c c' /\
    forall i j, i < m -> j < n ->
      at2 c' i j = sum k (fun l => rmul (if ta then at2 a l i else at2 a i l) (if tb then at2 b j l else at2 b l j)).
Proof.
  intros D Hm Hk Hn Ka Kb Kc Nc Ob Oc.
  assert (Sa : stored (flipIf ta a) m k) by (destruct ta; [apply stored_flip|]; exact Ka).
  assert (Sb : stored (flipIf tb b) k n) by (destruct tb; [apply stored_flip|]; exact Kb).
  destruct (C96_matmul (flipIf ta a) (flipIf tb b) c m k n) as [c' [E [S' [V _]]]]; try assumption.
  - destruct ta, tb; exact D.
  - destruct ta, tb; exact Ob.
  - destruct ta; exact Oc.
  - unfold cudaMatMul. rewrite (proj1 Sa), (proj1 Sb), Nat.eqb_refl, E. exists c'. split; [|split; [exact S'|]].
    + destruct ta, tb; cbn [flipIf]; rewrite ?flip_flip; reflexivity.
    + intros i j Hi Hj. rewrite (V i j Hi Hj). apply sum_ext. intros l Hl. f_equal.
      * destruct ta; cbn [flipIf]; [apply (at2_flip _ _ _ _ _ Ka)|reflexivity].
      * destruct tb; cbn [flipIf]; [apply (at2_flip _ _ _ _ _ Kb)|reflexivity].
Qed.
(** One square tensor as both operands: if one of them is to be transposed both are, if both
    are neither is. *)
Theorem C96_same_operand_transposed_twice (ta tb : bool) (x c : dten A) n : onDevice x x c -> 1 <= n -> stored x n n -> stored c n n ->
  transposed c = false -> colMajor c = colMajor x ->
  exists c', cudaMatMulSame ta tb x c = (Ok c', x) /\
    forall i j, i < n -> j < n ->
      at2 c' i j = sum n (fun l => if Bool.eqb ta tb then rmul (at2 x i l) (at2 x l j) else rmul (at2 x l i) (at2 x j l)).
Proof.
  intros D Hn Kx Kc Nc Oc. pose proof (stored_flip _ _ _ Kx) as Kf.
  unfold cudaMatMulSame. destruct ta, tb; cbn [flipIf Bool.eqb]; rewrite ?flip_flip.
  1,4: destruct (C96_matmul x x c n n n) as [c' [E [_ [V _]]]]; try assumption; try reflexivity;
    rewrite (proj1 Kx), Nat.eqb_refl, E; exists c'; split; [reflexivity|exact V].
  all: destruct (C96_matmul (flipT x) (flipT x) c n n n) as [c' [E [_ [V _]]]]; try assumption; try reflexivity;
    rewrite (proj1 Kf), Nat.eqb_refl, E; exists c'; split; [reflexivity|];
    intros i j Hi Hj; rewrite (V i j Hi Hj); apply sum_ext; intros l Hl; rewrite !(at2_flip _ _ _ _ _ Kx); reflexivity.
Qed.
End Props.
Print Assumptions C96_matmul.
Print Assumptions C96_matvec.
Print Assumptions C96_outer_rows.
Print Assumptions C96_outer_columns_adds.
Print Assumptions C96_other_types.
Print Assumptions C96_outer_leaves_a_column.
Print Assumptions C96_refused.
Print Assumptions C96_operator.
Print Assumptions C96_same_operand_transposed_twice.

(** ** Where the layout is another one *)
Definition ofList (l : list Z) : nat -> Z := fun p => nth p l 0%Z.
Definition tm (s : list nat) (cm tr : bool) (st : list nat) (l : list Z) : dten Z := DT s cm tr true C64 st (ofList l).
(** The claim for any layout of the result, for views with other strides, and for the
    transposed product of a tensor with itself. *)
Definition rightProduct (a b c : dten Z) (m k n : nat) : Prop :=
  exists c', matMulEngine a b c = Ok c' /\ forall i j, i < m -> j < n -> at2 c' i j = sum k (fun l => rmul (at2 a i l) (at2 b l j)).
Definition colA := tm [2; 2] true false [1; 2] [1; 2; 3; 4]%Z.
Definition rowC := tm [2; 2] false false [2; 1] [0; 0; 0; 0]%Z.
Definition viewA := tm [2; 2] false false [3; 1] [1; 2; 3; 4; 5; 6]%Z.
Definition rowB := tm [2; 2] false false [2; 1] [1; 2; 3; 4]%Z.
(** Operands stored by columns, the result by rows: the transposed product. *)
Theorem C96_result_order_refuted : ~ (forall a b c m k n, onDevice a b c -> stored a m k -> stored b k n -> stored c m n ->
  transposed c = false -> 1 <= m -> 1 <= k -> 1 <= n -> colMajor b = colMajor a -> rightProduct a b c m k n).
Proof.
  intro H. destruct (H colA colA rowC 2 2 2) as [c' [E V]]; try reflexivity; try lia; try (split; reflexivity).
  { repeat split. discriminate. }
  specialize (V 0 1). injection E as <-. assert (W := V ltac:(lia) ltac:(lia)). vm_compute in W. discriminate W.
Qed.
(** A matrix that is a view of a wider one. *)
Theorem C96_views_refuted : ~ (forall a b c m k n, onDevice a b c -> dshape a = [m; k] -> stored b k n -> stored c m n ->
  transposed c = false -> 1 <= m -> 1 <= k -> 1 <= n -> colMajor a = false -> colMajor b = false -> colMajor c = false -> rightProduct a b c m k n).
Proof.
  intro H. destruct (H viewA rowB rowC 2 2 2) as [c' [E V]]; try reflexivity; try lia; try (split; reflexivity).
  { repeat split. discriminate. }
  specialize (V 1 0). injection E as <-. assert (W := V ltac:(lia) ltac:(lia)). vm_compute in W. discriminate W.
Qed.
(** A vector taken from a column of a matrix: the step is not passed on. *)
Theorem C96_strided_vectors_refuted : ~ (forall (a b c : dten Z) m n, onDevice a b c -> stored a m n -> dshape b = [n] -> storedVec c m ->
  1 <= m -> 1 <= n -> exists c', matVecEngine a b c = Ok c' /\ forall i, i < m -> at1 c' i = sum n (fun l => rmul (at2 a i l) (at1 b l))).
Proof.
  intro H. destruct (H rowB (tm [2] false false [2] [1; 2; 3]%Z) (tm [2] false false [1] [0; 0]%Z) 2 2) as [c' [E V]]; try reflexivity; try lia; try (split; reflexivity).
  { repeat split. discriminate. } { repeat split. }
  specialize (V 0). injection E as <-. assert (W := V ltac:(lia)). vm_compute in W. discriminate W.
Qed.
Print Assumptions C96_result_order_refuted.
Print Assumptions C96_views_refuted.
Print Assumptions C96_strided_vectors_refuted.

(** ** Cases *)
Definition show2 (r : res (dten Z)) (m n : nat) : list (list Z) :=
  match r with Ok t => map (fun i => map (fun j => at2 t i j) (seq 0 n)) (seq 0 m) | _ => [] end.
(** [[1 2 3]; [4 5 6]] stored transposed, times a 3×2 matrix. *)
Definition exA := tm [2; 3] false true [1; 2] [1; 4; 2; 5; 3; 6]%Z.
Definition exB := tm [3; 2] false false [2; 1] [1; 0; 0; 1; 1; 1]%Z.
Example C96_case_matmul : onDevice exA exB rowC /\ stored exA 2 3 /\ stored exB 3 2 /\ stored rowC 2 2 /\
  show2 (matMulEngine exA exB rowC) 2 2 = [[4; 5]; [10; 11]]%Z.
Proof. repeat split; try discriminate. Qed.
Example C96_case_operator : stored (tm [3; 2] false false [2; 1] [1; 4; 2; 5; 3; 6]%Z) 3 2 /\
  show2 (fst (fst (cudaMatMul true false (tm [3; 2] false false [2; 1] [1; 4; 2; 5; 3; 6]%Z) exB rowC))) 2 2 = [[4; 5]; [10; 11]]%Z.
Proof. repeat split. Qed.
Example C96_case_matvec : storedVec (tm [3] false false [1] [1; 0; 2]%Z) 3 /\
  match matVecEngine exA (tm [3] false false [1] [1; 0; 2]%Z) (tm [2] false false [1] [9; 9]%Z) with Ok t => map (at1 t) [0; 1] | _ => [] end = [7; 16]%Z.
Proof. repeat split. Qed.
Definition vx := tm [2] false false [1] [2; 3]%Z.
Definition vy := tm [3] false false [1] [1; 5; 7]%Z.
Example C96_case_outer : show2 (fst (fst (outerEngine vx vy (tm [2; 3] false false [3; 1] [8; 8; 8; 8; 8; 8]%Z)))) 2 3 = [[2; 10; 14]; [3; 15; 21]]%Z /\
  show2 (fst (fst (outerEngine vx vy (tm [2; 3] true false [1; 2] [8; 8; 8; 8; 8; 8]%Z)))) 2 3 = [[10; 18; 22]; [11; 23; 29]]%Z.
Proof. split; vm_compute; reflexivity. Qed.
Example C96_case_column_left : dshape (snd (fst (outerEngine vx exB rowC))) = [2; 1] /\ fst (fst (outerEngine vx exB rowC)) = Err.
Proof. split; reflexivity. Qed.
Example C96_case_types : outerEngine (DT [1] true false true COther [1] (ofList [3%Z])) (DT [1] true false true COther [1] (ofList [3%Z])) (DT [1; 1] true false true COther [1; 1] (ofList [0%Z]))
  = (Ok (DT [1; 1] true false true COther [1; 1] (ofList [0%Z])), DT [1] true false true COther [1] (ofList [3%Z]), DT [1] true false true COther [1] (ofList [3%Z])).
Proof. reflexivity. Qed.
Example C96_case_same : show2 (fst (cudaMatMulSame true false rowB rowC)) 2 2 = [[7; 15]; [10; 22]]%Z.
Proof. vm_compute. reflexivity. Qed.
