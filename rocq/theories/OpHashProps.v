(** C02: operators whose parameters are left out of the hash. *)
From Coq Require Import Arith ZArith Reals Lra List Bool String Lia.
From Verif Require Import Sums LoopModel GraphModel GraphSpec GraphHistory GraphProps ConvModel PoolModel PoolProps DropoutModel DropoutProps
  SparsemaxModel SparsemaxSpec SparsemaxProofs ConvProofs CtcModel CtcSpec CtcProps CtcDeriv OpHashModel OpHashSpec OpHashProofs.
Import ListNotations.
Open Scope nat_scope.

(** What two operators must agree in to write the same bytes. *)
Theorem C02_what_the_hash_sees : forall a b, writeHash a = writeHash b <-> seenOf a = seenOf b.
Proof. exact writeHash_iff. Qed.
Print Assumptions C02_what_the_hash_sees.

(** Whatever the hash function, operators that agree in this are given one node: the
    second application returns the node of the first and the graph stays as it is. *)
Theorem C02_merged : forall H fmtTS g a b na nb sa sb t sh cs g1 m g2,
  built H fmtTS g -> Forall (fun c => In c (all g)) cs -> seenOf a = seenOf b ->
  newUniqueNode H fmtTS g (mkLabel KOp na t sh (writeHash a) sa) cs = Some (g1, m) ->
  reaches H fmtTS g1 g2 -> constantsUncollided g2 ->
  exists g3, newUniqueNode H fmtTS g2 (mkLabel KOp nb t sh (writeHash b) sb) cs = Some (g3, m) /\ all g3 = all g2.
Proof.
  intros H fmtTS g a b na nb sa sb t sh cs g1 m g2 B Ic S E R U.
  eapply repeat_same with (l1 := mkLabel KOp na t sh (writeHash a) sa); eauto using built_full; cbn [lkind]; try congruence.
  repeat split; try reflexivity. cbn [lkind lop]. right. repeat split; try congruence. apply writeHash_iff, S.
Qed.
Print Assumptions C02_merged.

(** And nothing else is merged while the hash function does not collide. *)
Theorem C02_told_apart : forall H fmtTS g a b na nb sa sb t sh t' sh' cs cs' g1 m g2 g3 m',
  built H fmtTS g -> Forall (fun c => In c (all g)) cs ->
  newUniqueNode H fmtTS g (mkLabel KOp na t sh (writeHash a) sa) cs = Some (g1, m) ->
  reaches H fmtTS g1 g2 -> constantsUncollided g2 -> Forall (fun c => In c (all g2)) cs' ->
  newUniqueNode H fmtTS g2 (mkLabel KOp nb t' sh' (writeHash b) sb) cs' = Some (g3, m') ->
  noCollision H fmtTS g3 ->
  (m = m' <-> seenOf a = seenOf b /\ t = t' /\ sh = sh' /\ cs = cs').
Proof.
  intros H fmtTS g a b na nb sa sb t sh t' sh' cs cs' g1 m g2 g3 m' B I1 E1 R U I2 E2 NC.
  rewrite (C01_same_node_iff H fmtTS g (mkLabel KOp na t sh (writeHash a) sa) cs g1 m g2 (mkLabel KOp nb t' sh' (writeHash b) sb) cs' g3 m' B
             ltac:(discriminate) ltac:(discriminate) ltac:(discriminate) ltac:(discriminate) I1 E1 R U I2 E2 NC).
  unfold sameLabel. cbn [lkind lop ltyp lshape lname]. rewrite <- writeHash_iff. split.
  - intros [[-> [-> [[C _]|[_ [_ S]]]]] ->]; [discriminate C|auto].
  - intros [S [-> [-> ->]]]. repeat split. right. repeat split; try discriminate. exact S.
Qed.
Print Assumptions C02_told_apart.

(** ** Merged operators that compute different things *)

(** SoftMax and LogSoftMax differ in every entry of every vector. *)
Theorem C02_softmax_refuted : forall axis n a i, i < n ->
  seenOf (Softmax axis true) = seenOf (Softmax axis false) /\ softmaxVec true n a i <> softmaxVec false n a i.
Proof.
  intros axis n a i Hi. split; [reflexivity|]. unfold softmaxVec.
  change (exp (a i) / fold_right Rplus 0 (map (fun j => exp (a j)) (seq 0 n)))%R with (softmaxAt n a i).
  assert (P := softmax_pos n a i ltac:(lia)). assert (S := softmax_sum n a ltac:(lia)).
  assert (Le : (softmaxAt n a i <= 1)%R).
  { rewrite <- S. assert (In i (seq 0 n)) by (apply in_seq; lia).
    assert (G : forall l, In i l -> (softmaxAt n a i <= total (softmaxAt n a) l)%R).
    { induction l as [|x l IH]; [intros []|]. intro Hin. unfold total. cbn [map fold_right]. fold (total (softmaxAt n a) l).
      assert (0 <= total (softmaxAt n a) l)%R.
      { apply CtcPaths.total_nonneg. intros. apply Rlt_le, softmax_pos. lia. }
      destruct Hin as [->|Hin]; [lra|]. assert (Q := softmax_pos n a x ltac:(lia)). specialize (IH Hin). lra. }
    apply G, H. }
  assert (ln (softmaxAt n a i) <= 0)%R.
  { rewrite <- ln_1. destruct (Rle_lt_or_eq_dec _ _ Le) as [L|E]; [apply Rlt_le, ln_increasing; assumption|rewrite E; lra]. }
  lra.
Qed.
Print Assumptions C02_softmax_refuted.

(** Sparsemax along the first and along the last axis. *)
Theorem C02_sparsemax_refuted : exists low data out out',
  seenOf (Sparsemax (-1)) = seenOf (Sparsemax 0) /\
  sparsemaxData low 2 2 data = Some out /\ sparsemaxAxis0 low 2 2 data = Some out' /\ out <> out'.
Proof.
  exists 0%R, [5; 9; 0; 0]%R. eexists. eexists. split; [reflexivity|].
  split; [apply sparsemaxData_ok; reflexivity|]. split; [apply sparsemaxData_ok; reflexivity|].
  cbn [flat_map seq transposeData map nth app Nat.mul Nat.add]. unfold chunk. cbn [firstn skipn Nat.mul Nat.add].
  rewrite (sparsemaxRow_eq 0%R [5; 9]%R 8%R), (sparsemaxRow_eq 0%R [0; 0]%R (-1/2)%R), (sparsemaxRow_eq 0%R [5; 0]%R 4%R), (sparsemaxRow_eq 0%R [9; 0]%R 8%R); try discriminate;
    cbn [map SparsemaxSpec.total app nth]; unfold clip, gtR; repeat destruct (Rlt_dec _ _); try lra.
  intro E. injection E. intros. lra.
Qed.
Print Assumptions C02_sparsemax_refuted.

(** Dropout with any two different probabilities. *)
Theorem C02_dropout_refuted : forall p q x, (0 <= p < 1)%R -> (0 <= q < 1)%R -> p <> q -> x <> 0%R ->
  let a := {| probability := p; isTraining := true |} in
  let b := {| probability := q; isTraining := true |} in
  seenOf (Dropout a) = seenOf (Dropout b) /\
  dropoutDo a (fun _ => 0%R) [x] <> dropoutDo b (fun _ => 0%R) [x].
Proof.
  intros p q x Hp Hq D Nx a b. split; [reflexivity|].
  assert (V : forall r, (0 <= r < 1)%R -> dropoutDo {| probability := r; isTraining := true |} (fun _ => 0%R) [x] = Some [(x / (1 - r))%R]).
  { intros r Hr. destruct (Req_EM_T r 0) as [->|N].
    - rewrite C27_identity by (right; reflexivity). do 2 f_equal. field.
    - destruct (C27_total {| probability := r; isTraining := true |} (fun _ => 0%R) [x]) as [out E].
      destruct (C27_output {| probability := r; isTraining := true |} (fun _ => 0%R) [x] out 0 eq_refl N E ltac:(cbn; lia)) as [Ln [K _]]. rewrite E. f_equal.
      destruct out as [|o [|? ?]]; cbn [List.length] in Ln; try lia. cbn [nth probability] in K. rewrite K by lra. reflexivity. }
  unfold a, b. rewrite !V by assumption. intro E. injection E as E.
  apply D. assert (X : (x * (1 - q) = x * (1 - p))%R).
  { replace (x * (1 - q))%R with (x / (1 - p) * ((1 - p) * (1 - q)))%R by (field; lra). rewrite E. field. lra. }
  apply Rmult_eq_reg_l in X; [lra|exact Nx].
Qed.
Print Assumptions C02_dropout_refuted.

(** Im2Col with different dilations: same output shape, different pixels. *)
Theorem C02_im2col_refuted :
  let a := {| kh := 2; kw := 1; ConvModel.padH := 0; ConvModel.padW := 0; strideH := 2; strideW := 1; dilationH := 1; dilationW := 1 |} in
  let b := {| kh := 2; kw := 1; ConvModel.padH := 0; ConvModel.padW := 0; strideH := 2; strideW := 1; dilationH := 2; dilationW := 1 |} in
  im2colOk a = true /\ im2colOk b = true /\
  seenOf (Im2Col a) = seenOf (Im2Col b) /\ retH a 5 = retH b 5 /\ retW a 1 = retW b 1 /\
  im2colDo a 1 1 5 1 [10; 11; 12; 13; 14]%Z (repeat 0%Z 4) = Some [10; 11; 12; 13]%Z /\
  im2colDo b 1 1 5 1 [10; 11; 12; 13; 14]%Z (repeat 0%Z 4) = Some [10; 12; 12; 14]%Z.
Proof. repeat split; vm_compute; reflexivity. Qed.
Print Assumptions C02_im2col_refuted.

(** Max pooling with different bottom paddings. *)
Theorem C02_maxpool_refuted : exists a b,
  newPoolOp 2 1 [0; 0; 0; 0] 2 1 = Some a /\ newPoolOp 2 1 [0; 1; 0; 0] 2 1 = Some b /\
  seenOf (MaxPool 1 1 4 1 a) = seenOf (MaxPool 1 1 4 1 b) /\
  poolOk a 4 1 = true /\ poolOk b 4 1 = true /\ pooledH a 4 = pooledH b 4 /\ pooledW a 1 = pooledW b 1 /\
  option_map fst (maxPoolDo Z zgt (-100)%Z a 1 4 1 [1; 2; 3; 4]%Z) = Some [2; 4]%Z /\
  option_map fst (maxPoolDo Z zgt (-100)%Z b 1 4 1 [1; 2; 3; 4]%Z) = Some [1; 3]%Z.
Proof. eexists. eexists. repeat split; vm_compute; reflexivity. Qed.
Print Assumptions C02_maxpool_refuted.

(** The CTC loss with mean and with sum reduction. *)
Theorem C02_ctc_refuted :
  seenOf (CTCLoss ReductionMean) = seenOf (CTCLoss ReductionSum) /\
  exists data x y sx sy,
    ctcForward ReductionMean 2 1 3 data Vec [1; 2] [2] [2] = Some (Fin x, sx, sy) /\
    ctcForward ReductionSum 2 1 3 data Vec [1; 2] [2] [2] = Some (Fin y, sx, sy) /\ x <> y.
Proof.
  split; [reflexivity|].
  set (p := fun _ _ _ : nat => (/ 3)%R).
  assert (Hp : forall t b c, (0 <= p t b c)%R) by (intros; unfold p; lra).
  assert (A : forall red, exists al nl, ctcForward red 2 1 3 (logTensor 2 1 3 p) Vec [1; 2] [2] [2] =
     Some (Fin (reduced red 1 (fun _ => - ln (/ 3 * / 3))%R (fun _ => 2)), al, nl)).
  { intro red.
    destruct (C29_loss_is_the_negated_log_likelihood red 2 1 3 p Vec [[1; 2]] [1; 2] [2] ltac:(lia) eq_refl eq_refl Hp)
      as [loss [al [nl [E [Fi _]]]]].
    - repeat constructor; try lia. discriminate.
    - repeat constructor.
    - reflexivity.
    - cbv zeta in Fi.
      assert (Lik : likelihood (fun t c => p t 0 c) 3 2 [1; 2] = (/ 3 * / 3)%R) by (unfold likelihood, CtcSpec.total, p; cbn; lra).
      exists al, nl. change (map (@List.length nat) [[1; 2]]) with [2] in E. rewrite E. rewrite Fi.
      + do 3 f_equal. unfold reduced, CtcSpec.total. cbn [seq map fold_right nth List.length]. rewrite Lik. reflexivity.
      + intros b Hb. assert (b = 0) by lia. subst b. cbn [nth]. rewrite Lik. lra. }
  destruct (A ReductionMean) as [al [nl E]]. destruct (A ReductionSum) as [al' [nl' E']].
  assert (Same : al = al' /\ nl = nl').
  { clear A. unfold ctcForward in E, E'.
    destruct (existsb _ _); [discriminate E|].
    match type of E with match ?c with Some _ => _ | None => None end = _ => destruct c as [[a0 n0]|]; [|discriminate E] end.
    match type of E with match ?c with Some _ => _ | None => None end = _ => destruct c; [|discriminate E] end.
    match type of E' with match ?c with Some _ => _ | None => None end = _ => destruct c; [|discriminate E'] end.
    split; congruence. }
  destruct Same as [<- <-].
  exists (logTensor 2 1 3 p). do 2 eexists. exists al, nl. split; [exact E|]. split; [exact E'|].
  unfold reduced, CtcSpec.total. cbn [seq map fold_right INR].
  assert (ln (/ 3 * / 3) < 0)%R by (rewrite <- ln_1; apply ln_increasing; lra).
  intro Eq. apply (f_equal (fun v => v * 2))%R in Eq. field_simplify in Eq. lra.
Qed.
Print Assumptions C02_ctc_refuted.

(** Slices moved on by a multiple of 256. *)
Theorem C02_slice_refuted : forall d along start stop step k, start < stop -> 0 < k ->
  let s := {| sStart := start; sEnd := stop; sStep := step |} in
  let s' := {| sStart := start + 256 * k; sEnd := stop + 256 * k; sStep := step |} in
  seenOf (Slice d along s) = seenOf (Slice d along s') /\ slicedLen s = slicedLen s' /\
  sliceVec s (seq 0 (stop + 256 * k)) 0 <> sliceVec s' (seq 0 (stop + 256 * k)) 0.
Proof.
  intros d along start stop step k L K s s'.
  assert (M : forall n, (n + 256 * k) mod 256 = n mod 256) by (intro n; rewrite (Nat.mul_comm 256 k); apply Nat.mod_add; lia).
  assert (Q : slicedLen s' = slicedLen s).
  { unfold slicedLen, s, s'. cbn [sStart sEnd sStep]. replace (stop + 256 * k - (start + 256 * k)) with (stop - start) by lia. reflexivity. }
  split; [unfold seenOf, s, s'; cbn [sStart sEnd sStep]; rewrite !M; reflexivity|]. split; [symmetry; exact Q|].
  unfold sliceVec. rewrite Q. assert (P : 0 < slicedLen s).
  { unfold slicedLen, s. cbn [sStart sEnd sStep]. destruct (Nat.leb_spec step 1); [lia|]. apply Nat.div_str_pos. lia. }
  destruct (slicedLen s) as [|n]; [lia|]. cbn [seq map]. intro E. injection E as E _.
  unfold s, s' in E. cbn [sStart sStep Nat.mul] in E. rewrite !Nat.add_0_r in E.
  rewrite !seq_nth in E by lia. lia.
Qed.
Print Assumptions C02_slice_refuted.

(** What a slice selects: the elements at start, start + step, ... below end, none else (a step
    of 0 counts as 1). *)
Theorem C02_slice_selects : forall start stop step i,
  let s := {| sStart := start; sEnd := stop; sStep := step |} in
  i < List.length (sliceVec s (seq 0 stop) 0) <-> start + i * Nat.max 1 step < stop.
Proof.
  intros start stop step i s. unfold sliceVec. rewrite map_length, seq_length. unfold slicedLen, s. cbn [sStart sEnd sStep].
  destruct (Nat.leb_spec step 1) as [L|L].
  - replace (Nat.max 1 step) with 1 by lia. lia.
  - replace (Nat.max 1 step) with step by lia.
    pose proof (Nat.div_mod (stop - start + step - 1) step ltac:(lia)) as D.
    pose proof (Nat.mod_upper_bound (stop - start + step - 1) step ltac:(lia)) as M.
    set (q := (stop - start + step - 1) / step) in *. set (r := (stop - start + step - 1) mod step) in *. split; intro H.
    + assert (i * step + step <= step * q) by nia. lia.
    + apply Nat.nle_gt. intro C. assert (step * q <= i * step) by nia. lia.
Qed.
Print Assumptions C02_slice_selects.
Example C02_slice_ex : sliceVec {| sStart := 1; sEnd := 9; sStep := 4 |} [10; 11; 12; 13; 14; 15; 16; 17; 18] 0 = [11; 15].
Proof. reflexivity. Qed.

(** A vector, its SoftMax and then its LogSoftMax, with some hash function: one node. *)
Example C02_merged_ex : forall H fmtTS t sh g0 x g1 m,
  newUniqueNode H fmtTS (emptyGraph []) (mkLabel KInput "x" t sh "" false) [] = Some (g0, x) ->
  newUniqueNode H fmtTS g0 (mkLabel KOp "" t sh (writeHash (Softmax (-1) false)) false) [x] = Some (g1, m) ->
  constantsUncollided g1 ->
  exists g2, newUniqueNode H fmtTS g1 (mkLabel KOp "" t sh (writeHash (Softmax (-1) true)) false) [x] = Some (g2, m).
Proof.
  intros H fmtTS t sh g0 x g1 m E0 E1 U.
  assert (Bd : built H fmtTS g0).
  { eapply (reaches_step H fmtTS (emptyGraph []) (emptyGraph []) (UNew (mkLabel KInput "x" t sh "" false) []));
      [constructor|split; [constructor|reflexivity]|]. cbn [useStep]. rewrite E0. reflexivity. }
  destruct (C01_never_panics H fmtTS (emptyGraph []) (mkLabel KInput "x" t sh "" false) [] ltac:(constructor)
              ltac:(split; [constructor|reflexivity])) as [g' [m' [E Hin]]].
  rewrite E0 in E. injection E as <- <-.
  destruct (C02_merged H fmtTS g0 (Softmax (-1) false) (Softmax (-1) true) "" "" false false t sh [x] g1 m g1 Bd) as [g2 [E2 _]]; auto.
  - constructor.
  - eauto.
Qed.
