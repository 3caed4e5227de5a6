(** Property theorems C75 and C76. *)
From Coq Require Import Arith Lia List Bool ZArith Ring.
From Verif Require Import Sums MatModel MatSpec MatProofs MatProps BroadcastModel LinAlgModel LinAlgSpec.
Import ListNotations.

(** ** C75 *)
Section C75.
Context {A : Type} {CR : CRing A}.
Add Ring Aring : (@cr_th A CR).
Local Open Scope cr_scope.

(** [Mul] of operands with at most two axes that fit each other gives the product, and the
    node has the shape of the value. *)
Theorem C75_mul : forall a b : lval A, conformal (lshape a) (lshape b) ->
  exists v, mulDo a b = Some v /\ times a b v /\ mulShape (lshape a) (lshape b) = Ok (lshape v).
Proof.
  intros [c|u|m] [d|w|n] C; cbn in C; unfold mulDo; cbn [lshape length mulChoice].
  - eexists. split; [reflexivity|]. split; reflexivity.
  - eexists. split; [reflexivity|]. split; [|reflexivity]. split; reflexivity.
  - eexists. split; [reflexivity|]. split; [|reflexivity]. split; [split; reflexivity|reflexivity].
  - eexists. split; [reflexivity|]. split; [|reflexivity]. split; reflexivity.
  - unfold vecDotKernel. rewrite C, Nat.eqb_refl. eexists. split; [reflexivity|]. split; [|reflexivity]. cbn [times lift]. rewrite C. reflexivity.
  - unfold matVecMul, matVecMulKernel. cbn [trIf tr rows cols el]. rewrite <- C, Nat.eqb_refl. eexists. split; [reflexivity|]. split.
    + split; [reflexivity|]. intros j Hj. cbn [vel]. apply sum_ext. intros k _. ring.
    + unfold mulShape, matVecShape. cbn. destruct (Nat.eqb_spec (cols n) (len u)) as [E|E]; cbn; [|rewrite Nat.eqb_refl; reflexivity]. rewrite E. reflexivity.
  - eexists. split; [reflexivity|]. split; [|reflexivity]. split; [split; reflexivity|reflexivity].
  - unfold matVecMul, matVecMulKernel. cbn [trIf tr rows cols el]. rewrite C, Nat.eqb_refl. eexists. split; [reflexivity|]. split.
    + split; [reflexivity|]. intros i Hi. cbn [vel]. reflexivity.
    + unfold mulShape, matVecShape. cbn. destruct (Nat.eqb_spec (rows m) (len w)) as [E|E]; cbn; [|rewrite Nat.eqb_refl; reflexivity]. rewrite E. reflexivity.
  - unfold matMul, matMulKernel. cbn [trIf]. rewrite C, Nat.eqb_refl. eexists. split; [reflexivity|]. split.
    + split; [reflexivity|]. split; [reflexivity|]. intros i j Hi Hj. cbn [el]. rewrite C. reflexivity.
    + unfold mulShape, matMulShape. cbn. rewrite Nat.eqb_refl. reflexivity.
Qed.
(** Running it succeeds for no others ... *)
Theorem C75_run_only : forall a b v : lval A, mulDo a b = Some v -> conformal (lshape a) (lshape b).
Proof.
  intros [c|u|m] [d|w|n] v; cbn; try (intros; exact I); unfold vecDotKernel, matVecMul, matVecMulKernel, matMul, matMulKernel; cbn [trIf tr rows cols].
  - destruct (Nat.eqb_spec (len u) (len w)); [intros; assumption|discriminate].
  - destruct (Nat.eqb_spec (rows n) (len u)); [intros; congruence|discriminate].
  - destruct (Nat.eqb_spec (cols m) (len w)); [intros; assumption|discriminate].
  - destruct (Nat.eqb_spec (cols m) (rows n)); [intros; assumption|discriminate].
Qed.
End C75.
(** ... but building the node is refused only for matrices that do not fit, for a matrix
    and a vector as long as neither axis, and for more than two axes. *)
Theorem C75_refused : forall s t : list nat, s <> [] -> t <> [] ->
  (mulShape s t = Err <->
   match s, t with
   | [_; n], [n'; _] => n <> n'
   | [m; n], [k] | [k], [m; n] => k <> m /\ k <> n
   | [_], [_] => False
   | _, _ => True
   end).
Proof.
  intros s t Hs Ht. destruct s as [|a [|b [|c s]]], t as [|d [|e [|f t]]]; try contradiction; cbn;
    repeat match goal with |- context [Nat.eqb ?p ?q] => destruct (Nat.eqb_spec p q) as [?|?]; cbn end; split; intros; subst; try discriminate; try reflexivity; try tauto; intuition congruence.
Qed.
Theorem C75_mismatch_accepted_refuted : forall m n : nat, m <> n ->
  mulShape [m; n] [m] = Ok [n] /\ mulShape [n] [m; n] = Ok [m] /\ mulShape [m] [n] = Ok [] /\
  forall (A : Type) (CR : CRing A) (a b : lval A), (lshape a, lshape b) = ([m; n], [m]) \/ (lshape a, lshape b) = ([n], [m; n]) \/ (lshape a, lshape b) = ([m], [n]) -> mulDo a b = None.
Proof.
  intros m n H. split; [cbn; rewrite Nat.eqb_refl; reflexivity|]. split; [cbn; rewrite Nat.eqb_refl; reflexivity|]. split; [reflexivity|].
  intros A CR a b K. destruct (mulDo a b) as [v|] eqn:E; [|reflexivity]. apply C75_run_only in E. exfalso. destruct K as [K|[K|K]]; injection K as K1 K2; rewrite K1, K2 in E; cbn in E; congruence.
Qed.
Lemma shapeEqN_refl o : shapeEqN o o = true.
Proof. destruct o as [|x [|y [|z o]]]; apply listEq_true; reflexivity. Qed.
Lemma shapeEqN_spec o o' : shapeEqN o o' = true <-> o = o' \/ exists n, 1 < n /\ ((o, o') = ([n], [n; 1]) \/ (o, o') = ([n], [1; n]) \/ (o, o') = ([n; 1], [n]) \/ (o, o') = ([1; n], [n])).
Proof.
  assert (V : forall z x y, vecEqMat z x y = true <-> 1 < z /\ ((x = z /\ y = 1) \/ (x = 1 /\ y = z))).
  { intros z x y. unfold vecEqMat. rewrite orb_true_iff, !andb_true_iff, !Nat.eqb_eq, !Nat.ltb_lt. lia. }
  assert (D : forall A B : Prop, (B -> A) -> (A <-> A \/ B)) by tauto.
  destruct o as [|x [|y [|z o]]], o' as [|x' [|y' [|z' o']]]; cbn [shapeEqN]; try (rewrite listEq_true; apply D; intros [n [_ [K|[K|[K|K]]]]]; discriminate K).
  - rewrite V. split; [intros [H K]; right; exists x; split; [exact H|]; destruct K as [[-> ->]|[-> ->]]; auto|]. intros [K|[n [Hn [K|[K|[K|K]]]]]]; try discriminate K; injection K as -> -> ->; lia.
  - rewrite V. split; [intros [H K]; right; exists x'; split; [exact H|]; destruct K as [[-> ->]|[-> ->]]; auto|]. intros [K|[n [Hn [K|[K|[K|K]]]]]]; try discriminate K; injection K as -> -> ->; lia.
Qed.
(** BatchedMatMul checks the outer axes only (and takes a vector of them for a column or a
    row of the same length); with inner sizes that do not fit the node is
    made and running it fails. *)
Theorem C75_batched : forall (ta tb : bool) o r c r' c',
  batchedShape ta tb (o ++ [r; c]) (o ++ [r'; c']) = Ok (o ++ [if ta then c else r; if tb then r' else c']) /\
  (forall o', batchedShape ta tb (o ++ [r; c]) (o' ++ [r'; c']) = Err <->
     o' <> o /\ forall n, 1 < n -> (o, o') <> ([n], [n; 1]) /\ (o, o') <> ([n], [1; n]) /\ (o, o') <> ([n; 1], [n]) /\ (o, o') <> ([1; n], [n])) /\
  forall (A : Type) (CR : CRing A) fuel c0 (a b : bmat A), positive o -> fold_right Nat.mul 1 o <= fuel -> outer a = o -> outer b = o -> brows a = r -> bcols a = c -> brows b = r' -> bcols b = c' ->
    ((exists z, batchedMatMul fuel ta tb c0 a b = Some z) <-> (if ta then r else c) = (if tb then c' else r')).
Proof.
  intros ta tb o r c r' c'. assert (EN : forall q, length (o ++ q) - length q = length o) by (intro q; rewrite app_length; lia).
  assert (F : forall (o q : list nat), length q = 2 -> firstn (length (o ++ q) - 2) (o ++ q) = o /\ skipn (length (o ++ q) - 2) (o ++ q) = q).
  { clear. intros o q H. rewrite app_length, H. replace (length o + 2 - 2) with (length o) by lia. rewrite firstn_app, skipn_app, Nat.sub_diag, firstn_all, skipn_all. cbn. rewrite app_nil_r. auto. }
  assert (LT2 : forall k, (k + 2 <? 2) = false) by (intro; apply Nat.ltb_ge; lia).
  assert (EQ0 : forall k, (k + 2 =? 0) = false) by (intro; apply Nat.eqb_neq; lia).
  split; [|split].
  - unfold batchedShape, batchedInfer. destruct (F o [r; c] eq_refl) as [-> ->], (F o [r'; c'] eq_refl) as [-> ->]. rewrite !app_length. cbn [length]. rewrite !LT2, !EQ0. cbn [Bool.eqb negb orb]. rewrite (shapeEqN_refl o). destruct ta, tb; reflexivity.
  - intros o'. unfold batchedShape, batchedInfer. destruct (F o [r; c] eq_refl) as [-> ->], (F o' [r'; c'] eq_refl) as [-> ->]. rewrite !app_length. cbn [length]. rewrite !LT2, !EQ0. cbn [Bool.eqb negb orb].
    pose proof (shapeEqN_spec o o') as SP. destruct (shapeEqN o o') eqn:E; cbn [negb].
    + split; [destruct ta, tb; discriminate|]. intros [N1 N2]. exfalso. destruct (proj1 SP eq_refl) as [E'|[n [Hn E']]]; [congruence|]. destruct (N2 n Hn) as (P1 & P2 & P3 & P4). tauto.
    + split; [intros _|reflexivity]. split; [intros ->; rewrite shapeEqN_refl in E; discriminate|]. intros n Hn. repeat split; intro X; assert (K : false = true) by (apply SP; right; exists n; tauto); discriminate.
  - intros A CR fuel c0 a b HP HF Oa Ob Ra Ca Rb Cb. split.
    + intros [z Hz]. unfold batchedMatMul in Hz. rewrite (batchVisit_ok fuel (outer a)) in Hz by (rewrite Oa; assumption). destruct (zeros_shape_nonempty _ HP) as [i0 Hi0]. apply tuples_in in Hi0. rewrite <- Oa in Hi0. destruct (tuples (outer a)) as [|i1 l]; [contradiction|]. cbn [fold_left] in Hz.
      destruct (matMul ta tb (slice a i1) (slice b i1)) as [m1|] eqn:E.
      * apply matMul_product in E. destruct E as [E _]. unfold op_cols, op_rows in E. cbn [slice rows cols] in E. destruct ta, tb; congruence.
      * exfalso. assert (K : forall l, fold_left (fun (acc : option (list nat -> nat -> nat -> A)) ix => match acc with Some c1 => match matMul ta tb (slice a ix) (slice b ix) with Some m => Some (setSlice c1 ix m) | None => None end | None => None end) l None = None) by (induction l0; [reflexivity|assumption]). rewrite K in Hz. discriminate.
    + intro H. destruct (batched_ok fuel ta tb c0 a b) as [z [Hz _]]; [rewrite Oa; exact HP|rewrite Oa; exact HF|congruence| |exists z; exact Hz].
      unfold op_cols, op_rows. cbn [slice rows cols]. destruct ta, tb; congruence.
Qed.
(** If both operands of a matrix product with a transposition are one tensor, both are
    transposed, or none: [Backprop] with the second factor handed in as the gradient of the
    product asks for y * y^T that way. *)
Theorem C75_same_operand_refuted :
  (forall (A : Type) (CR : CRing A) (ta tb : bool) (x : mat A), matMulSame ta tb x = matMul (xorb ta tb) (xorb ta tb) x x) /\
  (forall (A : Type) (CR : CRing A) (y : mat A), rows y <> cols y -> matMulSame false true y = None /\ exists z, is_product false true y y z) /\
  exists (y z z' : mat Z), rows y = 2 /\ cols y = 2 /\ fst (matMulDiffExpr false false y y y) = Some z /\ is_product false true y y z /\ matMulSame false true y = Some z' /\ el z' 0 0 <> el z 0 0.
Proof.
  split; [|split].
  - intros A CR [] [] x; reflexivity.
  - intros A CR y H. split.
    + unfold matMulSame, matMulKernel. cbn [trIf tr rows cols]. apply not_eq_sym in H. destruct (Nat.eqb_spec (rows y) (cols y)); [congruence|reflexivity].
    + destruct (matMul_some false true y y) as [z [_ Hz]]; [reflexivity|]. exists z. exact Hz.
  - set (y := {| rows := 2; cols := 2; el := fun i j => Z.of_nat (1 + 2 * i + j) |}). exists y. destruct (matMul_some false true y y eq_refl) as [z [E1 E2]]. exists z.
    eexists. split; [reflexivity|]. split; [reflexivity|]. split; [exact E1|]. split; [exact E2|]. split; [reflexivity|]. injection E1 as <-. vm_compute. discriminate.
Qed.
(** Div panics unless an operand is a scalar or the shapes are equal. *)
Theorem C75_div : forall s t equal, divChoice s t equal = Panic <-> s <> [] /\ t <> [] /\ equal = false.
Proof. intros [|a s] [|b t] []; cbn; split; try discriminate; try (intros [? [? ?]]; congruence); repeat split; discriminate. Qed.

(** ** C76 *)
Section C76.
Context {A : Type} {CR : CRing A}.
Add Ring Aring2 : (@cr_th A CR).
Local Open Scope cr_scope.

Lemma incrM_ok (d m : mat A) : same_size m d -> incrM d (Some m) = Some (addMat d m).
Proof. intros [H1 H2]. unfold incrM. rewrite H1, H2, !Nat.eqb_refl. reflexivity. Qed.
Lemma incrV_ok (d v : vec A) : len v = len d -> incrV d (Some v) = Some {| len := len d; vel := fun i => vel d i + vel v i |}.
Proof. intro H. unfold incrV. rewrite H, Nat.eqb_refl. reflexivity. Qed.
Lemma twiceM (val der : nat -> mat A) x y px py gx gy : px = Some gx -> py = Some gy -> same_size gx (der x) -> same_size gy (der y) ->
  exists der', twice der x y (fun d => incrM d px) (fun d => incrM d py) = Some der' /\ raisedM der der' x y gx gy.
Proof.
  intros -> -> Sx Sy. unfold twice. rewrite incrM_ok by exact Sx. unfold upd at 1. destruct (Nat.eqb_spec y x) as [->|N].
  - rewrite incrM_ok; [|destruct Sy; split; assumption]. eexists. split; [reflexivity|]. intro n. unfold upd. destruct (Nat.eqb_spec n x) as [->|]; (split; [split; reflexivity|]); intros i j _ _; cbn [addMat el]; ring.
  - rewrite incrM_ok by exact Sy. eexists. split; [reflexivity|]. intro n. unfold upd. destruct (Nat.eqb_spec n y) as [->|]; [replace (Nat.eqb y x) with false by (symmetry; apply Nat.eqb_neq; exact N)|destruct (Nat.eqb_spec n x) as [->|]]; (split; [split; reflexivity|]); intros i j _ _; cbn [addMat el]; ring.
Qed.
(** The automatic rules add to the stored derivatives what the symbolic rules (C16) give,
    also if both operands are the same node. *)
Theorem C76_matmul : forall (ta tb : bool) (val der : nat -> mat A) x y zd gx gy,
  matMulDiffExpr ta tb (val x) (val y) zd = (Some gx, Some gy) -> same_size gx (val x) -> same_size gy (val y) ->
  same_size (der x) (val x) -> same_size (der y) (val y) ->
  exists der', matMulDiffN ta tb val der x y zd = Some der' /\ raisedM der der' x y gx gy.
Proof.
  intros ta tb val der x y zd gx gy E [S1 S2] [S3 S4] [S5 S6] [S7 S8].
  destruct ta, tb; cbn [matMulDiffExpr] in E; injection E as E1 E2; cbn [matMulDiffN]; apply twiceM; try assumption; split; congruence.
Qed.
Theorem C76_vecdot : forall (val der : nat -> vec A) x y zd, len (val x) = len (val y) -> len (der x) = len (val x) -> len (der y) = len (val y) ->
  exists der', vecDotDiffN val der x y zd = Some der' /\ raisedV der der' x y (fst (vecDotDiffExpr (val x) (val y) zd)) (snd (vecDotDiffExpr (val x) (val y) zd)).
Proof.
  intros val der x y zd L Lx Ly. unfold vecDotDiffN, twice. rewrite incrV_ok by (cbn [scaleVec len]; congruence). unfold upd at 1. destruct (Nat.eqb_spec y x) as [->|N].
  - rewrite incrV_ok by (cbn [scaleVec len]; congruence). eexists. split; [reflexivity|]. intro n. unfold upd. destruct (Nat.eqb_spec n x) as [->|]; (split; [reflexivity|]); intros i _; cbn [vecDotDiffExpr fst snd scaleVec vel]; ring.
  - rewrite incrV_ok by (cbn [scaleVec len]; congruence). eexists. split; [reflexivity|]. intro n. unfold upd. destruct (Nat.eqb_spec n y) as [->|]; [replace (Nat.eqb y x) with false by (symmetry; apply Nat.eqb_neq; exact N)|destruct (Nat.eqb_spec n x) as [->|]]; (split; [reflexivity|]); intros i _; cbn [vecDotDiffExpr fst snd scaleVec vel]; ring.
Qed.
Theorem C76_matvec : forall (ta : bool) (x xd : mat A) (y yd zd gy : vec A),
  let gx := fst (matVecMulDiffExpr ta x y zd) in
  snd (matVecMulDiffExpr ta x y zd) = Some gy -> same_size gx x -> len gy = len y -> same_size xd x -> len yd = len y ->
  exists xd' yd', matVecMulDiff ta x xd y yd zd = Some (xd', yd') /\ same_size xd' x /\ len yd' = len y /\
    (forall i j, el xd' i j = el xd i j + el gx i j) /\ forall i, vel yd' i = vel yd i + vel gy i.
Proof.
  intros ta x xd y yd zd gy gx E [S1 S2] L [S3 S4] Ly. unfold matVecMulDiff. cbn [matVecMulDiffExpr snd] in E. unfold gx in *. cbn [matVecMulDiffExpr fst] in *.
  rewrite incrM_ok by (split; congruence). rewrite E. unfold incrV. rewrite L, Ly, Nat.eqb_refl. eexists. eexists. split; [reflexivity|]. repeat split; cbn [addMat rows cols len]; first [congruence|reflexivity|exact S3|exact S4|exact Ly].
Qed.
(** The automatic rule of the outer product fails for all vectors. *)
Theorem C76_outer_fails : forall (val der : nat -> vec A) x y zd, (1 <= len (val x))%nat -> (1 <= len (val y))%nat -> len (der x) = len (val x) ->
  rows zd = len (val x) -> cols zd = len (val y) -> outerProdDiff val der x y zd = None.
Proof.
  intros val der x y zd Px Py Ld R C. unfold outerProdDiff, twice.
  set (der0 := match mulIncr (der x) (val x) zd with Some d => upd der x d | None => der end).
  assert (L0 : len (der0 x) = len (val x)).
  { unfold der0. destruct (mulIncr (der x) (val x) zd) as [d|] eqn:E; [|exact Ld]. unfold upd. rewrite Nat.eqb_refl. unfold mulIncr in E. destruct (_ && _) in E; [|discriminate]. injection E as <-. exact Ld. }
  unfold mulIncr at 1. rewrite R, C, L0. unfold vecEqMat.
  destruct (Nat.eqb_spec (len (val y)) 1) as [E1|E1], (Nat.ltb_spec 1 (len (val x))) as [E2|E2], (Nat.eqb_spec (len (val x)) (len (val y))) as [E3|E3], (Nat.eqb_spec (len (val x)) 1) as [E4|E4], (Nat.ltb_spec 1 (len (val y))) as [E5|E5], (Nat.eqb_spec (len (val y)) (len (val y))) as [E6|E6]; cbn [andb orb]; try reflexivity; try lia.
  all: destruct (Nat.eqb_spec (len (val x)) (len (val x) * len (val y))); [nia|reflexivity].
Qed.

(** Batched. *)
Lemma bincr fuel ta tb c0 (c a b p : bmat A) : positive (outer a) -> (fold_right Nat.mul 1 (outer a) <= fuel)%nat -> batchedMatMul fuel ta tb c0 a b = Some p -> same_bsize p c ->
  exists c', batchedIncr fuel ta tb c a b = Some c' /\ same_bsize c' c /\
    forall ix i j, in_shape ix (outer c) -> bel c' ix i j = bel c ix i j + bel p ix i j.
Proof.
  intros HP HF E [S1 [S2 S3]]. unfold batchedMatMul in E. unfold batchedIncr. rewrite (batchVisit_ok fuel _ HP HF) in E |- *.
  pose proof (tuples_nodup (outer a)) as ND.
  assert (G : forall ixs e0 c1, NoDup ixs -> fold_left (fun (acc : option (list nat -> nat -> nat -> A)) ix => match acc with Some c1 => match matMul ta tb (slice a ix) (slice b ix) with Some m => Some (setSlice c1 ix m) | None => None end | None => None end) ixs (Some e0) = Some c1 ->
    rows (trIf ta (slice a [])) = brows c -> cols (trIf tb (slice b [])) = bcols c ->
    forall e1, exists e2, fold_left (fun acc ix => match acc with Some e => match incrM {| rows := brows c; cols := bcols c; el := e ix |} (matMul ta tb (slice a ix) (slice b ix)) with Some m => Some (setSlice e ix m) | None => None end | None => None end) ixs (Some e1) = Some e2 /\
      (forall ix, ~ In ix ixs -> c1 ix = e0 ix /\ e2 ix = e1 ix) /\ forall ix i j, In ix ixs -> e2 ix i j = e1 ix i j + c1 ix i j).
  { clear E ND S1 S2 S3 HP HF. induction ixs as [|ix ixs IH]; intros e0 c1 ND E R C e1; cbn [fold_left] in E |- *.
    - injection E as <-. exists e1. split; [reflexivity|]. split; [auto|]. intros ? ? ? [].
    - inversion_clear ND as [|? ? H1 H2]. destruct (matMul ta tb (slice a ix) (slice b ix)) as [m|] eqn:Em.
      2: { exfalso. assert (K : forall l, fold_left (fun (acc : option (list nat -> nat -> nat -> A)) ix => match acc with Some c1 => match matMul ta tb (slice a ix) (slice b ix) with Some m => Some (setSlice c1 ix m) | None => None end | None => None end) l None = None) by (induction l; [reflexivity|assumption]). rewrite K in E. discriminate. }
      assert (Sm : rows m = brows c /\ cols m = bcols c) by (unfold matMul, matMulKernel in Em; destruct (Nat.eqb _ _); [|discriminate]; injection Em as <-; cbn [rows cols]; destruct ta, tb; split; assumption). destruct Sm as [R1 C1].
      rewrite incrM_ok by (split; assumption).
      destruct (IH _ _ H2 E R C (setSlice e1 ix (addMat {| rows := brows c; cols := bcols c; el := e1 ix |} m))) as [e2 [F1 [F2 F3]]]. exists e2. split; [exact F1|]. split.
      + intros ix' Hn. destruct (F2 ix' ltac:(intro; apply Hn; right; assumption)) as [-> ->]. unfold setSlice. destruct (listEq ix' ix) eqn:K; [|auto]. apply listEq_true in K. subst. exfalso. apply Hn. left. reflexivity.
      + intros ix' i j [<-|Hin].
        * destruct (F2 ix H1) as [-> ->]. unfold setSlice. rewrite (proj2 (listEq_true ix ix) eq_refl). reflexivity.
        * rewrite F3 by exact Hin. unfold setSlice. destruct (listEq ix' ix) eqn:K; [|reflexivity]. apply listEq_true in K. subst. contradiction. }
  match type of E with match ?F with _ => _ end = _ => destruct F as [c1|] eqn:EF; [|discriminate] end. injection E as <-. cbn [outer brows bcols] in S1, S2, S3.
  destruct (G _ _ _ ND EF ltac:(destruct ta; exact S2) ltac:(destruct tb; exact S3) (bel c)) as [e2 [F1 [F2 F3]]]. rewrite F1. eexists. split; [reflexivity|]. split; [repeat split; reflexivity|]. intros ix i j Hi. cbn [bel]. apply F3. apply tuples_in. rewrite S1. exact Hi.
Qed.
Lemma twiceB (der : nat -> bmat A) x y fx fy gx gy :
  (forall c, same_bsize c (der x) -> exists c', fx c = Some c' /\ same_bsize c' c /\ forall ix i j, in_shape ix (outer c) -> bel c' ix i j = bel c ix i j + bel gx ix i j) ->
  (forall c, same_bsize c (der y) -> exists c', fy c = Some c' /\ same_bsize c' c /\ forall ix i j, in_shape ix (outer c) -> bel c' ix i j = bel c ix i j + bel gy ix i j) ->
  exists der', twice der x y fx fy = Some der' /\ raisedB der der' x y gx gy.
Proof.
  intros HX HY. unfold twice. destruct (HX (der x) ltac:(repeat split)) as [dx [-> [[X1 [X2 X3]] VX]]]. unfold upd at 1. destruct (Nat.eqb_spec y x) as [->|N].
  - destruct (HY dx ltac:(repeat split; assumption)) as [dy [-> [[Y1 [Y2 Y3]] VY]]]. eexists. split; [reflexivity|]. intro n. unfold upd. destruct (Nat.eqb_spec n x) as [->|].
    + split; [repeat split; congruence|]. intros ix i j Hi _ _. rewrite VY by (rewrite X1; exact Hi). rewrite VX by exact Hi. ring.
    + split; [repeat split; reflexivity|]. intros ix i j Hi _ _. ring.
  - destruct (HY (der y) ltac:(repeat split)) as [dy [-> [[Y1 [Y2 Y3]] VY]]]. eexists. split; [reflexivity|]. intro n. unfold upd. destruct (Nat.eqb_spec n y) as [->|].
    + replace (Nat.eqb y x) with false by (symmetry; apply Nat.eqb_neq; exact N). split; [repeat split; assumption|]. intros ix i j Hi _ _. rewrite VY by exact Hi. ring.
    + destruct (Nat.eqb_spec n x) as [->|]; [split; [repeat split; assumption|]|split; [repeat split; reflexivity|]]; intros ix i j Hi _ _; [rewrite VX by exact Hi|]; ring.
Qed.
Theorem C76_batched : forall fuel (ta tb : bool) c0 (val der : nat -> bmat A) x y zd gx gy,
  positive (outer (val x)) -> (fold_right Nat.mul 1 (outer (val x)) <= fuel)%nat -> outer (val y) = outer (val x) -> outer zd = outer (val x) ->
  batchedMatMulDiffExpr fuel ta tb c0 (val x) (val y) zd = (Some gx, Some gy) -> same_bsize gx (val x) -> same_bsize gy (val y) ->
  same_bsize (der x) (val x) -> same_bsize (der y) (val y) ->
  exists der', batchedMatMulDiff fuel ta tb val der x y zd = Some der' /\ raisedB der der' x y gx gy.
Proof.
  intros fuel ta tb c0 val der x y zd gx gy HP HF Oy Oz E [S1 [S2 S3]] [S4 [S5 S6]] [S7 [S8 S9]] [T1 [T2 T3]].
  assert (K : forall ta' tb' a b p d, outer a = outer (val x) -> batchedMatMul fuel ta' tb' c0 a b = Some p -> same_bsize p d -> forall c, same_bsize c d -> exists c', batchedIncr fuel ta' tb' c a b = Some c' /\ same_bsize c' c /\ forall ix i j, in_shape ix (outer c) -> bel c' ix i j = bel c ix i j + bel p ix i j).
  { intros ta' tb' a b p d Oa Ep [U1 [U2 U3]] c [V1 [V2 V3]]. apply (bincr fuel ta' tb' c0 c a b p); [rewrite Oa; exact HP|rewrite Oa; exact HF|exact Ep|repeat split; congruence]. }
  destruct ta, tb; cbn [batchedMatMulDiffExpr] in E; injection E as E1 E2; cbn [batchedMatMulDiff]; apply twiceB; eapply K; try eassumption; try reflexivity; repeat split; congruence.
Qed.
End C76.
Print Assumptions C75_mul.
Print Assumptions C75_run_only.
Print Assumptions C75_refused.
Print Assumptions C75_mismatch_accepted_refuted.
Print Assumptions C75_batched.
Print Assumptions C75_same_operand_refuted.
Print Assumptions C75_div.
Print Assumptions C76_matmul.
Print Assumptions C76_vecdot.
Print Assumptions C76_matvec.
Print Assumptions C76_outer_fails.
Print Assumptions C76_batched.

(** A 2-by-3 matrix with a vector of 3 and one of 2; a vector times itself. *)
Example C75_ex :
  let m := LMat {| rows := 2; cols := 3; el := fun i j => Z.of_nat (3 * i + j) |} in
  let v n := LVec {| len := n; vel := fun i => Z.of_nat (i + 1) |} in
  option_map lshape (mulDo m (v 3)) = Some [2] /\ mulShape [2; 3] [3] = Ok [2] /\
  (exists u, mulDo (v 2) m = Some (LVec u) /\ map (vel u) [0; 1; 2] = [6; 9; 12]%Z) /\
  mulShape [2; 3] [2] = Ok [3] /\ mulDo m (v 2) = None.
Proof. cbn zeta. split; [reflexivity|]. split; [reflexivity|]. split; [|split; reflexivity]. eexists. split; [reflexivity|]. vm_compute. reflexivity. Qed.
Example C76_ex :
  let val (n : nat) := {| len := 2; vel := fun i => Z.of_nat (i + 1) |} in
  let der (n : nat) := {| len := 2; vel := fun _ => 100%Z |} in
  exists der', vecDotDiffN val der 0 0 3%Z = Some der' /\ map (vel (der' 0)) [0; 1] = [106; 112]%Z /\ vel (der' 1) 0 = 100%Z.
Proof. eexists. split; [reflexivity|]. split; reflexivity. Qed.
