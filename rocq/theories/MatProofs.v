From Coq Require Import Arith Lia List Bool Ring.
From Verif Require Import Sums MatModel MatSpec.
Import ListNotations.

Lemma Forall2_len {X Y} (P : X -> Y -> Prop) l l' : Forall2 P l l' -> length l = length l'.
Proof. induction 1; simpl; congruence. Qed.

Lemma NoDup_app_intro {X} (l l' : list X) :
  NoDup l -> NoDup l' -> (forall x, In x l -> In x l' -> False) -> NoDup (l ++ l').
Proof.
  induction 1 as [|x l Hx Hl IH]; intros H' Hd; simpl; [exact H'|].
  constructor.
  - intro H. apply in_app_or in H. destruct H as [H|H]; [contradiction|].
    apply (Hd x); [left; reflexivity|exact H].
  - apply IH; [exact H'|]. intros y Hy. apply Hd. right; exact Hy.
Qed.

Section P.
Context {A : Type} {CR : CRing A}.
Add Ring Aring2 : (@cr_th A CR).
Local Open Scope cr_scope.

Lemma matMul_some ta tb (x y : mat A) :
  op_cols ta x = op_rows tb y ->
  exists z, matMul ta tb x y = Some z /\ is_product ta tb x y z.
Proof.
  intro H. unfold matMul, matMulKernel.
  destruct ta, tb; simpl in *; rewrite (proj2 (Nat.eqb_eq _ _) H);
    (eexists; split; [reflexivity|]);
    (split; [exact H|]); simpl; repeat split; reflexivity.
Qed.

Lemma matMul_product ta tb (x y z : mat A) :
  matMul ta tb x y = Some z -> is_product ta tb x y z.
Proof.
  intro H. destruct (Nat.eq_dec (op_cols ta x) (op_rows tb y)) as [E|E].
  - destruct (matMul_some ta tb x y E) as [z' [H1 H2]]. congruence.
  - unfold matMul, matMulKernel in H.
    destruct ta, tb; simpl in *; apply Nat.eqb_neq in E; rewrite E in H; discriminate.
Qed.

Lemma triple_left n m p (f h g : nat -> nat -> A) :
  sum n (fun i => sum m (fun j => sum p (fun k => f i k * h k j) * g i j)) =
  sum n (fun i => sum p (fun k => f i k * sum m (fun j => h k j * g i j))).
Proof.
  apply sum_ext; intros i _.
  rewrite (sum_ext m _ (fun j => sum p (fun k => f i k * (h k j * g i j)))).
  - rewrite sum_swap. apply sum_ext; intros k _. apply sum_mul_l.
  - intros j _. rewrite <- sum_mul_r. apply sum_ext; intros; ring.
Qed.

Lemma triple_right n m p (f h g : nat -> nat -> A) :
  sum n (fun i => sum m (fun j => sum p (fun k => f i k * h k j) * g i j)) =
  sum p (fun k => sum m (fun j => h k j * sum n (fun i => f i k * g i j))).
Proof.
  rewrite (sum_ext n _ (fun i => sum p (fun k => sum m (fun j => h k j * (f i k * g i j))))).
  - rewrite sum_swap. apply sum_ext; intros k _. rewrite sum_swap.
    apply sum_ext; intros j _. apply sum_mul_l.
  - intros i _. rewrite sum_swap. apply sum_ext; intros j _.
    rewrite <- sum_mul_r. apply sum_ext; intros; ring.
Qed.

Lemma matmul_adjoint ta tb (x y z g : mat A) :
  is_product ta tb x y z -> same_size g z ->
  exists gx gy,
    matMulDiffExpr ta tb x y g = (Some gx, Some gy) /\
    same_size gx x /\ same_size gy y /\
    (forall dx z', same_size dx x -> is_product ta tb dx y z' -> dotM z' g = dotM dx gx) /\
    (forall dy z', same_size dy y -> is_product ta tb x dy z' -> dotM z' g = dotM dy gy).
Proof.
  intros [Hin [Hr [Hc _]]] [Gr Gc].
  (* the generic form of z' . g for any perturbed operands *)
  assert (Gen : forall x1 y1 z', is_product ta tb x1 y1 z' ->
     dotM z' g = sum (op_rows ta x1) (fun i => sum (op_cols tb y1) (fun j =>
        sum (op_cols ta x1) (fun k => op_el ta x1 i k * op_el tb y1 k j) * el g i j))).
  { intros x1 y1 z' [_ [R1 [C1 E1]]]. unfold dotM. rewrite R1.
    apply sum_ext; intros i Hi. rewrite C1. apply sum_ext; intros j Hj.
    rewrite E1 by congruence. reflexivity. }
  destruct ta, tb; cbn [op_cols op_rows op_el] in *; unfold matMulDiffExpr, matMul, matMulKernel;
    cbn [trIf tr cols rows el];
    repeat match goal with
    | |- context [Nat.eqb ?a ?b] =>
        replace (Nat.eqb a b) with true by (symmetry; apply Nat.eqb_eq; congruence)
    end;
    (eexists; eexists; split; [reflexivity|]);
    (split; [split; cbn [rows cols]; congruence|]);
    (split; [split; cbn [rows cols]; congruence|]);
    (split; [ intros d z' [Dr Dc] Hp; rewrite (Gen _ _ _ Hp), triple_left
    | intros d z' [Dr Dc] Hp; rewrite (Gen _ _ _ Hp), triple_right ]);
    unfold dotM; cbn [rows cols el].
  all: first
    [ solve [ apply sum_ext2; [congruence|intros i Hi]; apply sum_ext2; [congruence|intros j Hj];
              apply (f_equal2 rmul); [reflexivity|];
              apply sum_ext2; [congruence|intros k Hk; ring] ]
    | solve [ rewrite sum_swap;
              apply sum_ext2; [congruence|intros i Hi]; apply sum_ext2; [congruence|intros j Hj];
              apply (f_equal2 rmul); [reflexivity|];
              apply sum_ext2; [congruence|intros k Hk; ring] ] ].
Qed.

Lemma matvec_adjoint ta (x : mat A) (y z g : vec A) :
  is_matvec ta x y z -> len g = len z ->
  exists gy,
    let gx := fst (matVecMulDiffExpr ta x y g) in
    snd (matVecMulDiffExpr ta x y g) = Some gy /\
    same_size gx x /\ len gy = len y /\
    (forall dx z', same_size dx x -> is_matvec ta dx y z' -> dotV z' g = dotM dx gx) /\
    (forall dy z', len dy = len y -> is_matvec ta x dy z' -> dotV z' g = dotV dy gy).
Proof.
  intros [Hin [Hl _]] Gl.
  assert (Gen : forall x1 y1 z', is_matvec ta x1 y1 z' ->
     dotV z' g = sum (op_rows ta x1) (fun i =>
        sum (len y1) (fun k => op_el ta x1 i k * vel y1 k) * vel g i)).
  { intros x1 y1 z' [_ [R1 E1]]. unfold dotV. rewrite R1.
    apply sum_ext; intros i Hi. rewrite E1 by congruence. reflexivity. }
  destruct ta; cbn [op_cols op_rows op_el] in *; unfold matVecMulDiffExpr, matVecMul, matVecMulKernel;
    cbn [trIf tr cols rows el negb fst snd outerKernel];
    repeat match goal with
    | |- context [Nat.eqb ?a ?b] =>
        replace (Nat.eqb a b) with true by (symmetry; apply Nat.eqb_eq; congruence)
    end;
    (eexists; split; [reflexivity|]);
    (split; [split; unfold outerKernel; cbn [rows cols fst]; congruence|]);
    (split; [cbn [len]; congruence|]);
    (split; [ intros d z' [Dr Dc] Hp; rewrite (Gen _ _ _ Hp)
            | intros d z' Dl Hp; rewrite (Gen _ _ _ Hp) ]);
    unfold dotM, dotV, outerKernel; cbn [rows cols el len vel].
  - rewrite (sum_ext _ _ (fun i => sum (len y) (fun k => el d k i * (vel y k * vel g i)))).
    + rewrite sum_swap. apply sum_ext2; [congruence|intros; reflexivity].
    + intros i _. rewrite <- sum_mul_r. apply sum_ext; intros; ring.
  - rewrite (sum_ext _ _ (fun i => sum (len d) (fun k => vel d k * (el x k i * vel g i)))).
    + rewrite sum_swap. apply sum_ext; intros. apply sum_mul_l.
    + intros i _. rewrite <- sum_mul_r. apply sum_ext; intros; ring.
  - apply sum_ext; intros i _. rewrite <- sum_mul_r. apply sum_ext2; [congruence|intros; ring].
  - rewrite (sum_ext _ _ (fun i => sum (len d) (fun k => vel d k * (el x i k * vel g i)))).
    + rewrite sum_swap. apply sum_ext; intros. apply sum_mul_l.
    + intros i _. rewrite <- sum_mul_r. apply sum_ext; intros; ring.
Qed.

Lemma vecdot_adjoint (x y : vec A) (g : A) :
  len x = len y ->
  let (gx, gy) := vecDotDiffExpr x y g in
  len gx = len x /\ len gy = len y /\
  (forall dx, len dx = len x -> dotV dx y * g = dotV dx gx) /\
  (forall dy, len dy = len y -> dotV x dy * g = dotV dy gy).
Proof.
  intro H. unfold vecDotDiffExpr, scaleVec, dotV; cbn [len vel].
  split; [congruence|]. split; [congruence|]. split; intros d Hd.
  - rewrite <- sum_mul_r. apply sum_ext; intros; ring.
  - rewrite <- sum_mul_r. apply sum_ext2; [congruence|intros; ring].
Qed.

(* the outer product *)
Lemma outer_nonsquare (x y : vec A) (g : mat A) :
  rows g = len x -> cols g = len y -> len x <> len y ->
  snd (outerProdDiffExpr x y g) = None.
Proof.
  intros Hr Hc Hn. unfold outerProdDiffExpr, mulVecMat, matVecMul, matVecMulKernel.
  cbn [snd trIf tr cols rows]. rewrite Hr.
  apply Nat.eqb_neq in Hn. rewrite Hn. reflexivity.
Qed.

Lemma outer_wrong n :
  (r1 : A) <> r0 -> (0 < n)%nat ->
  exists (x y dx : vec A) (g : mat A) (gx : vec A),
    len x = n /\ len y = n /\ len dx = n /\ rows g = n /\ cols g = n /\
    fst (outerProdDiffExpr x y g) = Some gx /\
    dotM (outerKernel dx y) g <> dotV dx gx.
Proof.
  intros H1 Hn.
  pose (e0 := {| len := n; vel := fun i => if Nat.eqb i 0 then 1 else 0 |}).
  pose (z := {| len := n; vel := fun _ => 0 |} : vec A).
  pose (g := {| rows := n; cols := n;
                el := fun i j => if Nat.eqb i 0 then if Nat.eqb j 0 then 1 else 0 else 0 |}).
  exists z, e0, e0, g. eexists.
  do 5 (split; [reflexivity|]). split.
  { unfold outerProdDiffExpr, mulVecMat, matVecMul, matVecMulKernel. cbn [fst trIf tr cols rows g z len].
    rewrite Nat.eqb_refl. reflexivity. }
  unfold dotM, dotV. cbn [outerKernel rows cols el e0 g z len vel tr].
  rewrite (sum_single n 0); [|exact Hn|].
  - rewrite (sum_single n 0); [|exact Hn|].
    + rewrite Nat.eqb_refl. rewrite (sum_zero_ext n).
      * intro E. apply H1. rewrite <- E. ring.
      * intros i _. rewrite (sum_zero_ext n); [ring|]. intros; ring.
    + intros j _ Hj. apply Nat.eqb_neq in Hj. rewrite Hj. ring.
  - intros i _ Hi. apply Nat.eqb_neq in Hi. rewrite Hi.
    apply sum_zero_ext. intros; ring.
Qed.

(* automatic rule *)
Lemma matmul_auto ta tb (x y z xd yd zd gx gy : mat A) :
  matMulDiffExpr ta tb x y zd = (Some gx, Some gy) ->
  matMulDiff ta tb x y xd yd zd = (Some (addMat xd gx), Some (addMat yd gy)).
Proof.
  unfold matMulDiffExpr, matMulDiff, incrMat.
  destruct ta, tb; intro H; injection H as H1 H2; rewrite H1, H2; reflexivity.
Qed.
End P.

(* ---------- the odometer ---------- *)
Definition zeros (shp : list nat) := map (fun _ => 0) shp.

Fixpoint incrF (a shp : list nat) : option (list nat) :=
  match a, shp with
  | s :: a', d :: shp' =>
      match incrF a' shp' with
      | Some r => Some (s :: r)
      | None => if Nat.eqb (d - s) 1 then None else Some (S s :: zeros shp')
      end
  | _, _ => None
  end.

Lemma incrRev_app a : forall shp s d, length a = length shp ->
  incrRev (a ++ [s]) (shp ++ [d]) =
  match incrRev a shp with
  | Some r => Some (r ++ [s])
  | None => if Nat.eqb (d - s) 1 then None else Some (zeros shp ++ [S s])
  end.
Proof.
  induction a as [|x a IH]; intros [|e shp] s d Hl; try discriminate; simpl in Hl.
  - simpl. destruct (d - s =? 1); reflexivity.
  - injection Hl as Hl. cbn [app incrRev].
    destruct (e - x =? 1) eqn:E.
    + specialize (IH shp s d Hl).
      destruct (a ++ [s]) as [|y t] eqn:Ea; [destruct a; discriminate|].
      rewrite IH. destruct a as [|b a].
      * destruct shp; [|discriminate]. simpl. destruct (d - s =? 1); reflexivity.
      * destruct (incrRev (b :: a) shp) as [r|]; [reflexivity|].
        destruct (d - s =? 1); reflexivity.
    + reflexivity.
Qed.

Lemma rev_zeros l : rev (zeros l) = zeros (rev l).
Proof. unfold zeros. symmetry. apply map_rev. Qed.

Lemma incrSlices_F a : forall shp, length a = length shp -> incrSlices a shp = incrF a shp.
Proof.
  induction a as [|s a IH]; intros [|d shp] Hl; try discriminate; [reflexivity|].
  injection Hl as Hl. unfold incrSlices. cbn [rev].
  rewrite incrRev_app by (rewrite !rev_length; exact Hl).
  cbn [incrF]. rewrite <- (IH shp Hl). unfold incrSlices.
  destruct (incrRev (rev a) (rev shp)) as [r|].
  - rewrite rev_app_distr. reflexivity.
  - destruct (d - s =? 1); [reflexivity|].
    rewrite rev_app_distr. cbn [rev app]. rewrite rev_zeros, rev_involutive. reflexivity.
Qed.

Fixpoint suf (a shp : list nat) : list (list nat) :=
  match a, shp with
  | s :: a', d :: shp' =>
      map (cons s) (suf a' shp') ++
      flat_map (fun i => map (cons i) (tuples shp')) (seq (S s) (d - S s))
  | _, _ => [[]]
  end.

Lemma suf_zeros shp : positive shp -> suf (zeros shp) shp = tuples shp.
Proof.
  induction 1 as [|d shp Hd H IH]; [reflexivity|].
  cbn [zeros map suf tuples]. unfold zeros in IH. rewrite IH.
  destruct d; [lia|]. simpl. rewrite Nat.sub_0_r. reflexivity.
Qed.

Lemma zeros_in shp : positive shp -> in_shape (zeros shp) shp.
Proof. induction 1; constructor; auto. Qed.

Lemma suf_step a : forall shp, positive shp -> in_shape a shp ->
  suf a shp = a :: match incrF a shp with Some a' => suf a' shp | None => [] end.
Proof.
  induction a as [|s a IH]; intros shp Hp Hi; inversion Hi as [|? d ? shp' Hsd Hi']; subst.
  - reflexivity.
  - inversion Hp as [|? ? Hd Hp']; subst. cbn [suf incrF].
    rewrite (IH shp' Hp' Hi'). destruct (incrF a shp') as [r|] eqn:E.
    + cbn [map app suf]. reflexivity.
    + cbn [map app]. f_equal. destruct (Nat.eqb_spec (d - s) 1) as [H|H].
      * replace (d - S s) with 0 by lia. reflexivity.
      * replace (d - S s) with (S (d - S (S s))) by lia. cbn [seq flat_map suf].
        rewrite suf_zeros by exact Hp'. reflexivity.
Qed.

Lemma incrF_in a : forall shp r, positive shp -> in_shape a shp ->
  incrF a shp = Some r -> in_shape r shp.
Proof.
  induction a as [|s a IH]; intros shp r Hp Hi H; inversion Hi as [|? d ? shp' Hsd Hi']; subst;
    [discriminate|].
  inversion Hp as [|? ? Hd Hp']; subst. cbn [incrF] in H.
  destruct (incrF a shp') as [r'|] eqn:E.
  - injection H as <-. constructor; [exact Hsd|]. eapply IH; eauto.
  - destruct (Nat.eqb_spec (d - s) 1); [discriminate|]. injection H as <-.
    constructor; [lia|]. apply zeros_in; exact Hp'.
Qed.

Lemma visit_suf fuel : forall a shp, positive shp -> in_shape a shp ->
  length (suf a shp) <= fuel -> visit fuel a shp = Some (suf a shp).
Proof.
  induction fuel as [|k IH]; intros a shp Hp Hi Hl.
  - rewrite (suf_step a shp Hp Hi) in Hl. simpl in Hl. lia.
  - cbn [visit]. rewrite incrSlices_F by (eapply Forall2_len; exact Hi).
    rewrite (suf_step a shp Hp Hi) in *.
    destruct (incrF a shp) as [r|] eqn:E; [|reflexivity].
    simpl in Hl. rewrite (IH r shp Hp (incrF_in a shp r Hp Hi E)) by lia. reflexivity.
Qed.

Lemma tuples_length shp : length (tuples shp) = fold_right Nat.mul 1 shp.
Proof.
  induction shp as [|d shp IH]; [reflexivity|]. cbn [tuples fold_right]. rewrite <- IH.
  generalize 0. generalize (tuples shp). intros l. clear. induction d as [|d IHd]; intro k; [reflexivity|].
  cbn [seq flat_map]. rewrite app_length, map_length, IHd. reflexivity.
Qed.

Lemma batchVisit_ok fuel shp : positive shp -> fold_right Nat.mul 1 shp <= fuel ->
  batchVisit fuel shp = Some (tuples shp).
Proof.
  intros Hp Hf. unfold batchVisit. rewrite <- (suf_zeros shp Hp).
  apply visit_suf; [exact Hp|apply zeros_in; exact Hp|].
  rewrite (suf_zeros shp Hp), tuples_length. exact Hf.
Qed.

Lemma tuples_in shp : forall ix, In ix (tuples shp) <-> in_shape ix shp.
Proof.
  induction shp as [|d shp IH]; intro ix; cbn [tuples].
  - split.
    + intros [<-|[]]. constructor.
    + intro H. inversion H. left; reflexivity.
  - rewrite in_flat_map. split.
    + intros [i [Hi Hin]]. apply in_seq in Hi. apply in_map_iff in Hin.
      destruct Hin as [r [<- Hr]]. constructor; [lia|]. apply IH; exact Hr.
    + intro H. inversion H as [|i ? r ? Hi Hr]; subst. exists i. split.
      * apply in_seq; lia.
      * apply in_map. apply IH; exact Hr.
Qed.

Lemma NoDup_map_cons (i : nat) l : NoDup l -> NoDup (map (cons i) l).
Proof.
  induction 1 as [|x l Hx Hl IH]; constructor; [|exact IH].
  intro H. apply in_map_iff in H. destruct H as [y [E Hy]]. injection E as ->. auto.
Qed.

Lemma tuples_nodup shp : NoDup (tuples shp).
Proof.
  induction shp as [|d shp IH]; cbn [tuples]; [constructor; [simpl; tauto|constructor]|].
  generalize 0. induction d as [|d IHd]; intro k; cbn [seq flat_map]; [constructor|].
  apply NoDup_app_intro; [apply NoDup_map_cons; exact IH|apply IHd|].
  intros x H1 H2. apply in_map_iff in H1. destruct H1 as [y [<- _]].
  apply in_flat_map in H2. destruct H2 as [j [Hj H2]]. apply in_seq in Hj.
  apply in_map_iff in H2. destruct H2 as [y' [E _]]. injection E as E _. lia.
Qed.

Lemma batched_visits_exactly_once fuel shp :
  positive shp -> fold_right Nat.mul 1 shp <= fuel ->
  exists l, batchVisit fuel shp = Some l /\ l = tuples shp /\ NoDup l /\
            (forall ix, In ix l <-> in_shape ix shp).
Proof.
  intros Hp Hf. exists (tuples shp). split; [apply batchVisit_ok; assumption|].
  split; [reflexivity|]. split; [apply tuples_nodup|apply tuples_in].
Qed.

(* ---------- batched product ---------- *)
Section PB.
Context {A : Type} {CR : CRing A}.

Lemma listEq_true a b : listEq a b = true <-> a = b.
Proof.
  unfold listEq. destruct (list_eq_dec Nat.eq_dec a b); split; congruence.
Qed.

Definition bstep (ta tb : bool) (a b : bmat A) (acc : option (list nat -> nat -> nat -> A)) ix :=
  match acc with
  | None => None
  | Some c => match matMul ta tb (slice a ix) (slice b ix) with
              | None => None
              | Some m => Some (setSlice c ix m)
              end
  end.

Lemma bfold ta tb (a b : bmat A) ixs : forall c,
  NoDup ixs ->
  (forall ix, In ix ixs -> exists m, matMul ta tb (slice a ix) (slice b ix) = Some m) ->
  exists c', fold_left (bstep ta tb a b) ixs (Some c) = Some c' /\
    (forall ix, In ix ixs -> forall m, matMul ta tb (slice a ix) (slice b ix) = Some m ->
        c' ix = el m) /\
    (forall ix, ~ In ix ixs -> c' ix = c ix).
Proof.
  induction ixs as [|i ixs IH]; intros c Hn Hs.
  - exists c. split; [reflexivity|]. split; [intros ? []|auto].
  - inversion Hn as [|? ? Hi Hn']; subst.
    destruct (Hs i (or_introl eq_refl)) as [m Hm].
    destruct (IH (setSlice c i m) Hn') as [c' [H1 [H2 H3]]].
    { intros ix H. apply Hs. right; exact H. }
    exists c'. cbn [fold_left]. unfold bstep at 2. rewrite Hm. split; [exact H1|]. split.
    + intros ix [<-|Hin] m' Hm'.
      * rewrite (H3 i Hi). unfold setSlice.
        rewrite (proj2 (listEq_true i i) eq_refl). congruence.
      * apply H2; assumption.
    + intros ix Hnot. rewrite H3 by (intro; apply Hnot; right; assumption).
      unfold setSlice. destruct (listEq ix i) eqn:E; [|reflexivity].
      apply listEq_true in E. subst. exfalso. apply Hnot. left; reflexivity.
Qed.

Lemma batched_ok fuel ta tb c0 (a b : bmat A) :
  positive (outer a) -> fold_right Nat.mul 1 (outer a) <= fuel ->
  outer b = outer a ->
  op_cols ta (slice a []) = op_rows tb (slice b []) ->
  exists z, batchedMatMul fuel ta tb c0 a b = Some z /\ is_bproduct ta tb a b z /\
    brows z = (if ta then bcols a else brows a) /\ bcols z = (if tb then brows b else bcols b).
Proof.
  intros Hp Hf Ho Hin. unfold batchedMatMul. rewrite (batchVisit_ok fuel _ Hp Hf).
  destruct (bfold ta tb a b (tuples (outer a)) c0 (tuples_nodup _)) as [c' [H1 [H2 H3]]].
  { intros ix _. destruct (matMul_some ta tb (slice a ix) (slice b ix)) as [m [Hm _]].
    - destruct ta, tb; exact Hin.
    - exists m; exact Hm. }
  change (fold_left _ (tuples (outer a)) (Some c0)) with
    (fold_left (bstep ta tb a b) (tuples (outer a)) (Some c0)).
  rewrite H1. eexists. split; [reflexivity|]. cbn [outer brows bcols].
  split; [|split; reflexivity]. split; [exact Ho|]. split; [reflexivity|].
  intros ix Hix. destruct (matMul_some ta tb (slice a ix) (slice b ix)) as [m [Hm Pm]].
  { destruct ta, tb; exact Hin. }
  destruct Pm as [P1 [P2 [P3 P4]]].
  split; [exact P1|]. cbn [slice rows cols el brows bcols bel].
  assert (E : c' ix = el m) by (apply H2; [apply tuples_in; exact Hix|exact Hm]).
  split; [destruct ta; reflexivity|]. split; [destruct tb; reflexivity|].
  intros i j Hi Hj. rewrite E. apply P4.
  - rewrite P2. destruct ta; exact Hi.
  - rewrite P3. destruct tb; exact Hj.
Qed.

Lemma is_product_unique ta tb (x y z z' : mat A) :
  is_product ta tb x y z -> is_product ta tb x y z' ->
  same_size z z' /\ forall i j, i < rows z -> j < cols z -> el z i j = el z' i j.
Proof.
  intros [_ [R1 [C1 E1]]] [_ [R2 [C2 E2]]]. split; [split; congruence|].
  intros i j Hi Hj. rewrite E1, E2; [reflexivity|congruence|congruence|assumption|assumption].
Qed.

Lemma dotM_ext (a a' b b' : mat A) : same_size a a' ->
  (forall i j, i < rows a -> j < cols a -> el a i j = el a' i j) ->
  (forall i j, i < rows a -> j < cols a -> el b i j = el b' i j) ->
  dotM a b = dotM a' b'.
Proof.
  intros [Hr Hc] H1 H2. unfold dotM. rewrite <- Hr, <- Hc.
  apply sum_ext; intros i Hi. apply sum_ext; intros j Hj.
  rewrite H1, H2 by assumption. reflexivity.
Qed.

Lemma lsum_map_ext {B} (f g : B -> A) l :
  (forall x, In x l -> f x = g x) -> lsum (map f l) = lsum (map g l).
Proof.
  induction l as [|a l IH]; simpl; intro H; [reflexivity|].
  rewrite H by auto. rewrite IH by auto. reflexivity.
Qed.

Lemma zeros_shape_nonempty shp : positive shp -> exists ix, in_shape ix shp.
Proof. intro H. exists (zeros shp). apply zeros_in; exact H. Qed.

Lemma batched_adjoint fuel ta tb c0 (x y z g : bmat A) :
  positive (outer x) -> fold_right Nat.mul 1 (outer x) <= fuel ->
  is_bproduct ta tb x y z -> same_bsize g z ->
  exists gx gy,
    batchedMatMulDiffExpr fuel ta tb c0 x y g = (Some gx, Some gy) /\
    same_bsize gx x /\ same_bsize gy y /\
    (forall dx z', same_bsize dx x -> is_bproduct ta tb dx y z' -> dotB z' g = dotB dx gx) /\
    (forall dy z', same_bsize dy y -> is_bproduct ta tb x dy z' -> dotB z' g = dotB dy gy).
Proof.
  intros Hp Hf [Ho [Hoz Hz]] [Go [Gr Gc]].
  destruct (zeros_shape_nonempty _ Hp) as [i0 Hi0].
  pose proof (Hz i0 Hi0) as [Hin [Hr [Hc _]]].
  cbn [slice rows cols] in Hr, Hc.
  assert (Slice : forall gx gy : bmat A,
    outer gx = outer x -> outer gy = outer y ->
    (forall ix, in_shape ix (outer x) -> exists gx' gy',
        matMulDiffExpr ta tb (slice x ix) (slice y ix) (slice g ix) = (Some gx', Some gy') /\
        same_size gx' (slice gx ix) /\ same_size gy' (slice gy ix) /\
        (forall i j, i < rows gx' -> j < cols gx' -> el gx' i j = el (slice gx ix) i j) /\
        (forall i j, i < rows gy' -> j < cols gy' -> el gy' i j = el (slice gy ix) i j)) ->
    (forall dx z', same_bsize dx x -> is_bproduct ta tb dx y z' -> dotB z' g = dotB dx gx) /\
    (forall dy z', same_bsize dy y -> is_bproduct ta tb x dy z' -> dotB z' g = dotB dy gy)).
  { intros gx gy Ogx Ogy HS. split.
    - intros dx z' [D1 [D2 D3]] [Q1 [Q2 Q3]]. unfold dotB. rewrite Q2, D1.
      apply lsum_map_ext. intros ix Hix. apply tuples_in in Hix.
      destruct (HS ix Hix) as [gx' [gy' [E1 [S1 [S2 [L1 L2]]]]]].
      destruct (matmul_adjoint ta tb (slice x ix) (slice y ix) (slice z ix) (slice g ix)
                 (Hz ix Hix)) as [gx2 [gy2 [E2 [T1 [T2 [A1 A2]]]]]].
      { split; cbn [slice rows cols]; congruence. }
      rewrite E1 in E2. injection E2 as <- <-.
      rewrite (A1 (slice dx ix) (slice z' ix)).
      + apply dotM_ext; [split; reflexivity|reflexivity|].
        intros i j Hi Hj. apply L1.
        * destruct T1 as [T1 _]. rewrite T1. cbn [slice rows] in *. congruence.
        * destruct T1 as [_ T1]. rewrite T1. cbn [slice cols] in *. congruence.
      + split; cbn [slice rows cols]; congruence.
      + apply Q3. rewrite D1. exact Hix.
    - intros dy z' [D1 [D2 D3]] [Q1 [Q2 Q3]]. unfold dotB. rewrite Q2, D1, Ho.
      apply lsum_map_ext. intros ix Hix. apply tuples_in in Hix.
      destruct (HS ix Hix) as [gx' [gy' [E1 [S1 [S2 [L1 L2]]]]]].
      destruct (matmul_adjoint ta tb (slice x ix) (slice y ix) (slice z ix) (slice g ix)
                 (Hz ix Hix)) as [gx2 [gy2 [E2 [T1 [T2 [A1 A2]]]]]].
      { split; cbn [slice rows cols]; congruence. }
      rewrite E1 in E2. injection E2 as <- <-.
      rewrite (A2 (slice dy ix) (slice z' ix)).
      + apply dotM_ext; [split; reflexivity|reflexivity|].
        intros i j Hi Hj. apply L2.
        * destruct T2 as [T2 _]. rewrite T2. cbn [slice rows] in *. congruence.
        * destruct T2 as [_ T2]. rewrite T2. cbn [slice cols] in *. congruence.
      + split; cbn [slice rows cols]; congruence.
      + apply Q3. exact Hix. }
  (* one gradient component built by a batched product *)
  assert (Comp : forall ta' tb' (a b : bmat A), outer a = outer x -> outer b = outer x ->
     op_cols ta' (slice a []) = op_rows tb' (slice b []) ->
     exists r, batchedMatMul fuel ta' tb' c0 a b = Some r /\ outer r = outer x /\
       brows r = (if ta' then bcols a else brows a) /\ bcols r = (if tb' then brows b else bcols b) /\
       forall ix, in_shape ix (outer x) -> exists r',
         matMul ta' tb' (slice a ix) (slice b ix) = Some r' /\ same_size r' (slice r ix) /\
         forall i j, i < rows r' -> j < cols r' -> el r' i j = el (slice r ix) i j).
  { intros ta' tb' a b Oa Ob Hab.
    destruct (batched_ok fuel ta' tb' c0 a b) as [r [R1 [[R2 [R3 R4]] [R5 R6]]]];
      [rewrite Oa; exact Hp|rewrite Oa; exact Hf|congruence|exact Hab|].
    exists r. split; [exact R1|]. split; [congruence|]. split; [exact R5|]. split; [exact R6|].
    intros ix Hix. rewrite <- Oa in Hix. specialize (R4 ix Hix).
    destruct (matMul_some ta' tb' (slice a ix) (slice b ix)) as [r' [M1 M2]].
    { destruct ta', tb'; exact Hab. }
    exists r'. split; [exact M1|].
    destruct (is_product_unique _ _ _ _ _ _ M2 R4) as [U1 U2]. split; assumption. }
  assert (Og : outer g = outer x) by congruence.
  destruct ta, tb; cbn [op_cols op_rows slice rows cols] in *;
  unfold batchedMatMulDiffExpr.
  - destruct (Comp true true y g) as [gx [X1 [X2 [X3 [X4 X5]]]]]; [assumption|assumption|cbn; congruence|].
    destruct (Comp true true g x) as [gy [Y1 [Y2 [Y3 [Y4 Y5]]]]]; [assumption|reflexivity|cbn; congruence|].
    exists gx, gy. rewrite X1, Y1. split; [reflexivity|].
    split; [split; [congruence|split; congruence]|]. split; [split; [congruence|split; congruence]|].
    apply Slice; [congruence|congruence|]. intros ix Hix.
    destruct (X5 ix Hix) as [gx' [? [? ?]]]. destruct (Y5 ix Hix) as [gy' [? [? ?]]].
    exists gx', gy'. repeat split; try tauto; try (apply H0); try (apply H3).
    unfold matMulDiffExpr. congruence.
  - destruct (Comp false true y g) as [gx [X1 [X2 [X3 [X4 X5]]]]]; [assumption|assumption|cbn; congruence|].
    destruct (Comp false false x g) as [gy [Y1 [Y2 [Y3 [Y4 Y5]]]]]; [reflexivity|assumption|cbn; congruence|].
    exists gx, gy. rewrite X1, Y1. split; [reflexivity|].
    split; [split; [congruence|split; congruence]|]. split; [split; [congruence|split; congruence]|].
    apply Slice; [congruence|congruence|]. intros ix Hix.
    destruct (X5 ix Hix) as [gx' [? [? ?]]]. destruct (Y5 ix Hix) as [gy' [? [? ?]]].
    exists gx', gy'. repeat split; try tauto; try (apply H0); try (apply H3).
    unfold matMulDiffExpr. congruence.
  - destruct (Comp false false g y) as [gx [X1 [X2 [X3 [X4 X5]]]]]; [assumption|assumption|cbn; congruence|].
    destruct (Comp true false g x) as [gy [Y1 [Y2 [Y3 [Y4 Y5]]]]]; [assumption|reflexivity|cbn; congruence|].
    exists gx, gy. rewrite X1, Y1. split; [reflexivity|].
    split; [split; [congruence|split; congruence]|]. split; [split; [congruence|split; congruence]|].
    apply Slice; [congruence|congruence|]. intros ix Hix.
    destruct (X5 ix Hix) as [gx' [? [? ?]]]. destruct (Y5 ix Hix) as [gy' [? [? ?]]].
    exists gx', gy'. repeat split; try tauto; try (apply H0); try (apply H3).
    unfold matMulDiffExpr. congruence.
  - destruct (Comp false true g y) as [gx [X1 [X2 [X3 [X4 X5]]]]]; [assumption|assumption|cbn; congruence|].
    destruct (Comp true false x g) as [gy [Y1 [Y2 [Y3 [Y4 Y5]]]]]; [reflexivity|assumption|cbn; congruence|].
    exists gx, gy. rewrite X1, Y1. split; [reflexivity|].
    split; [split; [congruence|split; congruence]|]. split; [split; [congruence|split; congruence]|].
    apply Slice; [congruence|congruence|]. intros ix Hix.
    destruct (X5 ix Hix) as [gx' [? [? ?]]]. destruct (Y5 ix Hix) as [gy' [? [? ?]]].
    exists gx', gy'. repeat split; try tauto; try (apply H0); try (apply H3).
    unfold matMulDiffExpr. congruence.
Qed.
End PB.
