(** C93: KeepDims keeps the number of axes, save for a vector and its column or row.
    C94: ReduceAdd and ReduceMul fold from the left; GlobalAveragePool2D averages planes. *)
From Coq Require Import List ZArith QArith Bool Lia Lqa Setoid.
From Verif Require Import Sums BroadcastModel BroadcastSpec BroadcastProofs ShapeGradModel ShapeGradProofs KeepModel KeepSpec.
Import ListNotations.
Local Open Scope Z_scope.

Lemma total_cons d s : totalSize (d :: s) = d * totalSize s.
Proof. reflexivity. Qed.
Lemma total_ones_l u s : Forall (fun d => d = 1) u -> totalSize (u ++ s) = totalSize s.
Proof. induction 1 as [|d u E _ IH]; cbn [app]; [reflexivity|]. rewrite total_cons, IH, E. lia. Qed.
Lemma total_ones_r u s : Forall (fun d => d = 1) u -> totalSize (s ++ u) = totalSize s.
Proof.
  intro H. induction s as [|d s IH]; cbn [app]; [|rewrite !total_cons, IH; reflexivity].
  rewrite <- (app_nil_r u). apply total_ones_l, H.
Qed.
Lemma ones n : Forall (fun d : Z => d = 1) (repeat 1 n).
Proof. apply Forall_forall. intros x H. apply repeat_spec in H. exact H. Qed.
Lemma ravel_left n s idx : ravel (repeat 1 n ++ s) (repeat 0 n ++ idx) = ravel s idx.
Proof. induction n as [|n IH]; cbn [repeat app ravel]; [reflexivity|]. rewrite IH. lia. Qed.
Lemma ravel_zeros n : ravel (repeat 1 n) (repeat 0 n) = 0.
Proof. induction n as [|n IH]; cbn [repeat ravel]; [reflexivity|]. rewrite IH. lia. Qed.
Lemma ravel_right n s : forall idx, length idx = length s -> ravel (s ++ repeat 1 n) (idx ++ repeat 0 n) = ravel s idx.
Proof.
  induction s as [|d s IH]; intros [|i idx] L; cbn [length] in L; try lia; cbn [app ravel].
  - apply ravel_zeros.
  - rewrite IH by lia. rewrite total_ones_r by apply ones. reflexivity.
Qed.
Lemma inside_length s idx : inside s idx -> length idx = length s.
Proof. induction 1; cbn [length]; congruence. Qed.

(** When the library calls two shapes equal. *)
Lemma shapeEq_spec s t : shapeEq s t = true <-> s = t \/ vectorOf s t \/ vectorOf t s.
Proof.
  assert (G : eqShape s t = true <-> s = t) by apply eqShape_iff.
  assert (D : forall x y z : Z, ((y =? 1) && (1 <? x) && (x =? z)) || ((x =? 1) && (1 <? y) && (y =? z)) = true
     <-> 1 < z /\ ((y = 1 /\ x = z) \/ (x = 1 /\ y = z))).
  { intros x y z. rewrite orb_true_iff, !andb_true_iff, !Z.eqb_eq, !Z.ltb_lt. split; intros; lia. }
  destruct s as [|x [|y [|w s]]], t as [|x' [|y' [|w' t]]]; cbn [shapeEq];
    try (rewrite G; split; [intro E; left; exact E|intros [E|[[n [_ [E [E'|E']]]]|[n [_ [E [E'|E']]]]]]; first [exact E|discriminate E|discriminate E']]).
  - rewrite D. split.
    + intros [L [[-> ->]|[-> ->]]]; right; left; exists x; repeat split; try lia; [left|right]; reflexivity.
    + intros [E|[[n [L [E E']]]|[n [L [E E']]]]]; [discriminate E| |discriminate E].
      injection E as ->. split; [lia|]. destruct E' as [E'|E']; injection E' as -> ->; [left|right]; split; reflexivity.
  - rewrite D. split.
    + intros [L [[-> ->]|[-> ->]]]; right; right; exists x'; repeat split; try lia; [left|right]; reflexivity.
    + intros [E|[[n [L [E E']]]|[n [L [E E']]]]]; [discriminate E|discriminate E|].
      injection E as ->. split; [lia|]. destruct E' as [E'|E']; injection E' as -> ->; [left|right]; split; reflexivity.
Qed.

Section Keep.
Context {V : Type}.
Implicit Types (a b r : @tens V).

(** ** C93 *)
(** The result has as many axes as the input and the entries of what the function gave,
    unless that was a vector for a column or row, or the reverse. *)
Theorem C93_axes_kept a left (fn : tens -> res tens) b :
  fn a = Ok b -> Forall (fun d => 0 <= d) (shp b) ->
  (length (shp b) <= length (shp a))%nat -> ~ vectorOf (shp b) (shp a) ->
  exists r, keepDimsApi a left fn = Ok r /\ length (shp r) = length (shp a) /\ padded left (shp b) (shp r) /\
    forall idx, inside (shp b) idx -> at_ r (placed left (length (shp a) - length (shp b)) idx) = at_ b idx.
Proof.
  intros F NN L NV. unfold keepDimsApi. rewrite F. cbn [bind].
  destruct (shapeEq (shp b) (shp a)) eqn:E.
  - apply shapeEq_spec in E. destruct E as [E|[E|E]]; [|contradiction|].
    + exists b. rewrite E, Nat.sub_diag. split; [reflexivity|]. split; [reflexivity|]. split.
      * exists []. split; [constructor|]. destruct left; [reflexivity|]. rewrite app_nil_r. reflexivity.
      * intros idx _. unfold placed. cbn [repeat app]. destruct left; [reflexivity|]. rewrite app_nil_r. reflexivity.
    + destruct E as [n [_ [E E']]]. rewrite E in L. destruct E' as [E'|E']; rewrite E' in L; cbn [length] in L; lia.
  - destruct (Nat.ltb_spec (length (shp a)) (length (shp b))) as [H|_]; [lia|].
    set (k := (length (shp a) - length (shp b))%nat).
    assert (K : (k + length (shp b))%nat = length (shp a)) by (unfold k; lia).
    assert (O : Forall (fun d => 0 <= d) (repeat 1 k)) by (eapply Forall_impl; [|apply ones]; cbv beta; intros; lia).
    cbv zeta. rewrite reshape_plain.
    + eexists. split; [reflexivity|]. cbn [shp at_]. split; [|split].
      * destruct left; rewrite app_length, repeat_length; lia.
      * exists (repeat 1 k). split; [apply ones|]. destruct left; reflexivity.
      * intros idx I. unfold placed. destruct left.
        -- rewrite ravel_left, unravel_ravel by exact I. reflexivity.
        -- rewrite ravel_right by (apply inside_length, I). rewrite unravel_ravel by exact I. reflexivity.
    + destruct left; apply Forall_app; split; assumption.
    + right. symmetry. destruct left; [apply total_ones_l|apply total_ones_r]; apply ones.
Qed.
(** The exception: a vector for a column or row, and the reverse, is returned as it is. *)
Theorem C93_vectors_slip a left (fn : tens -> res tens) b :
  fn a = Ok b -> vectorOf (shp b) (shp a) \/ vectorOf (shp a) (shp b) ->
  keepDimsApi a left fn = Ok b /\ length (shp b) <> length (shp a).
Proof.
  intros F H. unfold keepDimsApi. rewrite F. cbn [bind].
  assert (E : shapeEq (shp b) (shp a) = true) by (apply shapeEq_spec; right; exact H). rewrite E. split; [reflexivity|].
  destruct H as [[n [_ [-> [-> | ->]]]]|[n [_ [-> [-> | ->]]]]]; discriminate.
Qed.
(** Anything else with more axes than the input is refused; failures are passed on. *)
Theorem C93_more_axes_refused a left (fn : tens -> res tens) b :
  fn a = Ok b -> (length (shp a) < length (shp b))%nat -> ~ vectorOf (shp a) (shp b) ->
  keepDimsApi a left fn = Err.
Proof.
  intros F L NV. unfold keepDimsApi. rewrite F. cbn [bind].
  destruct (shapeEq (shp b) (shp a)) eqn:E.
  - apply shapeEq_spec in E. destruct E as [E|[E|E]]; [rewrite E in L; lia| |contradiction].
    destruct E as [n [_ [E E']]]. rewrite E in L. destruct E' as [E'|E']; rewrite E' in L; cbn [length] in L; lia.
  - apply Nat.ltb_lt in L. rewrite L. reflexivity.
Qed.
Theorem C93_failures_passed_on a left (fn : tens -> res tens) :
  (fn a = Err -> keepDimsApi a left fn = Err) /\ (fn a = Panic -> keepDimsApi a left fn = Panic).
Proof. split; intro F; unfold keepDimsApi; rewrite F; reflexivity. Qed.
End Keep.

(** The sum of a matrix along one of its axes, kept: the row or column of the sums, unless
    the axis had a single entry and the other more than one. *)
Section KeepSum.
Context {A : Type} {CR : CRing A}.
Local Open Scope Z_scope.
Definition flatten {X} (x : res (@tens X)) : option (list Z) := match x with Ok t => Some (shp t) | _ => None end.
Theorem C93_sum_of_a_matrix (a : @tens A) m n : shp a = [m; n] -> 1 <= m -> 1 <= n ->
  flatten (keepDimsApi a true (fun x => sumApi x [0])) = Some (if (m =? 1) && (1 <? n) then [n] else [1; n]) /\
  flatten (keepDimsApi a false (fun x => sumApi x [1])) = Some (if (n =? 1) && (1 <? m) then [m] else [m; 1]).
Proof.
  intros E Hm Hn.
  assert (Z0 : forall d, 1 <= d -> (d =? 0) = false) by (intros; lia).
  assert (S0 : exists f, sumApi a [0] = Ok (Tn [n] f)).
  { unfold sumApi, sumNode, reductionShape, reductionInferShape. rewrite E. cbn - [Z.eqb over]. rewrite (Z0 n Hn). cbn - [over]. eexists. reflexivity. }
  assert (S1 : exists f, sumApi a [1] = Ok (Tn [m] f)).
  { unfold sumApi, sumNode, reductionShape, reductionInferShape. rewrite E. cbn - [Z.eqb over]. change (Pos.to_nat 1) with 1%nat. cbn - [Z.eqb over]. rewrite (Z0 m Hm). cbn - [over]. eexists. reflexivity. }
  destruct S0 as [f0 S0], S1 as [f1 S1]. unfold keepDimsApi. rewrite S0, S1, E. cbn [bind shp length Nat.ltb Nat.leb Nat.sub repeat app shapeEq].
  split.
  - destruct (Z.eqb_spec m 1) as [->|N1].
    + destruct (Z.ltb_spec 1 n) as [L|L].
      * replace (1 <? 1) with false by reflexivity. rewrite !Z.eqb_refl, andb_false_r. cbn. reflexivity.
      * replace n with 1 by lia. cbn. reflexivity.
    + rewrite andb_false_l, orb_false_r.
      destruct ((n =? 1) && (1 <? m) && (m =? n)) eqn:Q; [exfalso; rewrite !andb_true_iff, !Z.eqb_eq, Z.ltb_lt in Q; lia|].
      rewrite reshape_plain; [reflexivity|repeat constructor; lia|right; cbn [shp]; rewrite !total_cons; lia].
  - destruct (Z.eqb_spec n 1) as [->|N1].
    + destruct (Z.ltb_spec 1 m) as [L|L].
      * rewrite !Z.eqb_refl. cbn. reflexivity.
      * replace m with 1 by lia. cbn. reflexivity.
    + rewrite andb_false_l, orb_false_l.
      destruct ((m =? 1) && (1 <? n) && (n =? m)) eqn:Q; [exfalso; rewrite !andb_true_iff, !Z.eqb_eq, Z.ltb_lt in Q; lia|].
      rewrite reshape_plain; [reflexivity|repeat constructor; lia|right; cbn [shp]; rewrite !total_cons; lia].
Qed.
End KeepSum.
Print Assumptions C93_axes_kept.
Print Assumptions C93_vectors_slip.
Print Assumptions C93_more_axes_refused.
Print Assumptions C93_failures_passed_on.
Print Assumptions C93_sum_of_a_matrix.

(** The number of axes is not always kept. *)
Theorem C93_refuted : ~ (forall (a : @tens Z) left fn b r, fn a = Ok b -> keepDimsApi a left fn = Ok r -> length (shp r) = length (shp a)).
Proof.
  intro H. pose (a := Tn [3; 1] (fun idx => nth 0 idx 0)). pose (b := Tn [3] (fun idx => nth 0 idx 0)).
  specialize (H a true (fun _ => Ok b) b b eq_refl eq_refl). discriminate H.
Qed.
Print Assumptions C93_refuted.

Definition keepA : @tens Z := Tn [2; 3] (fun idx => 10 * nth 0 idx 0 + nth 1 idx 0).
Example C93_case_left : exists b r, sumApi keepA [0] = Ok b /\ shp b = [3] /\ keepDimsApi keepA true (fun x => sumApi x [0]) = Ok r /\
  shp r = [1; 3] /\ at_ r [0; 2] = 14.
Proof. eexists. eexists. split; [reflexivity|]. split; [reflexivity|]. split; [reflexivity|]. split; vm_compute; reflexivity. Qed.
Example C93_case_right : exists r, keepDimsApi keepA false (fun x => sumApi x [1]) = Ok r /\ shp r = [2; 1] /\ at_ r [1; 0] = 33.
Proof. eexists. split; [reflexivity|]. split; vm_compute; reflexivity. Qed.
Example C93_case_slip : vectorOf [3] [3; 1] /\
  exists r, keepDimsApi (Tn [3; 1] (fun idx => nth 0 idx 0)) false (fun x => sumApi x [1]) = Ok r /\ shp r = [3].
Proof. split; [exists 3; split; [lia|split; [reflexivity|left; reflexivity]]|]. eexists. split; [reflexivity|]. reflexivity. Qed.
Example C93_case_more : keepDimsApi keepA true (fun x => Ok (Tn [2; 3; 1] (at_ x))) = Err /\ ~ vectorOf [2; 3] [2; 3; 1].
Proof. split; [reflexivity|]. intros [n [_ [E _]]]. discriminate E. Qed.

(** ** C94 *)
Section Fold.
Context {N V : Type} (op : N -> N -> res N) (opts : N -> N) (val : N -> V) (f : V -> V -> V).
Hypothesis Hop : forall x y z, op x y = Ok z -> val z = f (val x) (val y).
Hypothesis Hopts : forall x, val (opts x) = val x.

Lemma loop_value rest : forall acc r, reduceLoop op opts acc rest = Ok r -> val r = foldFrom f (val acc) (map val rest).
Proof.
  induction rest as [|n rest IH]; intros acc r E; cbn [reduceLoop map foldFrom] in *; [injection E as <-; reflexivity|].
  destruct (op acc n) as [z| |] eqn:O; cbn [bind] in E; [|discriminate E|discriminate E].
  rewrite (IH _ _ E), Hopts, (Hop _ _ _ O). reflexivity.
Qed.
(** The result, if there is one, is the fold from the left of the values. *)
Theorem C94_left_fold n rest r : reduceNodes op opts (n :: rest) = Ok r ->
  exists x, r = Some x /\ val x = foldFrom f (val n) (map val rest).
Proof.
  destruct rest as [|b [|c rest]]; cbn [reduceNodes]; intro E.
  - injection E as <-. exists n. split; reflexivity.
  - destruct (op n b) as [z| |] eqn:O; cbn [bind] in E; [|discriminate E|discriminate E]. injection E as <-.
    exists (opts z). split; [reflexivity|]. cbn [map foldFrom]. rewrite Hopts. apply Hop, O.
  - destruct (reduceLoop op opts n (b :: c :: rest)) as [z| |] eqn:O; cbn [bind] in E; [|discriminate E|discriminate E]. injection E as <-.
    exists z. split; [reflexivity|]. apply loop_value, O.
Qed.
End Fold.
(** It succeeds exactly if every step does; an empty list gives nil and a single node is
    returned as it is, the options unused. *)
Theorem C94_when {N} (op : N -> N -> res N) (opts : N -> N) :
  reduceNodes op opts [] = Ok None /\
  (forall n, reduceNodes op opts [n] = Ok (Some n)) /\
  (forall n rest x, op n x = Err -> reduceNodes op opts (n :: x :: rest) = Err) /\
  (forall n rest x, op n x = Panic -> reduceNodes op opts (n :: x :: rest) = Panic) /\
  (forall n rest x z, op n x = Ok z -> reduceNodes op opts (n :: x :: rest) = reduceNodes op opts (opts z :: rest)).
Proof.
  split; [reflexivity|]. split; [reflexivity|]. split; [|split].
  - intros n [|y rest] x E; cbn [reduceNodes reduceLoop]; rewrite E; reflexivity.
  - intros n [|y rest] x E; cbn [reduceNodes reduceLoop]; rewrite E; reflexivity.
  - intros n [|y [|w rest]] x z E; cbn [reduceNodes reduceLoop]; rewrite E; cbn [bind]; try reflexivity.
    destruct (op (opts z) y); reflexivity.
Qed.
(** The options are given to every node made on the way, and the inputs are kept in order. *)
Definition mk (l r : expr) : res expr := Ok (Made false l r).
Definition optioned (e : expr) : expr := match e with Made _ l r => Made true l r | e => e end.
Theorem C94_options_everywhere i j rest : exists e,
  reduceNodes mk optioned (map Input (i :: j :: rest)) = Ok (Some e) /\ inputsOf e = i :: j :: rest /\ allOptioned e /\ leftComb e.
Proof.
  assert (G : forall rest acc, allOptioned acc -> leftComb acc -> exists e, reduceLoop mk optioned acc (map Input rest) = Ok e /\
     inputsOf e = inputsOf acc ++ rest /\ allOptioned e /\ leftComb e).
  { clear. induction rest as [|k rest IH]; intros acc A L; cbn [map reduceLoop].
    - exists acc. rewrite app_nil_r. repeat split; assumption.
    - cbn [mk bind optioned]. destruct (IH (Made true acc (Input k))) as [e [E [I [A' L']]]].
      + cbn [allOptioned]. repeat split. exact A.
      + cbn [leftComb]. split; [exact L|]. exists k. reflexivity.
      + exists e. split; [exact E|]. split; [|split; assumption]. rewrite I. cbn [inputsOf]. rewrite <- app_assoc. reflexivity. }
  destruct rest as [|k rest].
  - exists (Made true (Input i) (Input j)). split; [reflexivity|]. split; [reflexivity|]. cbn. repeat split. exists j. reflexivity.
  - destruct (G (j :: k :: rest) (Input i) I I) as [e [E [In_ [A L]]]]. exists e. split; [|split; [exact In_|split; assumption]].
    change (map Input (i :: j :: k :: rest)) with (Input i :: map Input (j :: k :: rest)). cbn [map] in *. cbn [reduceNodes]. rewrite E. reflexivity.
Qed.
Print Assumptions C94_left_fold.
Print Assumptions C94_when.
Print Assumptions C94_options_everywhere.
(** With the subtraction in place of an addition the order can be seen: (10 - 3) - 2. *)
Example C94_case : reduceNodes (fun x y => Ok (x - y)) (fun x => x) [10; 3; 2] = Ok (Some 5).
Proof. reflexivity. Qed.
Example C94_case_named : reduceNodes mk optioned (map Input [7; 8; 9]%nat) = Ok (Some (Made true (Made true (Input 7) (Input 8)) (Input 9))).
Proof. reflexivity. Qed.
(** Adding tensors of different shapes fails at the second step. *)
Example C94_case_fail : reduceNodes (fun s t : list Z => if eqShape s t then Ok s else Err) (fun s => s) [[2]; [2]; [3]] = Err.
Proof. reflexivity. Qed.

(** ** C95 *)
Lemma iota_S n : iota (S n) = iota n ++ [Z.of_nat n].
Proof. unfold iota. rewrite seq_S, map_app. reflexivity. Qed.
Lemma fold_qsum (g : Z -> Q) n : forall acc, (fold_left (fun acc j => acc + g j) (iota n) acc == acc + qsum n (fun k => g (Z.of_nat k)))%Q.
Proof.
  induction n as [|n IH]; intro acc; [cbn; ring|].
  rewrite iota_S, fold_left_app. cbn [fold_left qsum]. rewrite IH. ring.
Qed.
Lemma fold_rows (g : Z -> Z -> Q) w n : forall acc,
  (fold_left (fun acc i => fold_left (fun acc j => acc + g i j) (iota w) acc) (iota n) acc
   == acc + qsum n (fun i => qsum w (fun j => g (Z.of_nat i) (Z.of_nat j))))%Q.
Proof.
  induction n as [|n IH]; intro acc; [cbn; ring|].
  rewrite iota_S, fold_left_app. cbn [fold_left qsum]. rewrite fold_qsum, IH. ring.
Qed.
Lemma plane_sum at4 b c h w :
  (planeSum at4 b c h w == qsum (Z.to_nat h) (fun i => qsum (Z.to_nat w) (fun j => at4 [b; c; Z.of_nat i; Z.of_nat j])))%Q.
Proof. unfold planeSum. rewrite (fold_rows (fun i j => at4 [b; c; i; j])). ring. Qed.
Lemma qsum_le n f g : (forall k, (k < n)%nat -> f k <= g k)%Q -> (qsum n f <= qsum n g)%Q.
Proof.
  induction n as [|n IH]; intro H; cbn [qsum]; [lra|].
  apply Qplus_le_compat; [apply IH; intros k L; apply H; lia|apply H; lia].
Qed.
Lemma qsum_const n q : (qsum n (fun _ => q) == inject_Z (Z.of_nat n) * q)%Q.
Proof.
  induction n as [|n IH]; cbn [qsum]; [cbn; ring|]. rewrite IH.
  rewrite Nat2Z.inj_succ. unfold Z.succ. rewrite inject_Z_plus. cbn [inject_Z]. ring.
Qed.

(** Every plane is replaced by its mean; the planes do not affect each other, and the mean
    lies between any bounds of the plane. *)
Theorem C95_means ty (t : @tens Q) b c h w : ty <> GOther -> shp t = [b; c; h; w] -> 1 <= h -> 1 <= w ->
  exists r, gapDo ty t = Ok r /\ shp r = [b; c; 1; 1] /\
  forall i j, inside [b; c; 1; 1] [i; j; 0; 0] ->
    (inject_Z (h * w) * at_ r [i; j; 0; 0]%Z == qsum (Z.to_nat h) (fun y => qsum (Z.to_nat w) (fun x => at_ t [i; j; Z.of_nat y; Z.of_nat x])))%Q /\
    forall lo hi, (forall y x, 0 <= y < h -> 0 <= x < w -> (lo <= at_ t [i; j; y; x] <= hi)%Q) -> (lo <= at_ r [i; j; 0; 0]%Z <= hi)%Q.
Proof.
  intros T S Hh Hw. unfold gapDo. rewrite S. cbn [gapShape nth_error bind].
  eexists. split; [destruct ty; [reflexivity|reflexivity|contradiction]|]. split; [reflexivity|]. intros i j _. cbn [at_ nth].
  assert (P : (0 < inject_Z (h * w))%Q) by (rewrite <- (Zlt_Qlt 0); nia).
  assert (E : (inject_Z (h * w) * (planeSum (at_ t) i j h w / inject_Z (h * w)) ==
     qsum (Z.to_nat h) (fun y => qsum (Z.to_nat w) (fun x => at_ t [i; j; Z.of_nat y; Z.of_nat x])))%Q).
  { rewrite plane_sum. field. lra. }
  split; [exact E|]. intros lo hi B.
  set (v := (planeSum (at_ t) i j h w / inject_Z (h * w))%Q) in *.
  assert (C : forall q, (qsum (Z.to_nat h) (fun _ => qsum (Z.to_nat w) (fun _ => q)) == inject_Z (h * w) * q)%Q).
  { intro q. transitivity (inject_Z (Z.of_nat (Z.to_nat h)) * (inject_Z (Z.of_nat (Z.to_nat w)) * q))%Q.
    - rewrite <- (qsum_const (Z.to_nat w) q). apply qsum_const.
    - rewrite !Z2Nat.id by lia. rewrite inject_Z_mult. ring. }
  split.
  - apply (Qmult_le_l _ _ (inject_Z (h * w)) P). rewrite E, <- C. apply qsum_le. intros y Ly. apply qsum_le. intros x Lx.
    apply B; lia.
  - apply (Qmult_le_l _ _ (inject_Z (h * w)) P). rewrite E, <- C. apply qsum_le. intros y Ly. apply qsum_le. intros x Lx.
    apply B; lia.
Qed.
(** Only images of four axes, and only the two element types, are taken. *)
Theorem C95_refused ty (t : @tens Q) : (length (shp t) <> 4%nat \/ ty = GOther) -> gapDo ty t = Err.
Proof.
  intros [L| ->]; unfold gapDo.
  - destruct (shp t) as [|a [|b [|c [|d [|e s]]]]]; try reflexivity. cbn [length] in L. lia.
  - destruct (shp t) as [|a [|b [|c [|d [|e s]]]]]; reflexivity.
Qed.
Print Assumptions C95_means.
Print Assumptions C95_refused.
Definition gapT : @tens Q := Tn [1; 2; 2; 3] (fun idx => inject_Z (100 * nth 1 idx 0 + 10 * nth 2 idx 0 + nth 3 idx 0)).
Example C95_case : exists r, gapDo G32 gapT = Ok r /\ shp r = [1; 2; 1; 1] /\ (at_ r [0; 1; 0; 0]%Z == 106 # 1)%Q /\ inside [1; 2; 1; 1] [0; 1; 0; 0].
Proof. eexists. split; [reflexivity|]. split; [reflexivity|]. split; [vm_compute; reflexivity|]. repeat constructor; lia. Qed.
Example C95_case_refused : gapDo G64 (Tn [2; 3; 4] (at_ gapT)) = Err /\ gapDo GOther gapT = Err.
Proof. split; reflexivity. Qed.
