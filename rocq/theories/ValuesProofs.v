Require Import Coq.Lists.List Coq.Arith.Arith Coq.Bool.Bool Coq.ZArith.ZArith Coq.micromega.Lia.
Require Import Verif.BroadcastModel Verif.ShapeGradModel Verif.ValuesModel Verif.ValuesSpec.
Import ListNotations.

Lemma kindEq_spec : forall a b, kindEq a b = true <-> a = b.
Proof. destruct a, b; cbn; split; intros; try reflexivity; try discriminate. Qed.
Lemma kindEq_refl : forall a, kindEq a a = true.
Proof. destruct a; reflexivity. Qed.

Lemma eqShape_iff : forall s t, eqShape s t = true <-> s = t.
Proof. intros. unfold eqShape. destruct (list_eq_dec Z.eq_dec s t); split; intro H; try reflexivity; try assumption; try discriminate; contradiction. Qed.
Lemma vecEq_iff : forall x y z,
  ((y =? 1) && (1 <? x) && (x =? z) || (x =? 1) && (1 <? y) && (y =? z))%Z = true
  <-> sameShape [x; y] [z].
Proof.
  intros x y z. rewrite orb_true_iff, !andb_true_iff, !Z.eqb_eq, !Z.ltb_lt. unfold sameShape. split.
  - intros [[[-> H] ->]|[[-> H] ->]]; right; eexists; (split; [exact H|]); right; split; auto.
  - intros [H|(n & Hn & [[H _]|[H [H2|H2]]])]; try discriminate H.
    + injection H as ->. injection H2 as -> ->. left. auto.
    + injection H as ->. injection H2 as -> ->. right. auto.
Qed.
Lemma sameShape_sym : forall s t, sameShape s t -> sameShape t s.
Proof.
  intros s t [->|(n & Hn & [[? ?]|[? ?]])]; [left; reflexivity| |]; right; exists n; split; auto.
Qed.
Lemma shapeEq_same : forall s t, shapeEq s t = true <-> sameShape s t.
Proof.
  assert (G : forall s t : list Z, ~ (exists x y z, s = [x; y] /\ t = [z]) -> ~ (exists x y z, t = [x; y] /\ s = [z]) ->
              (eqShape s t = true <-> sameShape s t)).
  { intros s t N1 N2. rewrite eqShape_iff. split; [left; assumption|].
    intros [H|(n & Hn & [[H1 [H2|H2]]|[H1 [H2|H2]]])]; [exact H| | | |]; exfalso; eauto 8. }
  intros s t. destruct s as [|x [|y [|p1 q1]]], t as [|z [|u [|p2 q2]]];
    try (apply G; intros (? & ? & ? & ? & ?); discriminate).
  - cbn [shapeEq]. rewrite vecEq_iff. split; apply sameShape_sym.
  - apply vecEq_iff.
Qed.
Lemma sameShape_refl : forall s, sameShape s s.
Proof. left; reflexivity. Qed.

Section P.
Context {E : Type}.
Implicit Types (m : list E) (xs : list E).

Lemma nth_error_ext : forall (l l' : list E), (forall i, nth_error l i = nth_error l' i) -> l = l'.
Proof.
  induction l as [|x l IH]; intros [|y l'] H; [reflexivity|specialize (H 0); discriminate H|specialize (H 0); discriminate H|].
  pose proof (H 0) as H0. injection H0 as ->. f_equal. apply IH. intro i. exact (H (S i)).
Qed.
Lemma nth_skipn : forall (l : list E) k i, nth_error (skipn k l) i = nth_error l (k + i).
Proof.
  induction l as [|x l IH]; intros [|k] i; try reflexivity.
  - rewrite skipn_nil. destruct i; reflexivity.
  - cbn [skipn Nat.add nth_error]. apply IH.
Qed.
Lemma nth_firstn_lt : forall (l : list E) k i, i < k -> nth_error (firstn k l) i = nth_error l i.
Proof.
  induction l as [|x l IH]; intros [|k] [|i] H; try reflexivity; try lia. cbn. apply IH. lia.
Qed.
Lemma readAt_spec : forall m a n xs, length xs = n ->
  (forall i, i < n -> nth_error m (a + i) = nth_error xs i) -> readAt m a n = xs.
Proof.
  intros m a n xs L H. unfold readAt. apply nth_error_ext. intro i.
  destruct (Nat.lt_ge_cases i n) as [Hi|Hi].
  - rewrite <- (H i Hi), nth_firstn_lt by exact Hi. apply nth_skipn.
  - rewrite (proj2 (nth_error_None _ _)), (proj2 (nth_error_None _ _)); [reflexivity| |].
    + lia.
    + rewrite firstn_length. lia.
Qed.
Lemma readAt_one : forall m a x, nth_error m a = Some x -> readAt m a 1 = [x].
Proof.
  intros. apply readAt_spec; [reflexivity|]. intros i Hi. replace i with 0 by lia. rewrite Nat.add_0_r. exact H.
Qed.
Lemma in_range : forall m a n xs, length xs = n ->
  (forall i, i < n -> nth_error m (a + i) = nth_error xs i) -> n = 0 \/ a + n <= length m.
Proof.
  intros m a n xs L H. destruct n as [|n]; [left; reflexivity|right].
  assert (nth_error m (a + n) <> None).
  { rewrite H by lia. apply nth_error_Some. lia. }
  apply nth_error_Some in H0. lia.
Qed.
Lemma writeAt_length : forall m a xs, a + length xs <= length m -> length (writeAt m a xs) = length m.
Proof. intros. unfold writeAt. rewrite !app_length, firstn_length, skipn_length. lia. Qed.
Lemma writeAt_in : forall m a xs i, a + length xs <= length m -> i < length xs ->
  nth_error (writeAt m a xs) (a + i) = nth_error xs i.
Proof.
  intros m a xs i H Hi. unfold writeAt. rewrite nth_error_app2; rewrite firstn_length; [|lia].
  replace (a + i - Nat.min a (length m)) with i by lia. apply nth_error_app1. exact Hi.
Qed.
Lemma writeAt_out : forall m a xs j, a + length xs <= length m -> (j < a \/ a + length xs <= j) ->
  nth_error (writeAt m a xs) j = nth_error m j.
Proof.
  intros m a xs j H [Hj|Hj]; unfold writeAt.
  - rewrite nth_error_app1 by (rewrite firstn_length; lia). apply nth_firstn_lt. exact Hj.
  - rewrite nth_error_app2 by (rewrite firstn_length; lia). rewrite firstn_length.
    rewrite nth_error_app2 by lia. rewrite nth_skipn. f_equal. lia.
Qed.

(** Memory that agrees on the addresses of a value shows the same datum. *)
Lemma reads_frame : forall m m' v D, reads m v D -> (forall x, owns v x -> nth_error m' x = nth_error m x) -> reads m' v D.
Proof.
  intros m m' v D R. induction R; intro F.
  - constructor.
  - constructor. rewrite F by constructor. exact H.
  - constructor; [exact H|]. intros i Hi. rewrite F by (constructor; exact Hi). apply H0; exact Hi.
  - constructor; [apply IHR1|apply IHR2]; intros x Hx; apply F; [apply owns_v|apply owns_d]; exact Hx.
Qed.
Lemma reads_ext : forall m ext v D, reads m v D -> reads (m ++ ext) v D.
Proof.
  intros m ext v D R. induction R; constructor; auto.
  - rewrite nth_error_app1; [exact H|]. apply nth_error_Some. congruence.
  - intros i Hi. rewrite nth_error_app1; [apply H0; exact Hi|].
    apply nth_error_Some. rewrite H0 by exact Hi. apply nth_error_Some. lia.
Qed.
Lemma reads_owned : forall m v D x, reads m v D -> owns v x -> x < length m.
Proof.
  intros m v D x R. revert x. induction R; intros y O; inversion O; subst; auto.
  - apply nth_error_Some. congruence.
  - apply nth_error_Some. rewrite H0 by assumption. apply nth_error_Some. assumption.
Qed.
Lemma reads_det : forall m v D D', reads m v D -> reads m v D' -> D = D'.
Proof.
  intros m v D D' R. revert D'. induction R; intros D' R'; inversion R'; subst; try reflexivity.
  - congruence.
  - f_equal. rewrite <- (readAt_spec m a (length xs) xs) by auto. apply readAt_spec; auto.
  - f_equal; auto.
Qed.

Lemma nth_new : forall m xs i, nth_error (m ++ xs) (length m + i) = nth_error xs i.
Proof. intros. rewrite nth_error_app2 by lia. f_equal. lia. Qed.

(** What a fresh copy is: a value in new memory. *)
Definition fresh (s s' : st E) (c : value) : Prop :=
  (exists ext, cells s' = cells s ++ ext) /\ duals s <= duals s' /\ forall x, owns c x -> length (cells s) <= x.

Lemma clone_ok : forall v s D, reads (cells s) v D -> valued v ->
  exists s' c, CloneValue s v = Ok (s', c) /\ reads (cells s') c D /\ fresh s s' c /\ valued c /\ (plain v -> plain c).
Proof.
  intros v. induction v as [|k a|k sh a n|id v IHv d IHd]; intros s D R V.
  - destruct V.
  - inversion R as [|? ? x Hx| |]; subst. cbn [CloneValue]. rewrite (readAt_one _ _ _ Hx). unfold allocE.
    eexists _, _. split; [reflexivity|]. split; [|split; [|split; [exact I|intro; exact I]]].
    + constructor. cbn [cells]. rewrite <- (Nat.add_0_r (length (cells s))), nth_new. reflexivity.
    + split; [eexists; reflexivity|]. split; [cbn; lia|]. intros y O. inversion O; subst. lia.
  - inversion R as [| |? ? ? ? xs Hl Hx|]; subst. cbn [CloneValue]. rewrite (readAt_spec _ _ _ xs) by auto. unfold allocE.
    eexists _, _. split; [reflexivity|]. split; [|split; [|split; [exact I|intro; exact I]]].
    + constructor; [reflexivity|]. intros i Hi. cbn [cells]. apply nth_new.
    + split; [eexists; reflexivity|]. split; [cbn; lia|]. intros y O. inversion O; subst. lia.
  - inversion R as [| | |? ? ? VV DD0 R1 R2]; subst. cbn [valued] in V. destruct V as [V1 V2].
    destruct (IHv s VV R1 V1) as (s1 & c1 & E1 & Rc1 & F1 & W1 & _).
    cbn [CloneValue]. rewrite E1. cbn [bind fst snd].
    destruct V2 as [->|V2].
    + cbn [isNil]. unfold borrowDV. eexists _, _. split; [reflexivity|].
      inversion R2; subst. split; [constructor; [exact Rc1|constructor]|].
      split; [|split; [split; [exact W1|left; reflexivity]|intros []]].
      destruct F1 as (X & L & O). split; [exact X|]. split; [cbn; lia|].
      intros y Oy. inversion Oy; subst; [apply O; assumption|]. match goal with H : owns VNil _ |- _ => inversion H end.
    + assert (isNil d = false) as -> by (destruct d; [destruct V2| | |]; reflexivity).
      destruct F1 as ([x1 X1] & L1 & O1).
      destruct (IHd s1 DD0) as (s2 & c2 & E2 & Rc2 & ([x2 X2] & L2 & O2) & W2 & _).
      { rewrite X1. apply reads_ext. exact R2. }
      { exact V2. }
      rewrite E2. cbn [bind fst snd]. unfold borrowDV. eexists _, _. split; [reflexivity|].
      split; [|split; [|split; [split; [exact W1|right; exact W2]|intros []]]].
      * cbn [cells]. constructor; [|exact Rc2]. rewrite X2. apply reads_ext. exact Rc1.
      * split; [exists (x1 ++ x2); cbn [cells]; rewrite X2, X1, app_assoc; reflexivity|].
        split; [cbn; lia|]. intros y Oy. inversion Oy; subst; [apply O1; assumption|].
        pose proof (O2 _ ltac:(eassumption)). rewrite X1, app_length in H. lia.
Qed.

Lemma fresh_apart : forall (s s' : st E) c v D, fresh s s' c -> reads (cells s) v D -> apart c v.
Proof.
  intros s s' c v D (_ & _ & O) R x Oc Ov. pose proof (O _ Oc). pose proof (reads_owned _ _ _ _ R Ov). lia.
Qed.

Variable zer : E.
Lemma fill_ok : forall z (s : st E) v D, plain v -> reads (cells s) v D ->
  exists m', (match v with VS _ a => writeAt (cells s) a [z] | VT _ _ a n => writeAt (cells s) a (repeat z n) | _ => cells s end) = m'
  /\ length m' = length (cells s) /\ reads m' v (fillD z D)
  /\ (forall x, owns v x -> nth_error m' x = Some z)
  /\ (forall x, ~ owns v x -> nth_error m' x = nth_error (cells s) x).
Proof.
  intros z s v D P R. eexists. split; [reflexivity|]. destruct v as [|k a|k sh a n|]; try destruct P; cbn [fillD].
  - inversion R as [|? ? x Hx| |]; subst. cbn [fillD].
    assert (L : a + length [z] <= length (cells s)).
    { cbn [length]. assert (a < length (cells s)) by (apply nth_error_Some; congruence). lia. }
    assert (X : nth_error (writeAt (cells s) a [z]) a = Some z).
    { pose proof (writeAt_in (cells s) a [z] 0 L ltac:(cbn; lia)) as Hw. rewrite Nat.add_0_r in Hw. exact Hw. }
    split; [apply writeAt_length; exact L|]. split; [constructor; exact X|]. split.
    + intros y O. inversion O; subst. exact X.
    + intros y N. apply writeAt_out; [exact L|]. cbn [length]. assert (y <> a) by (intros ->; apply N; constructor). lia.
  - inversion R as [| |? ? ? ? xs Hl Hx|]; subst. cbn [fillD].
    destruct (in_range (cells s) a (length xs) xs eq_refl Hx) as [Z0|L].
    { assert (W : writeAt (cells s) a (repeat z (length xs)) = cells s).
      { rewrite Z0. unfold writeAt. cbn [repeat length app]. rewrite Nat.add_0_r. apply firstn_skipn. }
      rewrite W, Z0. split; [reflexivity|]. split; [constructor; [reflexivity|intros i Hi; lia]|].
      split; [intros y O; inversion O; lia|intros; reflexivity]. }
    assert (L' : a + length (repeat z (length xs)) <= length (cells s)) by (rewrite repeat_length; exact L).
    split; [apply writeAt_length; exact L'|]. split; [|split].
    + constructor; [apply repeat_length|]. intros i Hi. apply writeAt_in; [exact L'|rewrite repeat_length; exact Hi].
    + intros y O. inversion O; subst. rewrite writeAt_in by (rewrite ?repeat_length; assumption).
      apply nth_error_repeat. assumption.
    + intros y N. apply writeAt_out; [exact L'|]. rewrite repeat_length.
      destruct (Nat.lt_ge_cases y a); [left; assumption|]. right.
      destruct (Nat.lt_ge_cases y (a + length xs)); [|assumption]. exfalso. apply N.
      replace y with (a + (y - a)) by lia. constructor. lia.
Qed.
End P.
