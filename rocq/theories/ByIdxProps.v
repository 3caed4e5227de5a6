(** C73: ByIndices. *)
From Coq Require Import List ZArith Bool Lia Ring.
From Verif Require Import Sums BroadcastModel BroadcastSpec BroadcastProofs ShapeGradModel ShapeGradSpec ShapeGradProofs ShapeGradSlice ShapeGradProps ByIdxModel ByIdxSpec.
Import ListNotations.
Local Open Scope Z_scope.

Section Proofs.
Context {A : Type} {CR : CRing A}.
Add Ring Aring : (@cr_th A CR).
Notation tens := (@BroadcastModel.tens A).

Lemma selected_app indices p k r : selected (Z.of_nat (length p)) indices (p ++ Z.of_nat k :: r) = p ++ nth k indices 0 :: r.
Proof. unfold selected. rewrite Nat2Z.id, nth_app, Nat2Z.id, set_app. reflexivity. Qed.
Lemma over_app s : forall t (F : list Z -> A), over (s ++ t) F = over s (fun i => over t (fun j => F (i ++ j))).
Proof. induction s as [|d s IH]; intros t F; cbn [over app]; [reflexivity|]. apply sum_ext. intros i _. apply IH. Qed.
Lemma eqShape_app p p' a a' r r' : length p = length p' -> eqShape (p ++ a :: r) (p' ++ a' :: r') = eqShape p p' && (a =? a') && eqShape r r'.
Proof.
  intro L. destruct (eqShape (p ++ a :: r) (p' ++ a' :: r')) eqn:E.
  - apply eqShape_iff in E. destruct (app_inv_len _ _ _ _ L E) as [-> E']. injection E' as -> ->. rewrite !eqShape_refl, Z.eqb_refl. reflexivity.
  - destruct (eqShape p p') eqn:E1; [|reflexivity]. apply eqShape_iff in E1. subst p'. destruct (a =? a') eqn:E2; [|reflexivity]. apply Z.eqb_eq in E2. subst a'.
    destruct (eqShape r r') eqn:E3; [|reflexivity]. apply eqShape_iff in E3. subst r'. rewrite eqShape_refl in E. discriminate.
Qed.
Lemma eqShape_sym s t : eqShape s t = eqShape t s.
Proof. destruct (eqShape s t) eqn:E1, (eqShape t s) eqn:E2; try reflexivity; [apply eqShape_iff in E1|apply eqShape_iff in E2]; subst; rewrite eqShape_refl in *; congruence. Qed.
Lemma positions indices : forall m j (f : Z -> A), at_positions indices (Z.of_nat m) j f = sum (length indices) (fun k => if nth k indices 0 =? j then f (Z.of_nat (m + k)) else r0).
Proof.
  induction indices as [|i l IH]; intros m j f; [reflexivity|]. cbn [at_positions length]. replace (Z.of_nat m + 1) with (Z.of_nat (S m)) by lia. rewrite IH.
  assert (SS : forall n (g : nat -> A), sum (S n) g = radd (g 0%nat) (sum n (fun k => g (S k)))).
  { induction n as [|n IHn]; intro g; [cbn [sum]; ring|]. change (sum (S (S n)) g) with (radd (sum (S n) g) (g (S n))). rewrite IHn. cbn [sum]. ring. }
  rewrite SS. cbn [nth]. rewrite Nat.add_0_r. f_equal. apply sum_ext. intros k _. rewrite Nat.add_succ_r. reflexivity.
Qed.

(** ByIndices selects, with a negative axis taken as the first. *)
Theorem C73_value (P R : list Z) d axis (x : tens) indices : shp x = P ++ d :: R -> (axis = Z.of_nat (length P) \/ (P = [] /\ axis < 0)) -> Forall (fun i => 0 <= i < d) indices ->
  exists y, byIndices x indices axis = Ok y /\ selects P R indices x y.
Proof.
  intros Sx Ha HF. assert (EA : newByIndicesOp axis = Z.of_nat (length P)).
  { unfold newByIndicesOp. destruct Ha as [->|[-> Ha]]; [destruct (_ <? 0) eqn:E; lia|]. replace (axis <? 0) with true by lia. reflexivity. }
  unfold byIndices. rewrite EA. unfold byIndicesShape. rewrite Sx, app_length. cbn [length]. replace (Z.of_nat (length P + S (length R)) <=? Z.of_nat (length P)) with false by (symmetry; apply Z.leb_gt; lia). cbn [bind].
  rewrite Nat2Z.id, nth_app, set_app. replace (existsb _ indices) with false; cycle 1.
  { symmetry. apply not_true_is_false. intro E. apply existsb_exists in E. destruct E as [i [Hi E]]. rewrite Forall_forall in HF. specialize (HF i Hi). lia. }
  eexists. split; [reflexivity|]. split; [reflexivity|]. intros p k r L _. cbn [at_]. rewrite <- L, selected_app. reflexivity.
Qed.
(** Otherwise it fails: an axis the input does not have panics, an index out of range is an
    error. *)
Theorem C73_axis_panics axis (x : tens) indices : Z.of_nat (length (shp x)) <= newByIndicesOp axis -> byIndices x indices axis = Panic.
Proof. intro H. unfold byIndices, byIndicesShape. apply Z.leb_le in H. rewrite H. reflexivity. Qed.
Theorem C73_index_refused (P R : list Z) d (x : tens) indices : shp x = P ++ d :: R -> (exists i, In i indices /\ ~ 0 <= i < d) -> byIndices x indices (Z.of_nat (length P)) = Err.
Proof.
  intros Sx [i [Hi Hn]]. assert (EA : newByIndicesOp (Z.of_nat (length P)) = Z.of_nat (length P)) by (unfold newByIndicesOp; destruct (_ <? 0) eqn:E; lia).
  unfold byIndices. rewrite EA. unfold byIndicesShape. rewrite Sx, app_length. cbn [length]. replace (Z.of_nat (length P + S (length R)) <=? Z.of_nat (length P)) with false by (symmetry; apply Z.leb_gt; lia). cbn [bind].
  rewrite Nat2Z.id, nth_app. replace (existsb _ indices) with true; [reflexivity|]. symmetry. apply existsb_exists. exists i. split; [exact Hi|]. lia.
Qed.
(** The symbolic gradient is the adjoint of the selection: a value read several times gets
    the sum, one that was not read gets 0. *)
Theorem C73_gradient (P R : list Z) d axis (x y g : tens) indices : shp x = P ++ d :: R -> (axis = Z.of_nat (length P) \/ (P = [] /\ axis < 0)) -> Forall (fun i => 0 <= i < d) indices ->
  byIndices x indices axis = Ok y -> shp g = shp y ->
  exists gx, byIndicesSymDiff axis x indices g = Ok gx /\ pulled_back x y g gx /\
    forall p j r, length p = length P -> In (p ++ j :: r) (coords (shp x)) -> at_ gx (p ++ j :: r) = at_positions indices 0 j (fun k => at_ g (p ++ k :: r)).
Proof.
  intros Sx Ha HF Ey Sg. destruct (C73_value P R d axis x indices Sx Ha HF) as [y' [Ey' [Sy Vy]]]. rewrite Ey' in Ey. injection Ey as ->.
  assert (EA : newByIndicesOp axis = Z.of_nat (length P)).
  { unfold newByIndicesOp. destruct Ha as [->|[-> Ha]]; [destruct (_ <? 0) eqn:E; lia|]. replace (axis <? 0) with true by lia. reflexivity. }
  unfold byIndicesSymDiff, byIndicesDiffDo. rewrite EA. eexists. split; [reflexivity|]. rewrite Sy in Sg. split; [split; [reflexivity|]|].
  - cbn [at_ shp]. rewrite Sy. transitivity (ip (P ++ Z.of_nat (length indices) :: R) (fun full => at_ x (selected (Z.of_nat (length P)) indices full)) (at_ g)).
    + apply ip_ext; [|reflexivity]. intros full Hf. pose proof Hf as Hf'. apply inside_split in Hf'. destruct Hf' as [p [k [r [-> [Hp [Hk Hr]]]]]].
      rewrite <- (Z2Nat.id k) in Hf |- * by lia. rewrite (Vy p _ r) by (try (apply (inside_len _ _ Hp)); rewrite Sy; apply coords_in; exact Hf). rewrite <- (inside_len _ _ Hp). rewrite selected_app. reflexivity.
    + apply push.
      * intros full Hf. apply inside_split in Hf. destruct Hf as [p [k [r [-> [Hp [Hk Hr]]]]]]. rewrite <- (Z2Nat.id k) by lia. rewrite <- (inside_len _ _ Hp), selected_app, Sx. apply inside_split.
        exists p, (nth (Z.to_nat k) indices 0), r. split; [reflexivity|]. split; [exact Hp|]. split; [|exact Hr]. rewrite Forall_forall in HF. apply HF. apply nth_In. lia.
      * intros idx Hi. rewrite Sg. reflexivity.
  - intros p j r L Hi. cbn [at_]. apply coords_in in Hi. rewrite Sx in Hi. apply inside_split in Hi. destruct Hi as [p0 [j0 [r0' [E0 [Hp [Hj Hr]]]]]].
    destruct (app_inv_len p p0 (j :: r) (j0 :: r0')) as [<- E1]; [rewrite L; symmetry; apply inside_len, Hp|exact E0|]. injection E1 as <- <-.
    change 0 with (Z.of_nat 0). rewrite positions. rewrite Sg, over_app. cbn [over]. rewrite Nat2Z.id.
    transitivity (over P (fun p' => if eqShape p p' then sum (length indices) (fun k => if nth k indices 0 =? j then at_ g (p' ++ Z.of_nat k :: r) else r0) else r0)).
    + apply over_ext. intros p' Hp'. destruct (eqShape p p') eqn:E.
      * apply sum_ext. intros k Hk. destruct (nth k indices 0 =? j) eqn:Ek.
        -- rewrite <- (over_pick R r (fun r' => at_ g (p' ++ Z.of_nat k :: r')) Hr). apply over_ext. intros r' Hr'. rewrite <- (inside_len _ _ Hp'), selected_app.
           rewrite eqShape_app by (rewrite L; apply inside_len, Hp'). rewrite (eqShape_sym p' p), E, Ek. cbn [andb]. rewrite (eqShape_sym r' r). reflexivity.
        -- apply over_zero. intros r' Hr'. rewrite <- (inside_len _ _ Hp'), selected_app. rewrite eqShape_app by (rewrite L; apply inside_len, Hp'). rewrite Ek, andb_false_r. reflexivity.
      * apply sum_zero_ext. intros k Hk. apply over_zero. intros r' Hr'. rewrite <- (inside_len _ _ Hp'), selected_app. rewrite eqShape_app by (rewrite L; apply inside_len, Hp'). rewrite (eqShape_sym p' p), E. reflexivity.
    + rewrite (over_pick P p (fun p' => sum (length indices) (fun k => if nth k indices 0 =? j then at_ g (p' ++ Z.of_nat k :: r) else r0)) Hp). reflexivity.
Qed.
(** The automatic gradient always fails. *)
Theorem C73_automatic_fails axis (x : tens) indices out : byIndicesDoDiff axis x indices out = Err.
Proof. reflexivity. Qed.
End Proofs.
Print Assumptions C73_value.
Print Assumptions C73_axis_panics.
Print Assumptions C73_index_refused.
Print Assumptions C73_gradient.
Print Assumptions C73_automatic_fails.

(** Rows 2, 0, 2 of a 3-by-2 matrix, and the columns 1, 1. *)
Definition mk (s : list Z) (l : list Z) : @tens Z := Tn s (fun idx => nth (Z.to_nat (ravel s idx)) l 0).
Definition val (r : res (@tens Z)) : option (list Z * list Z) := match r with Ok t => Some (shp t, map (at_ t) (coords (shp t))) | _ => None end.
Example C73_ex : let x := mk [3; 2] [1; 2; 3; 4; 5; 6] in
  val (byIndices x [2; 0; 2] (-1)) = Some ([3; 2], [5; 6; 1; 2; 5; 6]) /\ val (byIndicesSymDiff 0 x [2; 0; 2] (mk [3; 2] [1; 2; 3; 4; 5; 6])) = Some ([3; 2], [3; 4; 0; 0; 6; 8]) /\
  val (byIndices x [1; 1] 1) = Some ([3; 2], [2; 2; 4; 4; 6; 6]) /\ val (byIndicesSymDiff 1 x [1; 1] (mk [3; 2] [1; 2; 3; 4; 5; 6])) = Some ([3; 2], [0; 3; 0; 7; 0; 11]) /\ byIndices x [1] 2 = Panic.
Proof. repeat split; vm_compute; reflexivity. Qed.
