(** C63: SoftMax and LogSoftMax along an axis, and their gradient. *)
From Coq Require Import List ZArith Reals Bool Lia Lra Psatz.
From Verif Require Import Sums BroadcastModel BroadcastSpec BroadcastProofs ShapeGradModel ShapeGradSpec ShapeGradProofs ShapeGradSum ReduceSpec ReduceProofs ReduceFlow SoftmaxModel SoftmaxSpec SoftmaxProofs.
Import ListNotations.
Local Open Scope Z_scope.

Lemma lib_value isLog x ax : same (libSoftMax isLog x ax) (softmax_of isLog (resolveAxis ax (shp x)) x).
Proof.
  split; [reflexivity|]. intros idx Hi. unfold libSoftMax, softmax_of. cbn [at_ shp]. cbv zeta. rewrite lineSum_line. destruct isLog; [|reflexivity].
  assert (P : (0 < lsumR (map (fun j => exp (at_ x j)) (line (shp x) (resolveAxis ax (shp x)) idx)))%R) by (apply lsum_pos; [apply line_ne; exact Hi|intros; apply exp_pos]).
  unfold Rdiv. rewrite ln_mult; [|apply exp_pos|apply Rinv_0_lt_compat, P]. rewrite ln_exp, ln_Rinv by exact P. ring.
Qed.
Lemma resolve_in s a b : 0 <= a < Z.of_nat (length s) -> b = a \/ b = a - Z.of_nat (length s) -> resolveAxis b s = a.
Proof.
  intros H [->| ->]; unfold resolveAxis; [apply Z.mod_small; exact H|].
  replace (a - Z.of_nat (length s)) with (a + -1 * Z.of_nat (length s)) by ring. rewrite Z_mod_plus_full. apply Z.mod_small; exact H.
Qed.
Lemma col_of s : isColVec s = true <-> column s.
Proof.
  unfold isColVec, column. split.
  - destruct s as [|r [|c [|? ?]]]; try discriminate. intro H. apply andb_true_iff in H as [H1 H2]. apply Z.eqb_eq in H1. apply Z.ltb_lt in H2. subst. exists r. split; [reflexivity|lia].
  - intros [n [-> H]]. rewrite Z.eqb_refl. cbn [andb]. apply Z.ltb_lt. lia.
Qed.
Definition axis_opt (axes : list Z) : Z := match axes with a :: _ => a | [] => -1 end.
Lemma diff_axis axes s a : s <> [] -> axis_meant axes s a -> resolveAxis (axis_opt axes) s = a /\ 0 <= a < Z.of_nat (length s).
Proof.
  intros N H. unfold axis_meant in H. destruct axes as [|b axes]; cbn [axis_opt].
  - assert (L : 0 < Z.of_nat (length s)) by (destruct s; [congruence|cbn [length]; lia]). split; [|lia]. apply resolve_in; lia.
  - destruct H as [H1 H2]. split; [apply resolve_in; assumption|exact H1].
Qed.
Lemma fwd_axis isLog axes s a : s <> [] -> axis_meant axes s a -> (axis_opt axes = -1 -> ~ column s) -> resolveAxis (forwardAxis (newSoftmaxOp isLog axes) s) s = a.
Proof.
  intros N H C. destruct (diff_axis axes s a N H) as [E R]. unfold forwardAxis, newSoftmaxOp. cbn [oaxis oLog]. fold (axis_opt axes).
  destruct (Z.eqb_spec (axis_opt axes) (-1)) as [K|K]; cbn [negb]; [|exact E]. specialize (C K).
  destruct (isColVec s) eqn:IC; [apply col_of in IC; contradiction|]. cbn [orb].
  assert (A : a = Z.of_nat (length s) - 1).
  { rewrite K in E. rewrite <- E. apply resolve_in; lia. }
  destruct (isVector s && negb (isRowVec s)) eqn:V; apply resolve_in; [exact R| |exact R|left; lia]. left.
  apply andb_true_iff in V as [V W]. unfold isVector in V. rewrite IC in V. apply negb_true_iff in W. rewrite W in V. cbn [orb] in V. apply Nat.eqb_eq in V. rewrite V in A. lia.
Qed.
Lemma api_value isLog axes x : shp x <> [] -> softmaxApi isLog axes x = Ok (libSoftMax isLog x (forwardAxis (newSoftmaxOp isLog axes) (shp x))).
Proof. intro N. unfold softmaxApi, softmaxDo, newSoftmaxOp. cbn [oLog]. destruct (shp x); [congruence|reflexivity]. Qed.

(** SoftMax (LogSoftMax) of a tensor with at least one axis is the softmax (its logarithm)
    along the axis meant. The one exception is a column without an explicit axis. *)
Theorem C63_value : forall isLog axes (x : tensR) a, shp x <> [] -> axis_meant axes (shp x) a ->
  (axes = [] \/ hd 0 axes = -1 -> ~ column (shp x)) ->
  exists y, softmaxApi isLog axes x = Ok y /\ same y (softmax_of isLog a x).
Proof.
  intros isLog axes x a N H C. eexists. split; [apply api_value, N|].
  pose proof (lib_value isLog x (forwardAxis (newSoftmaxOp isLog axes) (shp x))) as K. rewrite (fwd_axis isLog axes (shp x) a N H) in K; [exact K|].
  intro E. apply C. destruct axes; [left; reflexivity|right; exact E].
Qed.
(** Only scalars are refused. *)
Theorem C63_scalar_refused : forall isLog axes (x : tensR), softmaxApi isLog axes x = Err <-> shp x = [].
Proof.
  intros isLog axes x. split; intros H.
  - destruct (shp x) as [|n s] eqn:E; [reflexivity|]. rewrite api_value in H by congruence. discriminate.
  - unfold softmaxApi, softmaxDo. rewrite H. reflexivity.
Qed.
(** A column without an explicit axis is treated as a vector: the softmax goes down the
    column. *)
Theorem C63_column : forall isLog axes (x : tensR), column (shp x) -> axes = [] \/ hd 0 axes = -1 ->
  exists y, softmaxApi isLog axes x = Ok y /\ same y (softmax_of isLog 0 x).
Proof.
  intros isLog axes x HC HA. pose proof HC as [n [E Hn]]. eexists. split; [apply api_value; rewrite E; discriminate|].
  assert (F : forwardAxis (newSoftmaxOp isLog axes) (shp x) = 0).
  { unfold forwardAxis. apply col_of in HC. rewrite HC. cbn [orb newSoftmaxOp oaxis]. destruct HA as [->|HA]; [reflexivity|]. destruct axes as [|b axes]; [reflexivity|]. cbn [hd] in HA. subst b. reflexivity. }
  pose proof (lib_value isLog x (forwardAxis (newSoftmaxOp isLog axes) (shp x))) as K. rewrite F in *. rewrite E in K at 1. exact K.
Qed.
(** The entries are positive and sum to one along every line. *)
Theorem C63_sums_to_one : forall axes (x y : tensR) a, shp x <> [] -> axis_meant axes (shp x) a -> (axes = [] \/ hd 0 axes = -1 -> ~ column (shp x)) ->
  softmaxApi false axes x = Ok y -> forall idx, In idx (coords (shp x)) ->
  (0 < at_ y idx)%R /\ lsum (map (at_ y) (line (shp x) a idx)) = 1%R.
Proof.
  intros axes x y a N H C E idx Hi. destruct (C63_value false axes x a N H C) as [y' [E' [S V]]]. rewrite E in E'. injection E' as <-. cbn [softmax_of shp] in S. rewrite S in V.
  assert (P : (0 < lsumR (map (fun j => exp (at_ x j)) (line (shp x) a idx)))%R) by (apply lsum_pos; [apply line_ne; exact Hi|intros; apply exp_pos]).
  split; [rewrite (V idx Hi); unfold softmax_of; cbn [at_]; apply Rdiv_lt_0_compat; [apply exp_pos|exact P]|].
  transitivity (lsumR (map (fun j => (exp (at_ x j) * / lsumR (map (fun j => exp (at_ x j)) (line (shp x) a idx)))%R) (line (shp x) a idx))).
  - apply lsum_ext. intros j Hj. pose proof (proj1 (line_in _ _ _ _) Hj) as [Hc _]. rewrite (V j Hc). unfold softmax_of. cbn [at_]. rewrite (line_same _ _ _ _ Hj). reflexivity.
  - rewrite lsum_mul_r. apply Rinv_r. lra.
Qed.

Lemma gradient_ext f x g g1 g2 : same g1 g2 -> is_gradient f x g g1 -> is_gradient f x g g2.
Proof.
  intros [S V] [S1 G]. split; [congruence|]. intro u. specialize (G u). replace (ip (shp x) u (at_ g2)) with (ip (shp x) u (at_ g1)); [exact G|].
  apply lsum_ext. intros i Hi. f_equal. apply V. rewrite S1. exact Hi.
Qed.
Lemma libB isLog (x y g : tensR) ax : same y (softmax_of isLog (resolveAxis ax (shp x)) x) -> is_gradient (softmax_of isLog (resolveAxis ax (shp x))) x g (libSoftMaxB isLog y g ax).
Proof.
  intros [S V]. cbn [softmax_of shp] in S. rewrite S in V. set (a := resolveAxis ax (shp x)) in *. destruct isLog.
  - refine (gradient_ext _ _ _ _ _ _ (log_gradient a x g)). split; [symmetry; exact S|]. cbn [shp at_]. intros i Hi. unfold libSoftMaxB. cbn [at_]. cbv zeta. rewrite S, lineSum_line. fold a. rewrite (V i Hi). reflexivity.
  - refine (gradient_ext _ _ _ _ _ _ (soft_gradient a x g)). split; [symmetry; exact S|]. cbn [shp at_]. intros i Hi. unfold libSoftMaxB. cbn [at_]. cbv zeta. rewrite S, lineSum_line. fold a. rewrite (V i Hi).
    f_equal. f_equal. apply lsum_ext. intros j Hj. apply line_in in Hj as [Hj _]. rewrite (V j Hj). reflexivity.
Qed.
(** The symbolic gradient is the gradient: in every direction it gives the derivative of
    the inner product of the value with the incoming gradient. The same exception. *)
Theorem C63_gradient : forall isLog axes (x y g : tensR) a, shp x <> [] -> axis_meant axes (shp x) a -> (axes = [] \/ hd 0 axes = -1 -> ~ column (shp x)) ->
  softmaxApi isLog axes x = Ok y ->
  exists gx, softmaxSymDiff isLog axes x y g = Ok gx /\ is_gradient (softmax_of isLog a) x g gx.
Proof.
  intros isLog axes x y g a N H C E. destruct (C63_value isLog axes x a N H C) as [y' [E' V]]. rewrite E in E'. injection E' as <-.
  destruct (diff_axis axes (shp x) a N H) as [R _]. pose proof V as [S _]. cbn [softmax_of shp] in S.
  exists (libSoftMaxB isLog y g (axis_opt axes)). split.
  - unfold softmaxSymDiff, softmaxDiff. rewrite S. destruct (shp x); [congruence|reflexivity].
  - rewrite <- R. apply libB. rewrite R. exact V.
Qed.

Lemma two_le {B} (f : B -> R) l i j : (forall k, 0 < f k)%R -> In i l -> In j l -> i <> j -> (f i + f j <= lsumR (map f l))%R.
Proof.
  intros P. assert (Q : forall l, (0 <= lsumR (map f l))%R).
  { intro m. induction m as [|k m IH]; cbn [map]; rewrite ?lsumR_cons, ?lsumR_nil; [lra|]. pose proof (P k). lra. }
  assert (O : forall l i, In i l -> (f i <= lsumR (map f l))%R).
  { intro m. induction m as [|k m IH]; intros i0 H; [destruct H|]. cbn [map]; rewrite lsumR_cons. destruct H as [->|H]; [pose proof (Q m); lra|]. pose proof (IH i0 H). pose proof (P k). lra. }
  induction l as [|k l IH]; intros Hi Hj N; [destruct Hi|]. cbn [map]; rewrite lsumR_cons. destruct Hi as [->|Hi], Hj as [->|Hj]; [congruence| | |].
  - pose proof (O l j Hj). lra.
  - pose proof (O l i Hi). lra.
  - pose proof (IH Hi Hj N). pose proof (P k). lra.
Qed.
Lemma col_coords n i : In i (coords [n; 1]) <-> exists k, i = [k; 0] /\ 0 <= k < n.
Proof.
  rewrite coords_in. unfold inside. split.
  - intro H. inversion H as [|? k ? l Hk Hl]; subst. inversion Hl as [|? z ? l' Hz Hl']; subst. inversion Hl'; subst. exists k. split; [|exact Hk]. repeat f_equal. lia.
  - intros [k [-> Hk]]. repeat constructor; lia.
Qed.
Lemma col_line1 n i (F : list Z -> R) : In i (coords [n; 1]) -> lsumR (map F (line [n; 1] 1 i)) = F i.
Proof.
  intro Hi. rewrite line_sum, <- (over_pick [n; 1] i F) by (apply coords_in; exact Hi). rewrite over_coords. apply lsum_ext. intros j Hj.
  apply col_coords in Hi as [k [-> _]]. apply col_coords in Hj as [m [-> _]]. unfold onLine. cbn [without existsb Z.eqb Z.add Pos.eqb orb].
  destruct (eqShape [m] [k]) eqn:E1, (eqShape [k; 0] [m; 0]) eqn:E2; try reflexivity.
  - apply eqShape_iff in E1. injection E1 as ->. rewrite eqShape_refl in E2. discriminate.
  - apply eqShape_iff in E2. injection E2 as ->. rewrite eqShape_refl in E1. discriminate.
Qed.
Lemma soft_lt1 n (x : tensR) i : shp x = [n; 1] -> 2 <= n -> In i (coords (shp x)) -> (0 < at_ (softmax_of false 0 x) i < 1)%R.
Proof.
  intros S Hn Hi. unfold softmax_of. cbn [at_]. set (Z := lsumR (map (fun j => exp (at_ x j)) (line (shp x) 0 i))).
  assert (exists j, In j (line (shp x) 0 i) /\ i <> j) as [j [Hj Nj]].
  { rewrite S in *. apply col_coords in Hi as [k [-> Hk]]. exists [if k =? 0 then 1 else 0; 0]. split.
    - apply line_in. split; [apply col_coords; eexists; split; [reflexivity|destruct (k =? 0); lia]|reflexivity].
    - destruct (Z.eqb_spec k 0); congruence. }
  pose proof (two_le (fun j => exp (at_ x j)) _ i j (fun k => exp_pos _) (line_self _ _ _ Hi) Hj Nj) as T. fold Z in T. cbv beta in T.
  pose proof (exp_pos (at_ x i)). pose proof (exp_pos (at_ x j)). split; [apply Rdiv_lt_0_compat; lra|].
  apply (Rmult_lt_reg_r Z); [lra|]. unfold Rdiv. rewrite Rmult_assoc, Rinv_l by lra. lra.
Qed.
(** Moving every entry by the same amount does not change a softmax. *)
Lemma shift a (x : tensR) h i : at_ (softmax_of false a (moved x (fun _ => 1%R) h)) i = at_ (softmax_of false a x) i.
Proof.
  unfold softmax_of, moved. cbn [at_ shp].
  replace (lsumR (map (fun j => exp (at_ x j + h * 1)) (line (shp x) a i))) with (lsumR (map (fun j => exp (at_ x j)) (line (shp x) a i)) * exp h)%R
    by (rewrite <- lsum_mul_r; f_equal; apply map_ext; intro j; rewrite Rmult_1_r, exp_plus; reflexivity).
  rewrite Rmult_1_r, exp_plus. pose proof (exp_pos h). unfold Rdiv.
  destruct (Req_dec (lsumR (map (fun j => exp (at_ x j)) (line (shp x) a i))) 0) as [E|E]; [rewrite E, Rmult_0_l; rewrite Rinv_0; ring|].
  field. split; lra.
Qed.
(** For every column (without an explicit axis) the gradient is taken along the other axis
    than the value: with the incoming gradient 1 everywhere it is never the gradient. *)
Theorem C63_column_refuted : forall isLog axes (x y g : tensR), column (shp x) -> axes = [] \/ hd 0 axes = -1 ->
  softmaxApi isLog axes x = Ok y -> shp g = shp x -> (forall idx, at_ g idx = 1%R) ->
  exists gx, softmaxSymDiff isLog axes x y g = Ok gx /\ ~ is_gradient (softmax_of isLog 0) x g gx /\
    forall idx, In idx (coords (shp x)) -> let p := at_ (softmax_of false 0 x) idx in
      at_ gx idx = (if isLog then 1 - p else p * (1 - p))%R.
Proof.
  intros isLog axes x y g HC HA E Sg G1. destruct (C63_column isLog axes x HC HA) as [y' [E' [S V]]]. rewrite E in E'. injection E' as <-. destruct HC as [n [Sx Hn]].
  cbn [softmax_of shp] in S. rewrite S in V. assert (O : axis_opt axes = -1) by (destruct HA as [->|HA]; [reflexivity|destruct axes; [reflexivity|exact HA]]).
  assert (W : forall idx, In idx (coords (shp x)) -> at_ (libSoftMaxB isLog y g (axis_opt axes)) idx = (if isLog then 1 - at_ (softmax_of false 0 x) idx else at_ (softmax_of false 0 x) idx * (1 - at_ (softmax_of false 0 x) idx))%R).
  { intros i Hi. unfold libSoftMaxB. cbn [at_]. cbv zeta. rewrite !lineSum_line, S, O, Sx. change (resolveAxis (-1) [n; 1]) with 1. rewrite !col_line1 by (rewrite Sx in Hi; exact Hi). rewrite (V i Hi), !G1.
    destruct isLog; [|ring]. unfold softmax_of. cbn [at_]. rewrite exp_ln; [ring|]. apply (soft_lt1 n x i Sx Hn Hi). }
  exists (libSoftMaxB isLog y g (axis_opt axes)). split; [|split; [|exact W]].
  - unfold softmaxSymDiff, softmaxDiff. rewrite S, Sx. reflexivity.
  - intros [_ D]. specialize (D (fun _ => 1%R)).
    assert (C0 : derivable_pt_lim (fun h => ip (shp x) (at_ (softmax_of isLog 0 (moved x (fun _ => 1%R) h))) (at_ g)) 0%R 0%R).
    { apply (lin_deriv _ 0%R 0%R 1%R); [lra|]. intros h _. rewrite Rmult_0_l, Rplus_0_r. apply lsum_ext. intros i _.
      f_equal. pose proof (shift 0 x (0 + h)%R i) as K1. pose proof (shift 0 x 0%R i) as K2. unfold softmax_of, moved in *. cbn [at_ shp] in *. destruct isLog; rewrite K1, K2; reflexivity. }
    pose proof (uniqueness_limite _ _ _ _ D C0) as U.
    assert (P : (0 < ip (shp x) (fun _ => 1%R) (at_ (libSoftMaxB isLog y g (axis_opt axes))))%R); [|lra]. unfold ip. apply lsum_pos.
    + intro K. assert (I : In [0; 0] (coords (shp x))) by (rewrite Sx; apply col_coords; exists 0; split; [reflexivity|lia]). rewrite K in I. exact I.
    + intros i Hi. change (@rmul R CRing_R) with Rmult. rewrite (W i Hi), Rmult_1_l. pose proof (soft_lt1 n x i Sx Hn Hi). destruct isLog; [lra|]. apply Rmult_lt_0_compat; lra.
Qed.

(** A 2x2 matrix without an explicit axis meets the hypotheses: axis 1 is meant. *)
Example C63_matrix_ex : forall f : list Z -> R, let x := Tn [2; 2] f in
  axis_meant [] (shp x) 1 /\ ~ column (shp x) /\ exists y, softmaxApi false [] x = Ok y /\
  at_ y [0; 1] = (exp (f [0; 1]%Z) / (exp (f [0; 0]%Z) + exp (f [0; 1]%Z)))%R.
Proof.
  intros f x. assert (C : ~ column (shp x)) by (intros [n [E _]]; injection E as E; discriminate).
  split; [reflexivity|]. split; [exact C|]. destruct (C63_value false [] x 1 ltac:(discriminate) eq_refl (fun _ => C)) as [y [E [S V]]].
  exists y. split; [exact E|]. rewrite V by (rewrite S; compute; auto). unfold softmax_of. cbn [at_ shp x]. f_equal. f_equal.
  change (line [2; 2] 1 [0; 1]) with [[0; 0]; [0; 1]]. cbn [map]. rewrite !lsumR_cons, lsumR_nil. ring.
Qed.
(** A column of two equal entries: the gradient should be 0 but is 1/4. *)
Example C63_column_ex : let x := Tn [2; 1] (fun _ => 0%R) in let g := Tn [2; 1] (fun _ => 1%R) in
  column (shp x) /\ exists y gx, softmaxApi false [] x = Ok y /\ softmaxSymDiff false [] x y g = Ok gx /\ at_ gx [0; 0] = (1 / 4)%R.
Proof.
  intros x g. assert (HC : column (shp x)) by (exists 2; split; [reflexivity|lia]). split; [exact HC|].
  destruct (C63_column false [] x HC (or_introl eq_refl)) as [y [E _]]. destruct (C63_column_refuted false [] x y g HC (or_introl eq_refl) E eq_refl (fun _ => eq_refl)) as [gx [E2 [_ W]]].
  exists y, gx. split; [exact E|]. split; [exact E2|]. rewrite W by (compute; auto).
  unfold softmax_of. cbn [at_ shp x]. change (line [2; 1] 0 [0; 0]) with [[0; 0]; [1; 0]]. cbn [map]. rewrite !lsumR_cons, lsumR_nil, exp_0. field.
Qed.
Print Assumptions C63_value.
Print Assumptions C63_scalar_refused.
Print Assumptions C63_column.
Print Assumptions C63_sums_to_one.
Print Assumptions C63_gradient.
Print Assumptions C63_column_refuted.
