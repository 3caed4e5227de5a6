(** Lines, derivatives and the regrouping of double sums. *)
From Coq Require Import List ZArith Reals Bool Lia Lra Psatz.
From Verif Require Import Sums BroadcastModel BroadcastSpec BroadcastProofs ShapeGradModel ShapeGradSpec ShapeGradProofs ShapeGradSum ReduceSpec ReduceProofs ReduceFlow SoftmaxModel SoftmaxSpec.
Import ListNotations.
Local Open Scope R_scope.

Notation lsumR := (@lsum R CRing_R).
Lemma lsumR_cons x l : lsumR (x :: l) = x + lsumR l. Proof. reflexivity. Qed.
Lemma lsumR_nil : lsumR [] = 0. Proof. reflexivity. Qed.
Lemma lsum_mul_r {B} (f : B -> R) c l : lsumR (map (fun j => f j * c) l) = lsumR (map f l) * c.
Proof. induction l as [|x l IH]; cbn [map]; rewrite ?lsumR_cons, ?lsumR_nil; [ring|]. rewrite IH. ring. Qed.
Lemma lsum_add {B} (f g : B -> R) l : lsumR (map (fun j => f j + g j) l) = lsumR (map f l) + lsumR (map g l).
Proof. induction l as [|x l IH]; cbn [map]; rewrite ?lsumR_cons, ?lsumR_nil; [ring|]. rewrite IH. ring. Qed.
Lemma lsum_pos {B} (f : B -> R) l : l <> [] -> (forall x, In x l -> 0 < f x) -> 0 < lsumR (map f l).
Proof.
  intros N H. assert (G : 0 <= lsumR (map f l) /\ (l <> [] -> 0 < lsumR (map f l))); [|apply G, N]. clear N.
  induction l as [|x l IH]; cbn [map]; rewrite ?lsumR_cons, ?lsumR_nil; [split; [lra|congruence]|].
  destruct IH as [IH _]; [intros; apply H; right; assumption|]. pose proof (H x (or_introl eq_refl)). split; intros; lra.
Qed.

(** ** Derivatives *)
Lemma dexp_line a b : derivable_pt_lim (fun h => exp (a + h * b)) 0 (b * exp a).
Proof.
  assert (L : derivable_pt_lim (fun h => a + h * b) 0 b).
  { apply (lin_deriv _ 0 b 1); [lra|]. intros h _. ring. }
  pose proof (derivable_pt_lim_comp (fun h => a + h * b) exp 0 b (exp (a + 0 * b)) L (derivable_pt_lim_exp _)) as D.
  replace (b * exp a) with (exp (a + 0 * b) * b) by (rewrite Rmult_0_l, Rplus_0_r; ring). exact D.
Qed.
Lemma dsum {B} (F : B -> R -> R) (D : B -> R) l : (forall j, In j l -> derivable_pt_lim (F j) 0 (D j)) ->
  derivable_pt_lim (fun h => lsumR (map (fun j => F j h) l)) 0 (lsumR (map D l)).
Proof.
  induction l as [|x l IH]; intro H; cbn [map].
  - rewrite lsumR_nil. apply (lin_deriv _ 0 0 1); [lra|]. intros. cbn. ring.
  - rewrite lsumR_cons. apply (derivable_pt_lim_plus (F x) (fun h => lsumR (map (fun j => F j h) l))); [apply H; left; reflexivity|].
    apply IH. intros; apply H; right; assumption.
Qed.
Lemma d_ext f g x l : (forall h, f h = g h) -> derivable_pt_lim f x l -> derivable_pt_lim g x l.
Proof. intros E H eps He. destruct (H eps He) as [d Hd]. exists d. intros h Hh Hl. rewrite <- !E. apply Hd; assumption. Qed.

Section Line.
Context {B : Type}.
Variables (x u : B -> R) (l : list B).
Hypothesis (ne : l <> []).
Let S h := lsumR (map (fun j => exp (x j + h * u j)) l).
Let S' := lsumR (map (fun j => u j * exp (x j)) l).
Lemma S_pos h : 0 < S h.
Proof. apply lsum_pos; [exact ne|]. intros. apply exp_pos. Qed.
Lemma S_0 : S 0 = lsumR (map (fun j => exp (x j)) l).
Proof. unfold S. f_equal. apply map_ext. intro j. f_equal. ring. Qed.
Lemma S_deriv : derivable_pt_lim S 0 S'.
Proof. apply (dsum (fun j h => exp (x j + h * u j))). intros j _. apply dexp_line. Qed.
Lemma soft_deriv i : derivable_pt_lim (fun h => exp (x i + h * u i) / S h) 0
  (exp (x i) / S 0 * (u i - lsumR (map (fun j => exp (x j) / S 0 * u j) l))).
Proof.
  pose proof (S_pos 0) as P.
  pose proof (derivable_pt_lim_div (fun h => exp (x i + h * u i)) S 0 _ _ (dexp_line (x i) (u i)) S_deriv ltac:(lra)) as D.
  cbv beta in D. match type of D with derivable_pt_lim _ _ ?d => replace (exp (x i) / S 0 * (u i - lsumR (map (fun j => exp (x j) / S 0 * u j) l))) with d; [exact D|] end.
  assert (E : lsumR (map (fun j => exp (x j) / S 0 * u j) l) = S' * / S 0).
  { unfold S'. rewrite <- lsum_mul_r. f_equal. apply map_ext. intro j. unfold Rdiv. ring. }
  rewrite E, Rmult_0_l, Rplus_0_r. unfold Rsqr. field. lra.
Qed.
Lemma log_deriv i : derivable_pt_lim (fun h => ln (exp (x i + h * u i) / S h)) 0
  (u i - lsumR (map (fun j => exp (x j) / S 0 * u j) l)).
Proof.
  pose proof (S_pos 0) as P.
  assert (E : forall h, x i + h * u i - ln (S h) = ln (exp (x i + h * u i) / S h)).
  { intro h. unfold Rdiv. rewrite ln_mult; [|apply exp_pos|apply Rinv_0_lt_compat, S_pos]. rewrite ln_exp, ln_Rinv by apply S_pos. ring. }
  apply (d_ext _ _ _ _ E).
  assert (L : derivable_pt_lim (fun h => x i + h * u i) 0 (u i)) by (apply (lin_deriv _ 0 (u i) 1); [lra|]; intros; ring).
  pose proof (derivable_pt_lim_comp S ln 0 _ _ S_deriv (derivable_pt_lim_ln _ P)) as D.
  pose proof (derivable_pt_lim_minus _ _ _ _ _ L D) as M.
  replace (u i - lsumR (map (fun j => exp (x j) / S 0 * u j) l)) with (u i - / S 0 * S'); [exact M|]. f_equal.
  unfold S'. rewrite Rmult_comm, <- lsum_mul_r. f_equal. apply map_ext. intro j. unfold Rdiv. ring.
Qed.
End Line.

(** ** Lines *)
Definition onLine (a : Z) (i j : list Z) : bool := eqShape (without [a] 0 j) (without [a] 0 i).
Lemma onLine_sym a i j : onLine a i j = onLine a j i.
Proof. unfold onLine. destruct (eqShape (without [a] 0 j) _) eqn:E; symmetry; [apply eqShape_iff; apply eqShape_iff in E; congruence|].
  destruct (eqShape (without [a] 0 i) _) eqn:F; [|reflexivity]. apply eqShape_iff in F. rewrite F, eqShape_refl in E. discriminate. Qed.
Lemma line_sum s a i (F : list Z -> R) : lsumR (map F (line s a i)) = lsumR (map (fun j => if onLine a i j then F j else 0) (coords s)).
Proof.
  unfold line, group. rewrite lsum_filter. reflexivity. Qed.
Lemma lineSum_line s a i (F : list Z -> R) : lineSum s a i F = lsumR (map F (line s a i)).
Proof.
  unfold lineSum. rewrite line_sum, over_coords. f_equal. apply map_ext. intro j. rewrite !drop_without. reflexivity.
Qed.
Lemma line_in s a i j : In j (line s a i) <-> In j (coords s) /\ onLine a i j = true.
Proof.
  unfold line, group, onLine. rewrite filter_In. reflexivity. Qed.
Lemma line_self s a i : In i (coords s) -> In i (line s a i).
Proof. intro H. apply line_in. split; [exact H|apply eqShape_refl]. Qed.
Lemma line_ne s a i : In i (coords s) -> line s a i <> [].
Proof. intros H E. pose proof (line_self s a i H) as I. rewrite E in I. exact I. Qed.
Lemma line_same s a i j : In j (line s a i) -> line s a j = line s a i.
Proof. intro H. apply line_in in H as [_ H]. unfold onLine in H. apply eqShape_iff in H. unfold line. rewrite H. reflexivity. Qed.

(** A double sum over lines read the other way round. *)
Lemma line_swap s a (f g : list Z -> R) :
  lsumR (map (fun i => f i * lsumR (map g (line s a i))) (coords s)) = lsumR (map (fun j => g j * lsumR (map f (line s a j))) (coords s)).
Proof.
  transitivity (lsumR (map (fun i => lsumR (map (fun j => if onLine a i j then f i * g j else 0) (coords s))) (coords s))).
  { f_equal. apply map_ext. intro i. rewrite line_sum, Rmult_comm, <- lsum_mul_r. f_equal. apply map_ext. intro j. destruct (onLine a i j); ring. }
  rewrite (@lsum_swap R CRing_R). f_equal. apply map_ext. intro j. rewrite line_sum, Rmult_comm, <- lsum_mul_r. f_equal. apply map_ext. intro i.
  rewrite (onLine_sym a j i). destruct (onLine a i j); ring.
Qed.

Lemma ip_deriv s (F : R -> list Z -> R) (D g : list Z -> R) : (forall i, In i (coords s) -> derivable_pt_lim (fun h => F h i) 0 (D i)) ->
  derivable_pt_lim (fun h => @ip R CRing_R s (F h) g) 0 (lsumR (map (fun i => D i * g i) (coords s))).
Proof.
  intro H. unfold ip. apply (dsum (fun i h => F h i * g i)). intros i Hi.
  pose proof (derivable_pt_lim_scal (fun h => F h i) (g i) 0 _ (H i Hi)) as K. rewrite Rmult_comm.
  apply (d_ext (mult_real_fct (g i) (fun h => F h i))); [|exact K]. intro h. unfold mult_real_fct. ring.
Qed.

Lemma soft_gradient a (x g : tensR) :
  is_gradient (softmax_of false a) x g (Tn (shp x) (fun i => let y := at_ (softmax_of false a x) in
    y i * (at_ g i - lsumR (map (fun j => y j * at_ g j) (line (shp x) a i))))).
Proof.
  split; [reflexivity|]. intro u. set (s := shp x). set (y := at_ (softmax_of false a x)).
  assert (D : forall i, In i (coords s) -> derivable_pt_lim (fun h => at_ (softmax_of false a (moved x u h)) i) 0 (y i * (u i - lsumR (map (fun j => y j * u j) (line s a i))))).
  { intros i Hi. pose proof (soft_deriv (at_ x) u (line s a i) (line_ne s a i Hi) i) as K.
    cbv zeta beta in K. rewrite !S_0 in K. unfold y, softmax_of, moved. cbn [at_ shp]. fold s.
    replace (lsumR (map (fun j => exp (at_ x j) / lsumR (map (fun j0 => exp (at_ x j0)) (line s a j)) * u j) (line s a i)))
      with (lsumR (map (fun j => exp (at_ x j) / lsumR (map (fun j0 => exp (at_ x j0)) (line s a i)) * u j) (line s a i))); [exact K|].
    apply lsum_ext. intros j Hj. rewrite (line_same s a i j Hj). reflexivity. }
  pose proof (ip_deriv s _ _ (at_ g) D) as K. cbn [at_]. unfold ip at 2. fold s. fold y.
  match type of K with derivable_pt_lim _ _ ?d => match goal with |- derivable_pt_lim _ _ ?e => replace e with d; [exact K|] end end.
  assert (W := line_swap s a (fun i => y i * at_ g i) (fun j => y j * u j)). cbv beta in W.
  transitivity (lsumR (map (fun i => y i * u i * at_ g i) (coords s)) - lsumR (map (fun i => y i * at_ g i * lsumR (map (fun j => y j * u j) (line s a i))) (coords s))).
  { rewrite <- (Rplus_0_r (lsumR (map (fun i => y i * u i * at_ g i) (coords s)) - _)). 
    match goal with |- _ = ?p - ?q + 0 => replace (p - q + 0) with (p + q * (-1)) by ring end. rewrite <- lsum_mul_r, <- lsum_add. f_equal. apply map_ext. intro i. ring. }
  rewrite W. match goal with |- ?p - ?q = _ => replace (p - q) with (p + q * (-1)) by ring end. rewrite <- lsum_mul_r, <- lsum_add. f_equal. apply map_ext. intro i.
  change (@rmul R CRing_R) with Rmult. ring.
Qed.
Lemma log_gradient a (x g : tensR) :
  is_gradient (softmax_of true a) x g (Tn (shp x) (fun i => let y := at_ (softmax_of true a x) in
    at_ g i - exp (y i) * lsumR (map (at_ g) (line (shp x) a i)))).
Proof.
  split; [reflexivity|]. intro u. set (s := shp x). set (p := at_ (softmax_of false a x)).
  assert (PE : forall i, In i (coords s) -> exp (at_ (softmax_of true a x) i) = p i).
  { intros i Hi. unfold softmax_of, p. cbn [at_]. apply exp_ln. apply Rdiv_lt_0_compat; [apply exp_pos|].
    apply lsum_pos; [apply line_ne, Hi|]. intros. apply exp_pos. }
  assert (D : forall i, In i (coords s) -> derivable_pt_lim (fun h => at_ (softmax_of true a (moved x u h)) i) 0 (u i - lsumR (map (fun j => p j * u j) (line s a i)))).
  { intros i Hi. pose proof (log_deriv (at_ x) u (line s a i) (line_ne s a i Hi) i) as K.
    cbv zeta beta in K. rewrite !S_0 in K. unfold p, softmax_of, moved. cbn [at_ shp]. fold s.
    replace (lsumR (map (fun j => exp (at_ x j) / lsumR (map (fun j0 => exp (at_ x j0)) (line s a j)) * u j) (line s a i)))
      with (lsumR (map (fun j => exp (at_ x j) / lsumR (map (fun j0 => exp (at_ x j0)) (line s a i)) * u j) (line s a i))); [exact K|].
    apply lsum_ext. intros j Hj. rewrite (line_same s a i j Hj). reflexivity. }
  pose proof (ip_deriv s _ _ (at_ g) D) as K. cbn [at_]. unfold ip at 2. fold s.
  match type of K with derivable_pt_lim _ _ ?d => match goal with |- derivable_pt_lim _ _ ?e => replace e with d; [exact K|] end end.
  assert (W := line_swap s a (fun i => at_ g i) (fun j => p j * u j)). cbv beta in W.
  transitivity (lsumR (map (fun i => u i * at_ g i) (coords s)) + lsumR (map (fun i => at_ g i * lsumR (map (fun j => p j * u j) (line s a i))) (coords s)) * (-1)).
  { rewrite <- lsum_mul_r, <- lsum_add. f_equal. apply map_ext. intro i. ring. }
  rewrite W. rewrite <- lsum_mul_r, <- lsum_add. apply lsum_ext. intros i Hi. rewrite (PE i Hi).
  change (@rmul R CRing_R) with Rmult. change (fun i0 => at_ g i0) with (at_ g). ring.
Qed.
