(** Derivatives of the likelihood. *)
From Coq Require Import Arith Lia Reals Lra List Bool.
From Verif Require Import CtcModel CtcSpec CtcPaths.
Import ListNotations.
Local Open Scope R_scope.

Lemma deriv_ext f g x l : (forall h, f h = g h) -> derivable_pt_lim f x l -> derivable_pt_lim g x l.
Proof. intros E D eps He. destruct (D eps He) as [d Hd]. exists d. intros h H1 H2. rewrite <- !E. apply Hd; assumption. Qed.

Lemma deriv_total {X} (F : X -> R -> R) (d : X -> R) x l :
  (forall a, In a l -> derivable_pt_lim (F a) x (d a)) ->
  derivable_pt_lim (fun h => total (fun a => F a h) l) x (total d l).
Proof.
  induction l as [|a l IH]; intro H.
  - unfold total. cbn [map fold_right]. apply (derivable_pt_lim_const 0).
  - apply (derivable_pt_lim_plus (F a) (fun h => total (fun a => F a h) l)).
    + apply H. left. reflexivity.
    + apply IH. intros b Hb. apply H. right. exact Hb.
Qed.

Section Lik.
Variables (L : nat) (p : R -> nat -> nat -> R) (d : nat -> nat -> R).
(** [d t c] is the derivative of the logarithm of the entry. *)
Hypothesis Hd : forall t c, (c < L)%nat -> derivable_pt_lim (fun h => p h t c) 0 (p 0 t c * d t c).

Fixpoint along (t : nat) (l : list nat) : R := match l with [] => 0 | c :: r => d t c + along (S t) r end.

Lemma path_deriv l : Forall (fun c => (c < L)%nat) l -> forall t,
  derivable_pt_lim (fun h => pathProb (p h) t l) 0 (pathProb (p 0) t l * along t l).
Proof.
  induction 1 as [|c l Hc H IH]; intro t; cbn [pathProb along].
  - rewrite Rmult_0_r. apply (derivable_pt_lim_const 1).
  - replace (p 0 t c * pathProb (p 0) (S t) l * (d t c + along (S t) l))
      with (p 0 t c * d t c * pathProb (p 0) (S t) l + p 0 t c * (pathProb (p 0) (S t) l * along (S t) l)) by ring.
    apply (derivable_pt_lim_mult (fun h => p h t c) (fun h => pathProb (p h) (S t) l)); [apply Hd, Hc|apply IH].
Qed.

Lemma along_total l : Forall (fun c => (c < L)%nat) l -> forall t,
  along t l = total (fun i => total (fun c => ind (nth i l L =? c)%nat * d (t + i)%nat c) (seq 0 L)) (seq 0 (length l)).
Proof.
  induction 1 as [|c l Hc H IH]; intro t; cbn [along length]; [reflexivity|].
  change (seq 0 (S (length l))) with (0%nat :: seq 1 (length l)). rewrite <- seq_shift.
  unfold total at 1. cbn [map fold_right]. f_equal.
  - cbn [nth]. rewrite Nat.add_0_r. symmetry. rewrite <- (total_seq_single (fun c => d t c) L c Hc).
    apply total_ext. intros j _. rewrite Nat.eqb_sym. destruct (j =? c)%nat; cbn [ind]; lra.
  - rewrite IH. rewrite map_map.
    match goal with |- _ = fold_right Rplus 0 (map ?f ?l) => change (fold_right Rplus 0 (map f l)) with (total f l) end.
    apply total_ext. intros i _. cbn [nth]. apply total_ext. intros j _. f_equal. f_equal. lia.
Qed.

Theorem likelihood_deriv T y :
  derivable_pt_lim (fun h => likelihood (p h) L T y) 0
    (total (fun t => total (fun c => likelihoodAt (p 0) L T y t c * d t c) (seq 0 L)) (seq 0 T)).
Proof.
  assert (E : total (fun t => total (fun c => likelihoodAt (p 0) L T y t c * d t c) (seq 0 L)) (seq 0 T) =
              total (fun l => pathProb (p 0) 0 l * along 0 l) (filter (is_label_of y) (paths L T))).
  { symmetry.
    transitivity (total (fun l => total (fun t => total (fun c =>
        (if is_label_of y l && (nth t l L =? c)%nat then pathProb (p 0) 0 l else 0) * d t c) (seq 0 L)) (seq 0 T)) (paths L T)).
    - rewrite total_filter. apply total_ext. intros l Hl. rewrite along_total by (eapply paths_bound; exact Hl).
      rewrite (paths_length L T l Hl). destruct (is_label_of y l); cbn [andb].
      + rewrite <- total_mul_l. apply total_ext. intros t _. rewrite <- total_mul_l. apply total_ext. intros c _.
        cbn [Nat.add]. destruct (nth t l L =? c)%nat; cbn [ind]; ring.
      + symmetry. apply total_zero. intros t _. apply total_zero. intros c _. ring.
    - rewrite total_swap. apply total_ext. intros t _. rewrite total_swap. apply total_ext. intros c _.
      rewrite total_mul_r. f_equal. unfold likelihoodAt. rewrite total_filter. reflexivity. }
  rewrite E. unfold likelihood. apply (deriv_total (fun l h => pathProb (p h) 0 l)).
  intros l Hl. apply filter_In in Hl as [Hl _]. apply path_deriv. eapply paths_bound; exact Hl.
Qed.

Theorem nll_deriv T y : 0 < likelihood (p 0) L T y ->
  derivable_pt_lim (fun h => - ln (likelihood (p h) L T y)) 0
    (- total (fun t => total (fun c => likelihoodAt (p 0) L T y t c / likelihood (p 0) L T y * d t c) (seq 0 L)) (seq 0 T)).
Proof.
  intro Hpos. apply (derivable_pt_lim_opp (fun h => ln (likelihood (p h) L T y))).
  assert (E : total (fun t => total (fun c => likelihoodAt (p 0) L T y t c / likelihood (p 0) L T y * d t c) (seq 0 L)) (seq 0 T)
     = / likelihood (p 0) L T y * total (fun t => total (fun c => likelihoodAt (p 0) L T y t c * d t c) (seq 0 L)) (seq 0 T)).
  { rewrite <- total_mul_l. apply total_ext. intros t _. rewrite <- total_mul_l. apply total_ext. intros c _. unfold Rdiv. ring. }
  rewrite E.
  apply (derivable_pt_lim_comp (fun h => likelihood (p h) L T y) ln).
  - apply likelihood_deriv.
  - apply derivable_pt_lim_ln, Hpos.
Qed.
End Lik.

(** Some label is observed at every time. *)
Lemma likelihoodAt_sum p L T y t : (t < T)%nat ->
  total (fun c => likelihoodAt p L T y t c) (seq 0 L) = likelihood p L T y.
Proof.
  intro Ht. unfold likelihoodAt, likelihood.
  transitivity (total (fun c => total (fun l => if is_label_of y l && (nth t l L =? c)%nat then pathProb p 0 l else 0) (paths L T)) (seq 0 L)).
  { apply total_ext. intros c _. apply total_filter. }
  rewrite total_swap, total_filter. apply total_ext. intros l Hl.
  pose proof (paths_length _ _ _ Hl) as Len. pose proof (paths_bound _ _ _ Hl) as Bd.
  destruct (is_label_of y l); cbn [andb]; [|apply total_zero; reflexivity].
  rewrite Forall_forall in Bd. assert (Hn : (nth t l L < L)%nat) by (apply Bd, nth_In; lia).
  etransitivity; [|apply (total_seq_single (fun _ => pathProb p 0 l) L (nth t l L) Hn)]. apply total_ext. intros c _.
  rewrite Nat.eqb_sym. reflexivity.
Qed.

(** ** Softmax *)

Lemma total_pos {X} (f : X -> R) l : l <> [] -> (forall x, In x l -> 0 < f x) -> 0 < total f l.
Proof.
  destruct l as [|a l]; [congruence|]. intros _ H. unfold total. cbn [map fold_right].
  pose proof (H a (or_introl eq_refl)). pose proof (total_nonneg f l) as G.
  assert (0 <= total f l) by (apply G; intros x Hx; left; apply H; right; exact Hx). unfold total in *. lra.
Qed.
Lemma softmax_denom L a : (0 < L)%nat -> 0 < total (fun j => exp (a j)) (seq 0 L).
Proof. intro H. apply total_pos; [destruct L; [lia|discriminate]|intros; apply exp_pos]. Qed.
Lemma softmax_pos L a c : (0 < L)%nat -> 0 < softmaxAt L a c.
Proof. intro H. apply Rdiv_lt_0_compat; [apply exp_pos|apply softmax_denom, H]. Qed.
Lemma softmax_sum L a : (0 < L)%nat -> total (softmaxAt L a) (seq 0 L) = 1.
Proof.
  intro H. unfold softmaxAt, Rdiv. rewrite total_mul_r. apply Rinv_r. apply Rgt_not_eq, softmax_denom, H.
Qed.
Lemma exp_line a u : derivable_pt_lim (fun h => exp (a + h * u)) 0 (exp a * u).
Proof.
  replace (exp a * u) with (exp (a + 0 * u) * u) by (rewrite Rmult_0_l, Rplus_0_r; reflexivity).
  apply (derivable_pt_lim_comp (fun h => a + h * u) exp).
  - assert (D : derivable_pt_lim (fun h => a + h * u) 0 (0 + (1 * u + 0 * 0))).
    { apply (derivable_pt_lim_plus (fun _ => a) (fun h => h * u)); [apply derivable_pt_lim_const|].
      apply (derivable_pt_lim_mult id (fun _ => u)); [apply derivable_pt_lim_id|apply derivable_pt_lim_const]. }
    replace (0 + (1 * u + 0 * 0)) with u in D by ring. exact D.
  - apply derivable_pt_lim_exp.
Qed.
Lemma softmax_deriv L a u c : (0 < L)%nat ->
  derivable_pt_lim (fun h => softmaxAt L (fun j => a j + h * u j) c) 0
    (softmaxAt L a c * (u c - total (fun j => softmaxAt L a j * u j) (seq 0 L))).
Proof.
  intro HL. pose proof (softmax_denom L a HL) as Hs.
  set (den := fun h => total (fun j => exp (a j + h * u j)) (seq 0 L)).
  assert (D0 : den 0 = total (fun j => exp (a j)) (seq 0 L)).
  { apply total_ext. intros j _. f_equal. lra. }
  assert (Dd : derivable_pt_lim den 0 (total (fun j => exp (a j) * u j) (seq 0 L))).
  { apply (deriv_total (fun j h => exp (a j + h * u j))). intros j _. apply exp_line. }
  assert (N0 : exp (a c + 0 * u c) = exp (a c)) by (f_equal; lra).
  pose proof (derivable_pt_lim_div (fun h => exp (a c + h * u c)) den 0 _ _ (exp_line (a c) (u c)) Dd) as G.
  rewrite D0 in G. specialize (G ltac:(lra)).
  match type of G with derivable_pt_lim _ _ ?v => replace v with
    (softmaxAt L a c * (u c - total (fun j => softmaxAt L a j * u j) (seq 0 L))) in G end.
  - exact G.
  - assert (E : total (fun j => softmaxAt L a j * u j) (seq 0 L) =
                total (fun j => exp (a j) * u j) (seq 0 L) * / total (fun j => exp (a j)) (seq 0 L)).
    { rewrite <- total_mul_r. apply total_ext. intros j _. unfold softmaxAt, Rdiv. ring. }
    rewrite E, N0. unfold softmaxAt, Rsqr. field. lra.
Qed.

(** Along softmax: probability minus posterior. *)
Theorem nll_softmax_deriv L T y (a u : nat -> nat -> R) : (0 < L)%nat ->
  let p := fun t c => softmaxAt L (a t) c in
  0 < likelihood p L T y ->
  derivable_pt_lim (fun h => - ln (likelihood (fun t c => softmaxAt L (fun j => a t j + h * u t j) c) L T y)) 0
    (total (fun t => total (fun c => (p t c - likelihoodAt p L T y t c / likelihood p L T y) * u t c) (seq 0 L)) (seq 0 T)).
Proof.
  intros HL p Hpos.
  set (q := fun h t c => softmaxAt L (fun j => a t j + h * u t j) c).
  assert (Q0 : q 0 = p -> derivable_pt_lim (fun h => - ln (likelihood (q h) L T y)) 0
    (total (fun t => total (fun c => (p t c - likelihoodAt p L T y t c / likelihood p L T y) * u t c) (seq 0 L)) (seq 0 T))).
  { intro Q0.
    pose proof (nll_deriv L q (fun t c => u t c - total (fun j => p t j * u t j) (seq 0 L))) as D.
    rewrite Q0 in D. specialize (D (fun t c _ => softmax_deriv L (a t) (u t) c HL) T y Hpos).
    match type of D with derivable_pt_lim _ _ ?v => match goal with |- derivable_pt_lim _ _ ?w => replace w with v; [exact D|] end end.
    rewrite <- Ropp_involutive. f_equal. symmetry.
    rewrite <- (Rmult_1_l (total _ (seq 0 T))) at 1. rewrite Ropp_mult_distr_l, <- total_mul_l.
    apply total_ext. intros t Ht. apply in_seq in Ht.
    set (P := likelihood p L T y) in *. set (m := total (fun j => p t j * u t j) (seq 0 L)).
    transitivity (total (fun c => likelihoodAt p L T y t c / P * u t c) (seq 0 L) - m).
    - transitivity (-1 * (m + -1 * total (fun c => likelihoodAt p L T y t c / P * u t c) (seq 0 L))); [|ring].
      f_equal. unfold m. rewrite <- total_mul_l, <- total_add. apply total_ext. intros c _. ring.
    - transitivity (total (fun c => likelihoodAt p L T y t c / P * u t c) (seq 0 L) +
                    total (fun c => likelihoodAt p L T y t c) (seq 0 L) * (- m / P)).
      + rewrite likelihoodAt_sum by lia. fold P. field. lra.
      + rewrite <- total_mul_r, <- total_add. apply total_ext. intros c _. field. lra. }
  apply Q0. clear. unfold q, p. apply FunctionalExtensionality.functional_extensionality. intro t.
  apply FunctionalExtensionality.functional_extensionality. intro c. f_equal.
  apply FunctionalExtensionality.functional_extensionality. intro j. lra.
Qed.
