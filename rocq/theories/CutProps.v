(** Property theorems of C46 about the float32 kernels and about order. *)
Require Import Coq.Reals.Reals Coq.micromega.Lra.
Require Import Verif.CalcModel Verif.CalcSpec Verif.CutModel.
Local Open Scope R_scope.

Lemma e_pos x : 0 < exp x. Proof. apply exp_pos. Qed.
Lemma e_le x y : x <= y -> exp x <= exp y.
Proof. intros [H|H]; [left; apply exp_increasing; exact H|right; congruence]. Qed.
Lemma sg_le x : / (1 + exp (- x)) <= exp x.
Proof.
  pose proof (e_pos (- x)). replace (exp x) with (/ exp (- x)) by (rewrite exp_Ropp, Rinv_inv; reflexivity).
  apply Rinv_le_contravar; lra.
Qed.
Lemma sg_sum x : / (1 + exp (- x)) + / (1 + exp x) = 1.
Proof. pose proof (e_pos x). rewrite exp_Ropp. field. lra. Qed.
Lemma sg_pos x : 0 < / (1 + exp x).
Proof. apply Rinv_0_lt_compat. pose proof (e_pos x). lra. Qed.
Lemma lp_le t : 0 < t -> 0 < ln (1 + t) <= t.
Proof.
  intro H. split.
  - rewrite <- ln_1. apply ln_increasing; lra.
  - rewrite <- (ln_exp t) at 2. left. apply ln_increasing; [lra|]. apply exp_ineq1. lra.
Qed.
Lemma lp_split x : ln (1 + exp x) = x + ln (1 + exp (- x)).
Proof.
  pose proof (e_pos x). pose proof (e_pos (- x)). rewrite <- (ln_exp x) at 2. rewrite <- ln_mult; [|lra|lra].
  f_equal. rewrite Rmult_plus_distr_l, <- exp_plus, Rplus_opp_r, exp_0. ring.
Qed.
Lemma sg_mono x y : x <= y -> / (1 + exp (- x)) <= / (1 + exp (- y)).
Proof.
  intro H. pose proof (e_pos (- y)). apply Rinv_le_contravar; [lra|]. assert (exp (- y) <= exp (- x)) by (apply e_le; lra). lra.
Qed.
Lemma lp_mono x y : x <= y -> ln (1 + exp x) <= ln (1 + exp y).
Proof.
  intros [H|H]; [|subst; lra]. left. pose proof (e_pos x). apply ln_increasing; [lra|].
  pose proof (exp_increasing _ _ H). lra.
Qed.

(** The float32 kernels are within exp(-15) and exp(-14) of the functions. *)
Theorem C46_sigmoid32_cutoff : forall x, Rabs (sigmoid32 x - / (1 + exp (- x))) <= exp (-15).
Proof.
  intro x. unfold sigmoid32. destruct (Rlt_dec x (-88)) as [H|H].
  - pose proof (sg_pos (- x)). pose proof (sg_le x). assert (exp x <= exp (-15)) by (apply e_le; lra).
    rewrite Rabs_left; lra.
  - destruct (Rlt_dec 15 x) as [H2|H2].
    + pose proof (sg_pos x). pose proof (sg_sum x). pose proof (sg_le (- x)) as L. rewrite Ropp_involutive in L.
      assert (exp (- x) <= exp (-15)) by (apply e_le; lra). rewrite Rabs_right; lra.
    + replace (1 / (1 + exp (- x)) - / (1 + exp (- x))) with 0 by (unfold Rdiv; ring).
      rewrite Rabs_R0. left. apply e_pos.
Qed.
Theorem C46_softplus32_cutoff : forall x, Rabs (softplus32 x - ln (1 + exp x)) <= exp (-14).
Proof.
  intro x. unfold softplus32. destruct (Rlt_dec x (-103)) as [H|H].
  - pose proof (lp_le (exp x) (e_pos x)). assert (exp x <= exp (-14)) by (apply e_le; lra). rewrite Rabs_left; lra.
  - destruct (Rlt_dec 14 x) as [H2|H2].
    + rewrite lp_split. pose proof (lp_le (exp (- x)) (e_pos _)). assert (exp (- x) <= exp (-14)) by (apply e_le; lra).
      rewrite Rabs_left; lra.
    + rewrite Rminus_eq_0, Rabs_R0. left. apply e_pos.
Qed.
Print Assumptions C46_sigmoid32_cutoff.
Print Assumptions C46_softplus32_cutoff.
Example C46_32_ex : sigmoid32 16 = 1 /\ sigmoid32 (-89) = 0 /\ softplus32 15 = 15 /\ softplus32 (-104) = 0.
Proof.
  unfold sigmoid32, softplus32. repeat split;
  repeat match goal with |- context [Rlt_dec ?a ?b] => destruct (Rlt_dec a b); try lra end.
Qed.

(** The sigmoid kernels never decrease and stay between 0 and 1, cut-offs included. *)
Theorem C46_sigmoid_monotone : forall x y, x <= y ->
  0 <= sigmoid_code x <= sigmoid_code y /\ sigmoid_code y <= 1 /\ 0 <= sigmoid32 x <= sigmoid32 y /\ sigmoid32 y <= 1.
Proof.
  intros x y H. unfold sigmoid_code, sigmoid32, Rdiv. rewrite !Rmult_1_l.
  pose proof (sg_pos (- x)). pose proof (sg_pos (- y)). pose proof (sg_pos x). pose proof (sg_pos y).
  pose proof (sg_sum x). pose proof (sg_sum y). pose proof (sg_mono x y H).
  repeat match goal with |- context [Rlt_dec ?a ?b] => destruct (Rlt_dec a b) end; lra.
Qed.
Print Assumptions C46_sigmoid_monotone.
Example C46_sigmoid_monotone_ex : sigmoid_code 19 < sigmoid_code 20 /\ sigmoid_code (-710) < sigmoid_code (-709).
Proof.
  unfold sigmoid_code. repeat match goal with |- context [Rlt_dec ?a ?b] => destruct (Rlt_dec a b); try lra end.
  unfold Rdiv. rewrite !Rmult_1_l. pose proof (sg_pos 19). pose proof (sg_sum 19). pose proof (sg_pos (- (-709))). lra.
Qed.

(** The softplus kernels never decrease either, except that the second argument lies within
    exp(-16), for float32 exp(-14), above the upper cut-off and the first does not. *)
Theorem C46_softplus_monotone : forall x y, x <= y ->
  (y <= 16 \/ 16 < x \/ 16 + exp (-16) <= y -> 0 <= softplus_code x <= softplus_code y) /\
  (y <= 14 \/ 14 < x \/ 14 + exp (-14) <= y -> 0 <= softplus32 x <= softplus32 y).
Proof.
  intros x y H. unfold softplus_code, softplus32.
  pose proof (lp_le _ (e_pos x)). pose proof (lp_le _ (e_pos y)). pose proof (lp_mono x y H).
  pose proof (e_pos (-16)). pose proof (e_pos (-14)).
  assert (A : forall c, x <= c -> ln (1 + exp x) <= c + exp (- c)).
  { intros c L. apply Rle_trans with (ln (1 + exp c)); [apply lp_mono; exact L|]. rewrite lp_split.
    pose proof (lp_le _ (e_pos (- c))). lra. }
  pose proof (A 16). pose proof (A 14). replace (- (16)) with (-16) in * by lra. replace (- (14)) with (-14) in * by lra.
  split; intro C; repeat match goal with |- context [Rlt_dec ?a ?b] => destruct (Rlt_dec a b) end; lra.
Qed.
(** There they do decrease: the step down at 16 is ln(1+exp(-16)), over 1e-7. *)
Theorem C46_softplus_monotone_refuted :
  (exists x y, x < y /\ softplus_code y < softplus_code x) /\ (exists x y, x < y /\ softplus32 y < softplus32 x).
Proof.
  assert (G : forall c, exists y, c < y < ln (1 + exp c)).
  { intro c. pose proof (lp_le _ (e_pos (- c))). exists (c + ln (1 + exp (- c)) / 2). rewrite (lp_split c). lra. }
  destruct (G 16) as [y Hy]. destruct (G 14) as [z Hz]. unfold softplus_code, softplus32.
  split; [exists 16, y|exists 14, z]; (split; [lra|]);
    repeat match goal with |- context [Rlt_dec ?a ?b] => destruct (Rlt_dec a b) end; lra.
Qed.
Print Assumptions C46_softplus_monotone.
Print Assumptions C46_softplus_monotone_refuted.
Example C46_softplus_monotone_ex : (16 < 17 /\ 16 + exp (-16) <= 17) /\ softplus_code 16 <= softplus_code 17.
Proof.
  assert (E : exp (-16) <= 1) by (rewrite <- exp_0; apply e_le; lra).
  split; [lra|]. apply (C46_softplus_monotone 16 17); lra.
Qed.
