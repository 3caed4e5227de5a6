(** Property theorems C55: the gradient operator of the CTC loss. *)
From Coq Require Import Arith Lia Reals Lra List Bool.
From Verif Require Import LoopModel LoopProofs CtcModel CtcSpec CtcPaths CtcProofs CtcBatch CtcGrad CtcDeriv.
Import ListNotations.
Local Open Scope R_scope.

(** What a run of the operator and of its gradient operator leaves in the entry of
    time [t], batch entry [b], label [c]: probability minus posterior probability,
    times the incoming gradient, for every reduction; NaN where the probability is
    zero; -Inf beyond the input length. *)
Theorem C55_entries :
  forall (red : reduction) (T B L : nat) (p : nat -> nat -> nat -> R) (sh : targetShape)
         (ys : list (list nat)) (targets ilens : list nat) (g : R),
    (0 < L)%nat -> length ys = B -> length ilens = B ->
    (forall t b c, 0 <= p t b c) ->
    Forall (fun y => proper L y /\ y <> []) ys ->
    Forall (fun l => (0 < l <= T)%nat) ilens ->
    layout sh ys targets ->
    let q b := fun t c => p t b c in
    let P b := likelihood (q b) L (nth b ilens 0%nat) (nth b ys []) in
    (forall b, (b < B)%nat -> 0 < P b) ->
    exists loss alphas nlls slices,
      ctcForward red T B L (logTensor T B L p) sh targets ilens (map (@length nat) ys) = Some (loss, alphas, nlls) /\
      ctcBackward T B L (logTensor T B L p) sh targets ilens (map (@length nat) ys) alphas nlls (Fin g) = Some slices /\
      forall b, (b < B)%nat -> exists s, nth_error slices b = Some s /\
        forall t c, (t < T)%nat -> (c < L)%nat ->
          ((t < nth b ilens 0)%nat -> 0 < p t b c ->
             nth_error s (t * L + c) =
               Some (Fin ((p t b c - likelihoodAt (q b) L (nth b ilens 0%nat) (nth b ys []) t c / P b) * g))) /\
          ((t < nth b ilens 0)%nat -> p t b c = 0 -> nth_error s (t * L + c) = Some NaN) /\
          ((nth b ilens 0 <= t)%nat -> nth_error s (t * L + c) = Some MInf).
Proof.
  intros red T B L p sh ys targets ilens g HL Hys Hil Hp Hy Hlens Hlay q P HP.
  assert (Hy1 : Forall (proper L) ys) by (eapply Forall_impl; [|exact Hy]; cbv beta; tauto).
  assert (Hne : forall b, (b < B)%nat -> tl ys b <> []).
  { intros b Hb. rewrite Forall_forall in Hy. apply Hy, nth_In. lia. }
  destruct (forward_stored red T B L p sh ys targets ilens HL Hys Hil Hp Hy1 Hlens Hlay)
    as [alphas [nlls [[L1 [L2 St]] E]]]. cbn [fst snd] in *.
  assert (Hn : forall b, (b < B)%nat -> nth_error nlls b = Some (nllOf L p ys ilens b)) by (intros b Hb; apply St, Hb).
  destruct (lossOf_some red B L ys ilens HL Hys Hil nlls _ L2 Hn) as [loss El].
  rewrite El in E. exists loss, alphas, nlls.
  set (spec := fun b s => forall t c, (t < T)%nat -> (c < L)%nat ->
          ((t < nth b ilens 0)%nat -> 0 < p t b c ->
             nth_error s (t * L + c) =
               Some (Fin ((p t b c - likelihoodAt (q b) L (nth b ilens 0%nat) (nth b ys []) t c / P b) * g))) /\
          ((t < nth b ilens 0)%nat -> p t b c = 0 -> nth_error s (t * L + c) = Some NaN) /\
          ((nth b ilens 0 <= t)%nat -> nth_error s (t * L + c) = Some MInf)).
  unfold ctcBackward. cbv zeta.
  match goal with |- context [loop B ?f []] =>
    destruct (loop_inv B f (fun k acc => length acc = k /\ forall b, (b < k)%nat -> exists s, nth_error acc b = Some s /\ spec b s) [])
      as [slices [Es [_ Hs]]] end.
  - split; [reflexivity|]. intros b Hb. lia.
  - intros b acc Hb [La Ha].
    rewrite (aget_il B L ys ilens HL Hys Hil b Hb), (aget_tl B L ys ilens HL Hys Hil b Hb).
    destruct (section_ok T B L p b Hb) as [sec [-> Hsec]].
    destruct (St b Hb) as [[tab [Et Hrows]] En]. unfold aget. rewrite Et, En.
    pose proof Hrows as [Ltab _]. rewrite Ltab.
    destruct (diffOne_ok targets (targetOffset sh (map (@length nat) ys) b) (tl ys b) L T (il ilens b) (T * width B ys)
                (fun t c => p t b c) sec tab) with (nll := nllOf L p ys ilens b) (gOut := Fin g) as [s [E1 [Ls [G1 G2]]]].
    + rewrite Forall_forall in Hy1. apply Hy1, nth_In. lia.
    + exact HL.
    + apply placed_ok; [exact Hlay|lia].
    + intros; apply Hp.
    + rewrite Forall_forall in Hlens. apply Hlens, nth_In. lia.
    + exact Hsec.
    + assert (Hi : (il ilens b <= T)%nat) by (rewrite Forall_forall in Hlens; apply Hlens, nth_In; lia).
      pose proof (width_ok B L ys ilens HL Hys Hil b Hb) as Hw. nia.
    + exact Hrows.
    + rewrite E1. eexists. split; [reflexivity|]. split; [rewrite app_length, La; cbn [length]; lia|].
      intros b' Hb'. destruct (Nat.eq_dec b' b) as [->|D].
      * exists s. split; [rewrite nth_error_app2, La, Nat.sub_diag by lia; reflexivity|].
        fold (il ilens b) in *. intros t c Ht Hc. fold (il ilens b).
        assert (Hnll : nllOf L p ys ilens b = Fin (- ln (P b))).
        { unfold nllOf, negLogOf. change (lik L p ys ilens b) with (P b).
          destruct (Nat.eqb_spec (length (tl ys b)) 0) as [Z|_]; [destruct (tl ys b) eqn:F; [exfalso; exact (Hne b Hb F)|discriminate]|].
          destruct (Rlt_dec 0 (P b)) as [|N]; [reflexivity|]. exfalso. apply N, HP, Hb. }
        assert (Hprop : proper L (tl ys b)) by (rewrite Forall_forall in Hy1; apply Hy1, nth_In; lia).
        repeat apply conj.
        -- intros Hl Hpos. rewrite G1 by assumption. unfold entry. rewrite Hnll.
           rewrite (massAt_ok (tl ys b) L (il ilens b) Hprop HL ltac:(lia)) by exact Hl.
           change (fun t0 c0 => p t0 b c0) with (q b). fold (tl ys b).
           set (A := likelihoodAt (q b) L (il ilens b) (tl ys b) t c).
           assert (A0 : 0 <= A).
           { apply total_nonneg. intros l _. apply pathProb_nonneg. intros; apply Hp. }
           rewrite xexp_log by apply Hp. rewrite (logOf_pos (p t b c)) by exact Hpos.
           destruct (Req_EM_T A 0) as [Z|NZ].
           ++ rewrite Z, Rmult_0_l, logOf_zero. cbn [xadd xsub xneg xexp xmul]. do 2 f_equal. unfold Rdiv. ring.
           ++ assert (Pos : 0 < A * q b t c) by (apply Rmult_lt_0_compat; [lra|exact Hpos]).
              rewrite logOf_pos by exact Pos. cbn [xadd xsub xneg xexp xmul]. do 2 f_equal. pose proof (HP b Hb) as Pb. rewrite !exp_plus, !exp_Ropp, !exp_ln by assumption.
              unfold q. field. split; apply Rgt_not_eq; assumption.
        -- intros Hl Hz. rewrite G1 by assumption. unfold entry. rewrite Hnll, Hz.
           rewrite (massAt_ok (tl ys b) L (il ilens b) Hprop HL ltac:(lia)) by exact Hl.
           rewrite Hz, Rmult_0_r, logOf_zero. reflexivity.
        -- intros Hl. apply G2; lia.
      * destruct (Ha b' ltac:(lia)) as [s' [A C]]. exists s'. split; [|exact C]. rewrite nth_error_app1 by lia. exact A.
  - exists slices. split; [exact E|]. split; [exact Es|]. exact Hs.
Qed.

(** The number in an entry, for a positive table and incoming gradient 1. *)
Definition C55_value (L : nat) (q : nat -> nat -> R) (len : nat) (y : list nat) (t c : nat) : R :=
  q t c - likelihoodAt q L len y t c / likelihood q L len y.

(** Put behind a softmax, with the sum reduction, these entries are the derivatives
    of the loss by the scores. *)
Theorem C55_gradient_by_the_scores :
  forall (B L : nat) (a u : nat -> nat -> nat -> R) (ys : list (list nat)) (ilens : list nat),
    (0 < L)%nat ->
    let q h b := fun t c => softmaxAt L (fun j => a t b j + h * u t b j) c in
    let P h b := likelihood (q h b) L (nth b ilens 0%nat) (nth b ys []) in
    (forall b, (b < B)%nat -> 0 < P 0 b) ->
    derivable_pt_lim (fun h => reduced ReductionSum B (fun b => - ln (P h b)) (fun b => length (nth b ys []))) 0
      (total (fun b => total (fun t => total (fun c =>
         C55_value L (q 0 b) (nth b ilens 0%nat) (nth b ys []) t c * u t b c) (seq 0 L)) (seq 0 (nth b ilens 0%nat))) (seq 0 B)).
Proof.
  intros B L a u ys ilens HL q P HP. unfold reduced.
  assert (Q : forall b, q 0 b = (fun t c => softmaxAt L (a t b) c)).
  { intro b. unfold q. apply FunctionalExtensionality.functional_extensionality. intro t.
    apply FunctionalExtensionality.functional_extensionality. intro c. f_equal.
    apply FunctionalExtensionality.functional_extensionality. intro j. lra. }
  apply (deriv_total (fun b h => - ln (P h b))). intros b Hb. apply in_seq in Hb.
  specialize (HP b ltac:(lia)). unfold P in HP. rewrite Q in HP |- *.
  exact (nll_softmax_deriv L (nth b ilens 0%nat) (nth b ys []) (fun t => a t b) (fun t => u t b) HL HP).
Qed.

(** By the operator's own input, the log probabilities, the derivative is smaller by
    the probability itself. *)
Theorem C55_derivative_by_the_log_probabilities :
  forall (L len : nat) (l u : nat -> nat -> R) (y : list nat),
    let q h := fun t c => exp (l t c + h * u t c) in
    0 < likelihood (q 0) L len y ->
    derivable_pt_lim (fun h => - ln (likelihood (q h) L len y)) 0
      (total (fun t => total (fun c => (C55_value L (q 0) len y t c - q 0 t c) * u t c) (seq 0 L)) (seq 0 len)).
Proof.
  intros L len l u y q HP.
  assert (D : forall t c, (c < L)%nat -> derivable_pt_lim (fun h => q h t c) 0 (q 0 t c * u t c)).
  { intros t c _. unfold q at 2. rewrite Rmult_0_l, Rplus_0_r. apply exp_line. }
  pose proof (nll_deriv L q u D len y HP) as G.
  match type of G with derivable_pt_lim _ _ ?v => match goal with |- derivable_pt_lim _ _ ?w => replace w with v; [exact G|] end end.
  unfold C55_value. match goal with |- - ?x = _ => replace (- x) with ((-1) * x) by ring end. rewrite <- total_mul_l. apply total_ext. intros t _.
  rewrite <- total_mul_l. apply total_ext. intros c _. ring.
Qed.

(** So the operator does not return the gradient by its input ... *)
Theorem C55_gradient_by_the_input_refuted :
  ~ (forall (L len : nat) (l u : nat -> nat -> R) (y : list nat),
       (0 < L)%nat -> (0 < len)%nat -> proper L y -> y <> [] ->
       let q h := fun t c => exp (l t c + h * u t c) in
       0 < likelihood (q 0) L len y ->
       derivable_pt_lim (fun h => - ln (likelihood (q h) L len y)) 0
         (total (fun t => total (fun c => C55_value L (q 0) len y t c * u t c) (seq 0 L)) (seq 0 len))).
Proof.
  intro H. set (l := fun _ _ : nat => 0). set (u := fun _ c : nat => if (c =? 0)%nat then 1 else 0).
  specialize (H 2%nat 1%nat l u [1%nat] ltac:(lia) ltac:(lia) ltac:(repeat constructor) ltac:(discriminate)).
  cbv zeta in H.
  assert (HP : 0 < likelihood (fun t c => exp (l t c + 0 * u t c)) 2 1 [1%nat]).
  { unfold likelihood, total. cbn. pose proof (exp_pos (l 0%nat 1%nat + 0 * u 0%nat 1%nat)). unfold l, u in *. cbn in *. lra. }
  specialize (H HP). pose proof (C55_derivative_by_the_log_probabilities 2 1 l u [1%nat] HP) as G. cbv zeta in G.
  pose proof (uniqueness_limite _ _ _ _ H G) as E. unfold total in E. cbn [seq map fold_right] in E.
  unfold u in E. cbn [Nat.eqb] in E. unfold l in E.
  pose proof (exp_pos (0 + 0 * 1)). nra.
Qed.

(** ... nor, with the mean reduction, by the scores: the entries do not depend on the
    reduction (C55_entries), the derivative does. *)
Theorem C55_mean_reduction_refuted :
  ~ (forall (red : reduction) (B L : nat) (a u : nat -> nat -> nat -> R) (ys : list (list nat)) (ilens : list nat),
       (0 < L)%nat -> length ys = B -> length ilens = B -> Forall (fun y => proper L y /\ y <> []) ys ->
       let q h b := fun t c => softmaxAt L (fun j => a t b j + h * u t b j) c in
       let P h b := likelihood (q h b) L (nth b ilens 0%nat) (nth b ys []) in
       (forall b, (b < B)%nat -> 0 < P 0 b) ->
       derivable_pt_lim (fun h => reduced red B (fun b => - ln (P h b)) (fun b => length (nth b ys []))) 0
         (total (fun b => total (fun t => total (fun c =>
            C55_value L (q 0 b) (nth b ilens 0%nat) (nth b ys []) t c * u t b c) (seq 0 L)) (seq 0 (nth b ilens 0%nat))) (seq 0 B))).
Proof.
  intro H. set (a := fun _ _ _ : nat => 0). set (u := fun t _ c : nat => if (t =? 0)%nat && (c =? 1)%nat then 1 else 0).
  specialize (H ReductionMean 1%nat 3%nat a u [[1%nat; 2%nat]] [2%nat] ltac:(lia) eq_refl eq_refl).
  specialize (H ltac:(repeat constructor; try lia; discriminate)). cbv zeta in H.
  set (q := fun h b t c => softmaxAt 3 (fun j => a t b j + h * u t b j) c) in *.
  assert (Lik : forall r : nat -> nat -> R, likelihood r 3 2 [1%nat; 2%nat] = r 0%nat 1%nat * r 1%nat 2%nat).
  { intro r. unfold likelihood, total. cbn. ring. }
  assert (LikAt : forall r : nat -> nat -> R, likelihoodAt r 3 2 [1%nat; 2%nat] 0 1 = r 0%nat 1%nat * r 1%nat 2%nat).
  { intro r. unfold likelihoodAt, total. cbn. ring. }
  assert (HP : forall b, (b < 1)%nat -> 0 < likelihood (fun t c => q 0 b t c) 3 (nth b [2%nat] 0%nat) (nth b [[1%nat; 2%nat]] [])).
  { intros b Hb. assert (b = 0)%nat by lia. subst b. cbn [nth]. rewrite Lik.
    apply Rmult_lt_0_compat; apply softmax_pos; lia. }
  specialize (H HP).
  pose proof (C55_gradient_by_the_scores 1 3 a u [[1%nat; 2%nat]] [2%nat] ltac:(lia) HP) as G. cbv zeta in G.
  apply (derivable_pt_lim_scal _ (/ 2)) in G.
  assert (F : derivable_pt_lim (mult_real_fct (/ 2) (fun h => reduced ReductionSum 1
      (fun b => - ln (likelihood (q h b) 3 (nth b [2%nat] 0%nat) (nth b [[1%nat; 2%nat]] []))) (fun b => length (nth b [[1%nat; 2%nat]] [])))) 0
      (total (fun b => total (fun t => total (fun c => C55_value 3 (q 0 b) (nth b [2%nat] 0%nat) (nth b [[1%nat; 2%nat]] []) t c * u t b c) (seq 0 3))
         (seq 0 (nth b [2%nat] 0%nat))) (seq 0 1))).
  { eapply deriv_ext; [|exact H]. intro h. unfold reduced, mult_real_fct, total. cbn [seq map fold_right nth length INR]. field. }
  pose proof (uniqueness_limite _ _ _ _ F G) as E.
  assert (V : total (fun b => total (fun t => total (fun c => C55_value 3 (q 0 b) (nth b [2%nat] 0%nat) (nth b [[1%nat; 2%nat]] []) t c * u t b c) (seq 0 3))
         (seq 0 (nth b [2%nat] 0%nat))) (seq 0 1) = q 0 0%nat 0%nat 1%nat - 1).
  { unfold total. cbn [seq map fold_right nth]. unfold u. cbn [Nat.eqb andb].
    unfold C55_value at 2. rewrite Lik, LikAt.
    pose proof (softmax_pos 3 (fun j => a 0%nat 0%nat j + 0 * u 0%nat 0%nat j) 1 ltac:(lia)) as P1.
    pose proof (softmax_pos 3 (fun j => a 1%nat 0%nat j + 0 * u 1%nat 0%nat j) 2 ltac:(lia)) as P2.
    fold (q 0 0%nat 0%nat 1%nat) in P1. fold (q 0 0%nat 1%nat 2%nat) in P2.
    rewrite !Rmult_0_r. field. split; apply Rgt_not_eq; assumption. }
  match type of E with _ = _ * ?x => change x with (total (fun b => total (fun t => total (fun c => C55_value 3 (q 0 b) (nth b [2%nat] 0%nat) (nth b [[1%nat; 2%nat]] []) t c * u t b c) (seq 0 3))
         (seq 0 (nth b [2%nat] 0%nat))) (seq 0 1)) in E end.
  rewrite V in E.
  assert (Lt : q 0 0%nat 0%nat 1%nat < 1).
  { unfold q. pose proof (softmax_sum 3 (fun j => a 0%nat 0%nat j + 0 * u 0%nat 0%nat j) ltac:(lia)) as S1.
    unfold total in S1. cbn [seq map fold_right] in S1.
    pose proof (softmax_pos 3 (fun j => a 0%nat 0%nat j + 0 * u 0%nat 0%nat j) 0 ltac:(lia)).
    pose proof (softmax_pos 3 (fun j => a 0%nat 0%nat j + 0 * u 0%nat 0%nat j) 2 ltac:(lia)). lra. }
  lra.
Qed.

(** Two time steps of which one is used, labels 0 and 1, target [1]: at the used step
    the posterior of label 1 is one. *)
Example C55_case :
  let q := fun _ _ : nat => / 2 in
  likelihood q 2 1 [1%nat] = / 2 /\ likelihoodAt q 2 1 [1%nat] 0 1 = / 2 /\
  C55_value 2 q 1 [1%nat] 0 1 = - / 2 /\ C55_value 2 q 1 [1%nat] 0 0 = / 2 /\
  proper 2 [1%nat] /\ layout (Mat 2) [[1%nat]] [1%nat; 7%nat].
Proof.
  cbv zeta.
  assert (A : likelihood (fun _ _ : nat => / 2) 2 1 [1%nat] = / 2) by (unfold likelihood, total; cbn; lra).
  assert (B1 : likelihoodAt (fun _ _ : nat => / 2) 2 1 [1%nat] 0 1 = / 2) by (unfold likelihoodAt, total; cbn; lra).
  assert (B0 : likelihoodAt (fun _ _ : nat => / 2) 2 1 [1%nat] 0 0 = 0) by (unfold likelihoodAt, total; cbn; lra).
  unfold C55_value. rewrite A, B1, B0. repeat apply conj; try lra.
  - repeat constructor.
  - exists [[1%nat; 7%nat]]. split; [reflexivity|]. repeat constructor.
Qed.

Print Assumptions C55_entries.
Print Assumptions C55_gradient_by_the_scores.
Print Assumptions C55_derivative_by_the_log_probabilities.
Print Assumptions C55_gradient_by_the_input_refuted.
Print Assumptions C55_mean_reduction_refuted.
