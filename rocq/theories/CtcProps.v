(** Property theorems C29: the CTC loss. *)
From Coq Require Import Arith Lia Reals Lra List Bool.
From Verif Require Import LoopModel CtcModel CtcSpec CtcPaths CtcProofs CtcBatch.
Import ListNotations.
Local Open Scope R_scope.

(** For every table of probabilities, every batch of non-empty targets, in either
    layout: the loss is the reduction of the negated logarithms of the probability
    that an observed label sequence collapses to the target. *)
Theorem C29_loss_is_the_negated_log_likelihood :
  forall (red : reduction) (T B L : nat) (p : nat -> nat -> nat -> R) (sh : targetShape)
         (ys : list (list nat)) (targets ilens : list nat),
    (0 < L)%nat -> length ys = B -> length ilens = B ->
    (forall t b c, 0 <= p t b c) ->
    Forall (fun y => proper L y /\ y <> []) ys ->
    Forall (fun l => (0 < l <= T)%nat) ilens ->
    layout sh ys targets ->
    let P b := likelihood (fun t c => p t b c) L (nth b ilens 0%nat) (nth b ys []) in
    exists loss alphas nlls,
      ctcForward red T B L (logTensor T B L p) sh targets ilens (map (@length nat) ys) = Some (loss, alphas, nlls) /\
      ((forall b, (b < B)%nat -> 0 < P b) ->
         loss = Fin (reduced red B (fun b => - ln (P b)) (fun b => length (nth b ys [])))) /\
      ((exists b, (b < B)%nat /\ P b = 0) -> loss = PInf).
Proof.
  intros red T B L p sh ys targets ilens HL Hys Hil Hp Hy Hlens Hlay P.
  assert (Hy1 : Forall (proper L) ys) by (eapply Forall_impl; [|exact Hy]; cbv beta; tauto).
  assert (Hne : forall b, (b < B)%nat -> tl ys b <> []).
  { intros b Hb. rewrite Forall_forall in Hy. apply Hy, nth_In. lia. }
  destruct (forward_stored red T B L p sh ys targets ilens HL Hys Hil Hp Hy1 Hlens Hlay)
    as [alphas [nlls [[L1 [L2 St]] E]]]. cbn [fst snd] in *.
  assert (Hn : forall b, (b < B)%nat -> nth_error nlls b = Some (nllOf L p ys ilens b)) by (intros b Hb; apply St, Hb).
  destruct (lossOf_some red B L ys ilens HL Hys Hil nlls _ L2 Hn) as [loss El].
  rewrite El in E. exists loss, alphas, nlls. split; [exact E|]. split.
  - intro Hpos. pose proof (loss_finite red B L p ys ilens HL Hys Hil nlls Hn) as F.
    rewrite El in F. specialize (F (fun b Hb => conj (Hne b Hb) (Hpos b Hb))). injection F as ->. reflexivity.
  - intros [b [Hb H0]]. pose proof (loss_infinite red B L p ys ilens HL Hys Hil nlls b Hn Hne Hb H0) as F.
    rewrite El in F. injection F as ->. reflexivity.
Qed.

(** An empty target stores the logarithm itself, without the sign. *)
Theorem C29_empty_target_has_the_wrong_sign :
  forall (T L : nat) (p : nat -> nat -> nat -> R) (len : nat),
    (0 < L)%nat -> (forall t b c, 0 <= p t b c) -> (0 < len <= T)%nat ->
    let P := likelihood (fun t c => p t 0%nat c) L len [] in
    exists alphas,
      ctcForward ReductionSum T 1 L (logTensor T 1 L p) Vec [] [len] [0%nat] =
        Some (xadd (Fin 0) (logOf P), alphas, [logOf P]).
Proof.
  intros T L p len HL Hp Hlen P.
  assert (A : Forall (proper L) [[]]) by (repeat constructor).
  assert (Bd : Forall (fun l => (0 < l <= T)%nat) [len]) by (repeat constructor; lia).
  destruct (forward_stored ReductionSum T 1 L p Vec [[]] [] [len] HL eq_refl eq_refl Hp A Bd eq_refl)
    as [alphas [nlls [[L1 [L2 St]] E]]]. cbn [fst snd] in *.
  destruct (St 0%nat ltac:(lia)) as [_ N]. destruct nlls as [|x [|? ?]]; try discriminate L2.
  cbn in N. injection N as ->. exists alphas. exact E.
Qed.

Theorem C29_empty_target_refuted :
  ~ (forall (T B L : nat) (p : nat -> nat -> nat -> R) (ys : list (list nat)) (ilens : list nat),
       (0 < L)%nat -> length ys = B -> length ilens = B -> (forall t b c, 0 <= p t b c) ->
       Forall (proper L) ys -> Forall (fun l => (0 < l <= T)%nat) ilens ->
       let P b := likelihood (fun t c => p t b c) L (nth b ilens 0%nat) (nth b ys []) in
       (forall b, (b < B)%nat -> 0 < P b) ->
       exists alphas nlls,
         ctcForward ReductionSum T B L (logTensor T B L p) Vec (concat ys) ilens (map (@length nat) ys) =
           Some (Fin (total (fun b => - ln (P b)) (seq 0 B)), alphas, nlls)).
Proof.
  intro H. set (p := fun _ _ _ : nat => / 2).
  assert (Hp : forall t b c : nat, 0 <= p t b c) by (intros; unfold p; lra).
  specialize (H 1%nat 1%nat 2%nat p [[]] [1%nat] ltac:(lia) eq_refl eq_refl Hp ltac:(repeat constructor) ltac:(repeat constructor)).
  cbv zeta in H.
  assert (P0 : likelihood (fun t c => p t 0%nat c) 2 1 [] = / 2).
  { unfold likelihood, total, p. cbn. lra. }
  destruct H as [alphas [nlls H]].
  { intros b Hb. assert (b = 0)%nat by lia. subst b. cbn [nth]. rewrite P0. lra. }
  destruct (C29_empty_target_has_the_wrong_sign 1 2 p 1 ltac:(lia) Hp ltac:(lia)) as [al E].
  cbv zeta in E. rewrite P0 in E. cbn [map concat length] in H.
  change (concat [[]]) with (@nil nat) in H. change (([] ++ concat [])) with (@nil nat) in H.
  cbn [app concat] in H. rewrite E in H. injection H as H _ _.
  unfold logOf in H. destruct (Rlt_dec 0 (/ 2)); [|lra]. cbn [xadd] in H. injection H as H.
  unfold total in H. cbn [map seq fold_right nth] in H. rewrite P0 in H.
  assert (ln (/ 2) < 0). { rewrite <- ln_1. apply ln_increasing; lra. } lra.
Qed.

(** A zero input length indexes row -1. *)
Theorem C29_zero_length_panics :
  forall (T L : nat) (p : nat -> nat -> nat -> R) (y : list nat) red,
    ctcForward red T 1 L (logTensor T 1 L p) Vec y [0%nat] [length y] = None.
Proof.
  intros T L p y red. unfold ctcForward. cbv zeta. cbn [firstn existsb Nat.ltb Nat.leb orb].
  unfold loop at 1. cbn [seq foldM aget nth_error].
  destruct (aslice _ _ _) as [sec|]; [|reflexivity].
  destruct (alphaTable _ _ _ _ _ _ _ _); reflexivity.
Qed.

(** Two time steps, three labels, target [1; 2] after [2]: the only sequence for the
    first is 1,2; the second also has 2,2 and 2 next to a blank. *)
Example C29_case :
  let p := fun t b c : nat => / INR (2 + c) in
  likelihood (fun t c => p t 0%nat c) 3 2 [1%nat; 2%nat] = / 12 /\
  likelihood (fun t c => p t 1%nat c) 3 2 [2%nat] = / 16 + / 8 + / 8 /\
  layout (Mat 2) [[1%nat; 2%nat]; [2%nat]] [1%nat; 2%nat; 2%nat; 0%nat] /\
  layout Vec [[1%nat; 2%nat]; [2%nat]] [1%nat; 2%nat; 2%nat] /\
  likelihood (fun t c => p t 1%nat c) 3 2 [2%nat; 2%nat] = 0.
Proof.
  cbv zeta. unfold likelihood, total. repeat apply conj.
  - cbn -[INR Rinv]. cbn [Nat.add INR]. lra.
  - cbn -[INR Rinv]. cbn [Nat.add INR]. lra.
  - exists [[1%nat; 2%nat]; [2%nat; 0%nat]]. split; [reflexivity|]. repeat constructor.
  - reflexivity.
  - cbn. reflexivity.
Qed.

Print Assumptions C29_loss_is_the_negated_log_likelihood.
Print Assumptions C29_empty_target_has_the_wrong_sign.
Print Assumptions C29_empty_target_refuted.
Print Assumptions C29_zero_length_panics.
