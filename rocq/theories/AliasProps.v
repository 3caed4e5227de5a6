(** C67: gradients of an operator node and its input over several lisp machines when
    DoDiff hands the input's derivative tensor to the output. *)
From Coq Require Import Arith List Reals Lia Lra Bool.
From Verif Require Import AliasModel AliasSpec AliasProofs.
Import ListNotations.
Local Open Scope nat_scope.

Lemma plain_runs leaf root d0 rs r : exists w a b, runs leaf root false (rs ++ [r]) (start d0) = Some w /\
  apart w a b (if leaf then sumFrom (orZero d0) (flat_map (share root) (rs ++ [r])) else sumFrom (fun _ => 0%R) (share root r)) (outGrad root r).
Proof.
  revert r. induction rs as [|q rs IH] using rev_ind; intro r.
  - cbn [app runs]. rewrite run_back. destruct (forward_start leaf root d0) as [a [b A]]. destruct (back_plain r _ a b _ _ A) as [w [E B]]. rewrite E. exists w, a, b. split; [reflexivity|].
    cbn [flat_map]. rewrite app_nil_r. destruct leaf; exact B.
  - rewrite runs_app. destruct (IH q) as [w [a [b [E A]]]]. rewrite E, run_back. destruct (back_plain r _ a b _ _ (forward_apart leaf root _ _ _ _ _ A)) as [w' [E' B]].
    exists w', a, b. split; [exact E'|]. rewrite (flat_map_app _ (rs ++ [q])), sumFrom_app. cbn [flat_map]. rewrite app_nil_r. destruct leaf; exact B.
Qed.
(** Operators that leave the output's derivative alone: an input that is an argument has
    the sum of the shares of all rounds, a computed one the shares of the last round, and
    the output keeps its own gradient of the last round. *)
Theorem C67_ordinary : forall leaf root d0 rs r, exists w, runs leaf root false (rs ++ [r]) (start d0) = Some w /\
  gradX w = Some (if leaf then sumFrom (orZero d0) (flat_map (share root) (rs ++ [r])) else sumFrom (fun _ => 0%R) (share root r)) /\
  gradS w = Some (outGrad root r) /\
  (leaf = true -> gradX (unbindAll leaf w) = gradX w) /\ NoDup (pool (unbindAll leaf w)).
Proof.
  intros leaf root d0 rs r. destruct (plain_runs leaf root d0 rs r) as [w [a [b [E [X [S [N [U [V [P [LA LB]]]]]]]]]]]. exists w. split; [exact E|].
  unfold gradX, gradS. rewrite X, S. split; [exact U|]. split; [exact V|]. split.
  - intros ->. unfold unbindAll, giveBack. cbv zeta. rewrite S. cbn [setS xd store cells]. rewrite X. destruct (Nat.eqb_spec a b); [contradiction|reflexivity].
  - unfold unbindAll. destruct leaf; cbv zeta; [rewrite S|rewrite X]; unfold giveBack; cbn [setX setS sd store pool]; rewrite ?S, P; cbn [pool app]; repeat constructor; cbn [In]; intuition.
Qed.

Lemma first_run leaf root d0 r : exists w a, run leaf root true r (start d0) = Some w /\ shared w a (sumFrom (if leaf then orZero d0 else fun _ => 0%R) (share root r)).
Proof.
  rewrite run_back. destruct (forward_start leaf root d0) as [a [b A]]. destruct (back_adopt_apart r _ a b _ _ A) as [w [E B]]. exists w, a. split; [exact E|]. destruct leaf; exact B.
Qed.
Lemma adopt_runs leaf root d0 rs r : exists w a u, runs leaf root true (rs ++ [r]) (start d0) = Some w /\ shared w a u /\
  (rs <> [] -> let m := sumFrom (seed root) (forBoth (rbefore r)) in u = sumFrom m (rpull r m :: rafter r)).
Proof.
  revert r. induction rs as [|q rs IH] using rev_ind; intro r.
  - destruct (first_run leaf root d0 r) as [w [a [E B]]]. exists w, a. eexists. cbn [app runs]. rewrite E. split; [reflexivity|]. split; [exact B|congruence].
  - rewrite runs_app. destruct (IH q) as [w [a [u [E [A _]]]]]. rewrite E, run_back. destruct (back_adopt_shared r _ a _ (forward_shared leaf root _ _ _ A)) as [w' [E' B]].
    exists w', a. eexists. split; [exact E'|]. split; [exact B|]. reflexivity.
Qed.
(** SoftMax's and GroupNorm's way, first machine: the input's gradient is right, and what
    is reported as the output's gradient is the input's. *)
Theorem C67_first_machine : forall leaf root d0 r, exists w, run leaf root true r (start d0) = Some w /\
  gradX w = Some (sumFrom (if leaf then orZero d0 else fun _ => 0%R) (share root r)) /\ gradS w = gradX w.
Proof.
  intros leaf root d0 r. destruct (first_run leaf root d0 r) as [w [a [E [X [S [U _]]]]]]. exists w. split; [exact E|]. unfold gradX, gradS. rewrite X, S. auto.
Qed.
(** Every later machine: whatever was accumulated is lost; everything added to either
    derivative is taken for the output's gradient, and stays in the input's. *)
Theorem C67_later_machines : forall leaf root d0 rs r, rs <> [] -> exists w, runs leaf root true (rs ++ [r]) (start d0) = Some w /\
  (let m := sumFrom (fun _ => if root then 1%R else 0%R) (forBoth (rbefore r)) in
   gradX w = Some (sumFrom m (rpull r m :: rafter r))) /\ gradS w = gradX w.
Proof.
  intros leaf root d0 rs r N. destruct (adopt_runs leaf root d0 rs r) as [w [a [u [E [[X [S [U _]]] F]]]]]. exists w. split; [exact E|]. unfold gradX, gradS. rewrite X, S. split; [|reflexivity].
  rewrite U, (F N). reflexivity.
Qed.
(** UnbindAll gives the tensor back: an argument's gradient is gone with the output's
    dual value; if the input is computed the same tensor is given back twice. *)
Theorem C67_unbound : forall root d0 rs r,
  (exists w, runs true root true (rs ++ [r]) (start d0) = Some w /\ gradX w <> None /\ xd (unbindAll true w) = xd w /\ gradX (unbindAll true w) = None) /\
  (exists w a, runs false root true (rs ++ [r]) (start d0) = Some w /\ xd w = Some a /\ pool (unbindAll false w) = [a; a]).
Proof.
  intros root d0 rs r. split.
  - destruct (adopt_runs true root d0 rs r) as [w [a [u [E [[X [S [U [P L]]]] _]]]]]. exists w. split; [exact E|]. unfold gradX, unbindAll, giveBack. cbv zeta. rewrite S. cbn [setS xd store cells]. rewrite X, Nat.eqb_refl.
    split; [congruence|]. auto.
  - destruct (adopt_runs false root d0 rs r) as [w [a [u [E [[X [S [U [P L]]]] _]]]]]. exists w, a. split; [exact E|]. split; [exact X|].
    unfold unbindAll, giveBack. cbv zeta. rewrite X. cbn [setX setS sd store pool]. rewrite S, P. reflexivity.
Qed.
(** So two machines do not give twice the gradient: SoftMax of (0, 0) with the incoming
    gradient (1, 0), whose gradient is (1/4, -1/4). [halfSoft]: the gradient operator at (0, 0)
    (op_softmax.go:262-285). *)
Definition halfSoft (g : vec) : vec := fun i =>
  let m := (/ 2 * g 0%nat + / 2 * g 1%nat)%R in if Nat.ltb i 2 then (/ 2 * (g i - m))%R else 0%R.
Definition oneRound : round := Round halfSoft [ToS (fun i => match i with 0 => 1%R | _ => 0%R end)] [].
Theorem C67_accumulates_refuted :
  ~ (forall root d0 rs r w, runs true root true (rs ++ [r]) (start d0) = Some w ->
       exists v, gradX w = Some v /\ forall i, v i = sumFrom (orZero d0) (flat_map (share root) (rs ++ [r])) i).
Proof.
  intro H. destruct (C67_later_machines true false None [oneRound] oneRound ltac:(discriminate)) as [w [E [G _]]].
  destruct (H false None [oneRound] oneRound w E) as [v [Ev Hv]]. cbv zeta in G. rewrite G in Ev. injection Ev as <-. specialize (Hv 0). cbn in Hv. lra.
Qed.
(** After the second machine the first entry is 5/4 instead of 1/2. *)
Example C67_ex : exists w v, runs true false true [oneRound; oneRound] (start None) = Some w /\ gradX w = Some v /\ v 0 = (5 / 4)%R /\
  sumFrom (orZero None) (flat_map (share false) [oneRound; oneRound]) 0 = (1 / 2)%R.
Proof.
  destruct (C67_later_machines true false None [oneRound] oneRound ltac:(discriminate)) as [w [E [G _]]]. exists w. eexists. split; [exact E|]. split; [exact G|]. cbn. split; lra.
Qed.
(** Reshape: what the input had, from earlier machines or from users whose DoDiff ran
    before, is replaced; and what is added to the input afterwards appears in the output's
    gradient as well. *)
Theorem C67_reshape : forall leaf root d0 before after, exists w, runReshape leaf root before after (start d0) = Some w /\
  gradX w = Some (sumFrom (sumFrom (fun _ => if root then 1%R else 0%R) (forS before)) after) /\ gradS w = gradX w.
Proof.
  intros leaf root d0 before after. unfold runReshape. destruct (forward_start leaf root d0) as [a [b A]]. destruct (apart_happen before _ a b _ _ A) as [w1 [E1 [X [S [N [U [V [P [LA LB]]]]]]]]]. rewrite E1. unfold doDiffReshape. rewrite S.
  destruct (shared_happen (map ToX after) (setX (Some b) w1) b _ (conj eq_refl (conj S (conj V (conj P LB))))) as [w2 [E2 [X2 [S2 [U2 _]]]]]. exists w2. split; [exact E2|].
  unfold gradX, gradS. rewrite X2, S2. split; [|reflexivity]. rewrite U2, forBoth_map. reflexivity.
Qed.
Theorem C67_reshape_accumulates_refuted :
  ~ (forall leaf root before after w, runReshape leaf root before after (start None) = Some w ->
       exists v, gradX w = Some v /\ forall i, v i = sumFrom (fun _ => 0%R) (share root (Round (fun g => g) before after)) i).
Proof.
  intro H. destruct (C67_reshape false false None [ToX (fun _ => 1%R); ToS (fun _ => 1%R)] []) as [w [E [G _]]]. destruct (H _ _ _ _ _ E) as [v [Ev Hv]]. rewrite G in Ev. injection Ev as <-. specialize (Hv 0). cbn in Hv. lra.
Qed.
(** The input is also used elsewhere: the other gradient 5 survives only if added later. *)
Example C67_reshape_ex :
  (exists w v, runReshape false false [ToX (fun _ => 5%R); ToS (fun _ => 2%R)] [] (start None) = Some w /\ gradX w = Some v /\ v 0 = 2%R) /\
  (exists w v, runReshape false false [ToS (fun _ => 2%R)] [fun _ => 5%R] (start None) = Some w /\ gradX w = Some v /\ v 0 = 7%R).
Proof.
  split; [destruct (C67_reshape false false None [ToX (fun _ => 5%R); ToS (fun _ => 2%R)] []) as [w [E [G _]]]|destruct (C67_reshape false false None [ToS (fun _ => 2%R)] [fun _ => 5%R]) as [w [E [G _]]]];
  exists w; eexists; (split; [exact E|]); (split; [exact G|]); cbn; lra.
Qed.
Print Assumptions C67_reshape.
Print Assumptions C67_reshape_accumulates_refuted.
Print Assumptions C67_ordinary.
Print Assumptions C67_first_machine.
Print Assumptions C67_later_machines.
Print Assumptions C67_unbound.
Print Assumptions C67_accumulates_refuted.
