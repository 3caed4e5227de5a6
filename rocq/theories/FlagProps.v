(** C116: the options of the machines. *)
From Coq Require Import Arith NArith ZArith List Bool Lia Btauto.
From Verif Require Import BroadcastModel LispModel LispSpec LispProofs FlagModel FlagSpec FlagProofs.
Import ListNotations.
Close Scope R_scope.

(** What the options of a lisp machine switch, whatever their order and number: the last of
    ExecuteFwdOnly and ExecuteBwdOnly counts, no option undoes another one otherwise. *)
Theorem C116_lisp_options os m : newLisp os = Some m ->
  (runFwd m = true \/ runBwd m = true) /\
  (runFwd m = false <-> exists a b, os = a ++ ExecuteBwdOnly :: b /\ ~ In ExecuteFwdOnly b) /\
  (runBwd m = false <-> exists a b, os = a ++ ExecuteFwdOnly :: b /\ ~ In ExecuteBwdOnly b) /\
  (watchNaN m = true <-> In WithNaNWatch os) /\ (watchInf m = true <-> In WithInfWatch os) /\
  (setRootGrad m = true <-> In WithManualGradient os) /\ dealloc m = false /\
  (logFwd m = true <-> In LogFwd os \/ In LogBothDir os) /\ (logBwd m = true <-> In LogBwd os \/ In LogBothDir os) /\
  (watchAll m = true <-> In (WithWatchlist []) os) /\ (lEval m = true <-> In EvalMode os) /\
  (lLogger m = true <-> In (WithLogger true) os) /\
  (forall n, In n (lWatch m) <-> exists l, In (WithWatchlist l) os /\ In (INode n) l).
Proof.
  intro E. unfold newLisp in E. apply optsLisp_run in E. destruct E as (A1&A2&A3&A4&A5&A6&A7&A8&A9&A10&A11&A12).
  set (m0 := Lisp _ _ _ _ _ _ _) in *. change (runFwd m0) with true in A1. change (runBwd m0) with true in A2. change (watchNaN m0) with false in A3. change (watchInf m0) with false in A4.
  change (setRootGrad m0) with false in A5. change (dealloc m0) with false in A6. change (logFwd m0) with false in A7. change (logBwd m0) with false in A8. change (watchAll m0) with false in A9.
  change (lEval m0) with false in A10. change (lLogger m0) with false in A11. change (lWatch m0) with (@nil nat) in A12. cbn [orb app] in *. clear m0.
  assert (D : forall o, o = ExecuteFwdOnly \/ o = ExecuteBwdOnly \/ (o <> ExecuteFwdOnly /\ o <> ExecuteBwdOnly)) by (intros []; auto; right; right; split; discriminate).
  split. { rewrite A1, A2. apply orb_true_iff. apply both_never_off. reflexivity. }
  split. { rewrite A1. rewrite (last_wins ExecuteFwdOnly ExecuteBwdOnly fFwd); [|intro b; unfold fFwd; cbn [isO]; rewrite orb_true_r; reflexivity|intro b; unfold fFwd; cbn [isO negb]; apply andb_false_r| |exact D|discriminate].
    - split; [intros [H|[H _]]; [exact H|discriminate H]|auto].
    - intros o b N1 N2. unfold fFwd. destruct o; cbn [isO negb]; rewrite ?orb_false_r, ?andb_true_r; congruence. }
  split. { rewrite A2. rewrite (last_wins ExecuteBwdOnly ExecuteFwdOnly fBwd); [|intro b; unfold fBwd; cbn [isO]; rewrite orb_true_r; reflexivity|intro b; unfold fBwd; cbn [isO negb]; apply andb_false_r| |intro o; destruct (D o) as [H|[H|[H1 H2]]]; auto|discriminate].
    - split; [intros [H|[H _]]; [exact H|discriminate H]|auto].
    - intros o b N1 N2. unfold fBwd. destruct o; cbn [isO negb]; rewrite ?orb_false_r, ?andb_true_r; congruence. }
  rewrite A3, A4, A5, A6, A7, A8, A9, A10, A11, A12, !orb_true_iff, !isO_in by reflexivity.
  do 9 (split; [tauto|]).
  intro n. rewrite in_flat_map. split.
  - intros [o [J H]]. destruct o as [| | |l| | | | | | | | | | | | |]; try (destruct H; fail). exists l. split; [exact J|]. unfold nodesOf in H. apply in_flat_map in H as [i [Ji H]]. destruct i; try (destruct H; fail). destruct H as [->|[]]. exact Ji.
  - intros [l [J H]]. exists (WithWatchlist l). split; [exact J|]. unfold nodesOf. apply in_flat_map. exists (INode n). split; [exact H|left; reflexivity].
Qed.
Print Assumptions C116_lisp_options.

(** Which options a lisp machine refuses by a panic. *)
Theorem C116_lisp_refuses os : newLisp os = None <->
  In TraceExec os \/ In WithPointerWatch os \/ exists l i, In (WithWatchlist l) os /\ In i l /\ forall n, i <> INode n.
Proof.
  unfold newLisp. generalize (Lisp (N.lor (N.lor 0 (shl1 fwdOnly)) (shl1 bwdOnly)) 0 [] false 0 0 false).
  assert (P : forall m o, optLisp m o = None <-> o = TraceExec \/ o = WithPointerWatch \/ exists l i, o = WithWatchlist l /\ In i l /\ forall n, i <> INode n).
  { intros m o. split.
    - destruct o as [| | |[|i l]| | | | | | | | | | | | |]; cbn [optLisp]; try discriminate; auto. intro H. right. right. exists (i :: l). destruct (allNodes (i :: l)) eqn:A; [discriminate|]. apply allNodes_none in A as [x [J N]]. eauto.
    - intros [->|[->|[l [i [-> [J N]]]]]]; try reflexivity. destruct l as [|x l]; [destruct J|]. cbn [optLisp]. rewrite (proj2 (allNodes_none (x :: l))); [reflexivity|eauto]. }
  induction os as [|o os IH]; intro m; cbn [optsLisp].
  - split; [discriminate|]. intros [[]|[[]|[l [i [[] _]]]]].
  - specialize (P m o). destruct (optLisp m o) as [m1|].
    + rewrite IH. split.
      * intros [H|[H|[l [i [H N]]]]]; [left; right; exact H|right; left; right; exact H|right; right; exists l, i; split; [right; exact H|exact N]].
      * assert (X : ~ (o = TraceExec \/ o = WithPointerWatch \/ exists l i, o = WithWatchlist l /\ In i l /\ forall n, i <> INode n)) by (intro X; apply P in X; discriminate X).
        intros [[H|H]|[[H|H]|[l [i [[H|H] N]]]]]; auto.
        -- exfalso. apply X. auto.
        -- exfalso. apply X. auto.
        -- exfalso. apply X. right. right. exists l, i. auto.
        -- right. right. exists l, i. auto.
    + split; [intros _|reflexivity]. destruct (proj1 P eq_refl) as [H|[H|[l [i [H N]]]]]; [left; left; exact H|right; left; left; exact H|right; right; exists l, i; split; [left; exact H|exact N]].
Qed.
Print Assumptions C116_lisp_refuses.

(** The same for a tape machine.  The program that runs is that of the last WithPrecompiled
    if a map came with it, else one compiled anew. *)
Theorem C116_tape_options compiled os m : newTape compiled os = Some m ->
  tAlloc m = true /\
  (tWatchNaN m = true <-> In WithNaNWatch os) /\ (tWatchInf m = true <-> In WithInfWatch os) /\ (tWatchPointer m = true <-> In WithPointerWatch os) /\
  (tWatchAll m = true <-> In (WithWatchlist []) os) /\ (tTrace m = true <-> In TraceExec os) /\ (tBindDV m = true <-> exists ns, In (BindDualValues ns) os) /\
  (tEval m = true <-> In EvalMode os) /\ (tLogger m = true <-> In (WithLogger true) os) /\
  (forall n, In n (tBind m) <-> exists ns, In (BindDualValues ns) os /\ In n ns) /\
  (forall n, In n (tNodes m) <-> exists l, In (WithWatchlist l) os /\ In (INode n) l) /\
  (forall n, In n (tRegs m) <-> exists l, In (WithWatchlist l) os /\ In (IReg n) l) /\
  (forall n, In n (tIds m) <-> exists l, In (WithWatchlist l) os /\ In (IId n) l) /\
  exists p, tProg m = Some (p, true) /\
    ((forall q l, ~ In (WithPrecompiled q l) os) -> p = compiled) /\
    (forall a b q l, os = a ++ WithPrecompiled q l :: b -> (forall q' l', ~ In (WithPrecompiled q' l') b) -> p = if l then q else compiled).
Proof.
  intro E. unfold newTape in E. destruct (optsTape _ os) as [m1|] eqn:E1; [|discriminate]. apply optsTape_run in E1. destruct E1 as (A1&A2&A3&A4&A5&A6&A7&A8&A9&A10&A11&A12&A13).
  set (m0 := Tape _ _ _ _ _ _ _ _ _ _ _) in *. change (tWatchNaN m0) with false in A1. change (tWatchInf m0) with false in A2. change (tWatchPointer m0) with false in A3.
  change (tWatchAll m0) with false in A4. change (tTrace m0) with false in A5. change (tBindDV m0) with false in A6. change (tEval m0) with false in A7. change (tLogger m0) with false in A8.
  change (tRegs m0) with (@nil nat) in A9. change (tIds m0) with (@nil nat) in A10. change (tNodes m0) with (@nil nat) in A11. change (tBind m0) with (@nil nat) in A12. change (tProg m0) with (@None (nat * bool)) in A13. clear m0. cbn [orb app] in *.
  assert (K : tRun m = setFlag (tRun m1) fAllocVals /\ tLog m = tLog m1 /\ tRegs m = tRegs m1 /\ tIds m = tIds m1 /\ tNodes m = tNodes m1 /\ tBind m = tBind m1 /\ tLogger m = tLogger m1 /\ tEval m = tEval m1 /\
    tProg m = match tProg m1 with Some (p, true) => Some (p, true) | _ => Some (compiled, true) end).
  { injection E as <-. cbn [runT tProg]. destruct (tProg m1) as [[p []]|] eqn:X; cbn; rewrite ?X; repeat split; reflexivity. }
  destruct K as (K1&K2&K3&K4&K5&K6&K7&K8&K9). clear E.
  unfold tAlloc, tWatchNaN, tWatchInf, tWatchPointer, tWatchAll, tTrace, tBindDV in *. rewrite K1, K2, K3, K4, K5, K6, K7, K8.
  rewrite hasFlag_bit in A1, A2, A3, A4, A5, A6.
  split; [flags; reflexivity|]. split; [flags; rewrite A1; apply isO_in; reflexivity|]. split; [flags; rewrite A2; apply isO_in; reflexivity|].
  split; [flags; rewrite A3; apply isO_in; reflexivity|]. split; [flags; rewrite A4; apply isO_in; reflexivity|]. split; [flags; rewrite A5; apply isO_in; reflexivity|].
  split. { flags. rewrite A6, existsb_exists. split; [intros [o [J H]]; destruct o; try discriminate H; eauto|intros [ns J]; eauto]. }
  split; [rewrite A7; apply isO_in; reflexivity|]. split; [rewrite A8; apply isO_in; reflexivity|].
  split. { intro n. rewrite A12, in_flat_map. split; [intros [o [J H]]; destruct o; try (destruct H; fail); eauto|intros [ns [J H]]; eauto]. }
  split. { intro n. rewrite A11, in_flat_map. split.
    - intros [o [J H]]. destruct o as [| | |l| | | | | | | | | | | | |]; try (destruct H; fail). exists l. split; [exact J|]. unfold nodesOf in H. apply in_flat_map in H as [i [Ji H]]. destruct i; try (destruct H; fail). destruct H as [->|[]]. exact Ji.
    - intros [l [J H]]. exists (WithWatchlist l). split; [exact J|]. unfold nodesOf. apply in_flat_map. exists (INode n). split; [exact H|left; reflexivity]. }
  split. { intro n. rewrite A9, in_flat_map. split.
    - intros [o [J H]]. destruct o as [| | |l| | | | | | | | | | | | |]; try (destruct H; fail). exists l. split; [exact J|]. apply in_flat_map in H as [i [Ji H]]. destruct i; try (destruct H; fail). destruct H as [->|[]]. exact Ji.
    - intros [l [J H]]. exists (WithWatchlist l). split; [exact J|]. apply in_flat_map. exists (IReg n). split; [exact H|left; reflexivity]. }
  split. { intro n. rewrite A10, in_flat_map. split.
    - intros [o [J H]]. destruct o as [| | |l| | | | | | | | | | | | |]; try (destruct H; fail). exists l. split; [exact J|]. apply in_flat_map in H as [i [Ji H]]. destruct i; try (destruct H; fail). destruct H as [->|[]]. exact Ji.
    - intros [l [J H]]. exists (WithWatchlist l). split; [exact J|]. apply in_flat_map. exists (IId n). split; [exact H|left; reflexivity]. }
  rewrite K9, A13. set (fp := fun (p : option (nat * bool)) (o : vmopt) => match o with WithPrecompiled q l => Some (q, l) | _ => p end).
  assert (Keep : forall b p, (forall q l, ~ In (WithPrecompiled q l) b) -> fold_left fp b p = p).
  { induction b as [|o b IH]; intros p H; [reflexivity|]. cbn [fold_left]. rewrite IH; [|intros q l J; apply (H q l); right; exact J]. destruct o; try reflexivity. exfalso. eapply H. left. reflexivity. }
  destruct (fold_left fp os None) as [[p l]|] eqn:X.
  - exists (if l then p else compiled). split; [destruct l; reflexivity|]. split.
    + intro H. rewrite (Keep os None H) in X. discriminate X.
    + intros a b q l' -> H. rewrite fold_left_app in X. cbn [fold_left] in X. rewrite Keep in X by exact H. cbn in X. injection X as <- <-. reflexivity.
  - exists compiled. split; [reflexivity|]. split; [reflexivity|]. intros a b q l' -> H. rewrite fold_left_app in X. cbn [fold_left] in X. rewrite Keep in X by exact H. discriminate X.
Qed.
Print Assumptions C116_tape_options.
Theorem C116_tape_refuses compiled os : newTape compiled os = None <->
  In ExecuteFwdOnly os \/ In ExecuteBwdOnly os \/ In LogFwd os \/ In LogBwd os \/ In LogBothDir os \/
  exists l, In (WithWatchlist l) os /\ In IOther l.
Proof.
  unfold newTape. assert (G : forall m, optsTape m os = None <-> In ExecuteFwdOnly os \/ In ExecuteBwdOnly os \/ In LogFwd os \/ In LogBwd os \/ In LogBothDir os \/ exists l, In (WithWatchlist l) os /\ In IOther l).
  2:{ rewrite <- (G (Tape 0 0 [] [] [] [] false 0 0 None false)). destruct (optsTape _ os); split; intro; try discriminate; reflexivity. }
  assert (P : forall m o, optTape m o = None <-> o = ExecuteFwdOnly \/ o = ExecuteBwdOnly \/ o = LogFwd \/ o = LogBwd \/ o = LogBothDir \/ exists l, o = WithWatchlist l /\ In IOther l).
  { intros m o. split.
    - destruct o as [| | |[|i l]| | | | | | | | | | | | |]; cbn [optTape]; try discriminate; auto 10. intro H. apply watchItems_none in H. do 5 right. eauto.
    - intros [->|[->|[->|[->|[->|[l [-> J]]]]]]]; try reflexivity. destruct l as [|x l]; [destruct J|]. cbn [optTape]. apply watchItems_none. exact J. }
  induction os as [|o os IH]; intro m; cbn [optsTape In].
  - split; [discriminate|]. intros H. exfalso. repeat (destruct H as [[]|H]). destruct H as [l [[] _]].
  - specialize (P m o). destruct (optTape m o) as [m1|].
    + rewrite IH. assert (X : ~ (o = ExecuteFwdOnly \/ o = ExecuteBwdOnly \/ o = LogFwd \/ o = LogBwd \/ o = LogBothDir \/ exists l, o = WithWatchlist l /\ In IOther l)) by (intro X; apply P in X; discriminate X). split.
      * intros [H|[H|[H|[H|[H|[l [H N]]]]]]]; auto 10. do 5 right. eauto.
      * intros [[H|H]|[[H|H]|[[H|H]|[[H|H]|[[H|H]|[l [[H|H] N]]]]]]]; auto 10; try (exfalso; apply X; auto 10; fail).
        -- exfalso. apply X. do 5 right. eauto.
        -- do 5 right. eauto.
    + split; [intros _|reflexivity]. destruct (proj1 P eq_refl) as [H|[H|[H|[H|[H|[l [H N]]]]]]]; auto 10. do 5 right. eauto.
Qed.
Print Assumptions C116_tape_refuses.

(** Of several formats or engines the last one counts, on both machines. *)
Theorem C116_format_and_engine compiled os :
  let fmtIs (v : nat) := ((forall f, ~ In (WithValueFmt f) os) /\ v = 0) \/ exists a b, os = a ++ WithValueFmt v :: b /\ forall f, ~ In (WithValueFmt f) b in
  let engIs (v : nat) := ((forall e, ~ In (WithEngine e) os) /\ v = 0) \/ exists a b, os = a ++ WithEngine v :: b /\ forall e, ~ In (WithEngine e) b in
  (forall m, newLisp os = Some m -> fmtIs (lFmt m) /\ engIs (lEng m)) /\
  (forall m, newTape compiled os = Some m -> fmtIs (tFmt m) /\ engIs (tEng m)).
Proof.
  assert (Lf := last_of WithValueFmt gf ltac:(reflexivity) ltac:(intros v [] N; try reflexivity; exfalso; eapply N; reflexivity) ltac:(intros []; eauto; right; discriminate) os 0).
  assert (Le := last_of WithEngine ge ltac:(reflexivity) ltac:(intros v [] N; try reflexivity; exfalso; eapply N; reflexivity) ltac:(intros []; eauto; right; discriminate) os 0).
  intros fmtIs engIs. split; intros m E.
  - apply optsLisp_fold in E as [E1 E2]. cbn [lFmt lEng] in E1, E2. unfold fmtIs, engIs. rewrite E1, E2. split; assumption.
  - unfold newTape in E. destruct (optsTape _ os) as [m1|] eqn:E1; [|discriminate]. apply optsTape_fold in E1 as [A1 A2]. cbn [tFmt tEng] in A1, A2.
    assert (K : tFmt m = tFmt m1 /\ tEng m = tEng m1) by (injection E as <-; cbn [runT tProg]; destruct (tProg m1) as [[p []]|]; split; reflexivity).
    destruct K as [K1 K2]. unfold fmtIs, engIs. rewrite K1, K2, A1, A2. split; assumption.
Qed.
Print Assumptions C116_format_and_engine.

(** What a tape machine with a logger writes about. *)
Theorem C116_tape_log compiled os m reads write node id : newTape compiled os = Some m ->
  (tapeLogs m reads write node id = true <->
   In (WithLogger true) os /\
   (In (WithWatchlist []) os \/ exists l, In (WithWatchlist l) os /\
      ((exists r, In r (write :: reads) /\ In (IReg r) l) \/ In (INode node) l \/ In (IId id) l))).
Proof.
  intro E. destruct (C116_tape_options _ _ _ E) as (_&_&_&_&W&_&_&_&L&_&B&R&D&_). unfold tapeLogs. rewrite andb_true_iff, !orb_true_iff, L, W.
  assert (X : forall x l, existsb (Nat.eqb x) l = true <-> In x l).
  { intros x l. rewrite existsb_exists. split; [intros [y [J H]]; apply Nat.eqb_eq in H; congruence|intro J; exists x; split; [exact J|apply Nat.eqb_refl]]. }
  assert (Y : existsb (fun r => existsb (Nat.eqb r) (tRegs m)) reads = true <-> exists r, In r reads /\ In r (tRegs m)).
  { rewrite existsb_exists. split; intros [r [J H]]; exists r; split; try exact J; apply X; exact H. }
  rewrite Y, !X, B, D. split; (intros [H1 H2]; split; [exact H1|]).
  - destruct H2 as [[[[H|[r [J H]]]|H]|H]|H]; [left; exact H|apply R in H|apply R in H| |]; right; destruct H as [l [H J']]; exists l; (split; [exact H|]).
    + left. exists r. split; [right; exact J|exact J'].
    + left. exists write. split; [left; reflexivity|exact J'].
    + right. left. exact J'.
    + right. right. exact J'.
  - destruct H2 as [H|[l [H [[r [[<-|J] J']]|[J|J]]]]].
    + do 4 left. exact H.
    + left. left. right. apply R. eauto.
    + left. left. left. right. exists r. split; [exact J|]. apply R. eauto.
    + left. right. eauto.
    + right. eauto.
Qed.
Print Assumptions C116_tape_log.
(** A lisp machine writes nothing about the watch list unless a direction is logged, not even
    when everything is to be watched ... *)
Theorem C116_lisp_log os m sorted q fwd bwd : newLisp os = Some m ->
  (~ In LogFwd os -> ~ In LogBwd os -> ~ In LogBothDir os -> lispLogs m sorted q fwd bwd = Ok false) /\
  (In LogFwd os \/ In LogBothDir os -> forall n, nth_error sorted (Z.to_nat fwd) = Some n -> (0 <= fwd)%Z ->
     exists b, lispLogs m sorted q fwd bwd = Ok b /\
       (b = true <-> In (WithLogger true) os /\ (In (WithWatchlist []) os \/ exists l, In (WithWatchlist l) os /\ In (INode n) l))) /\
  (In LogBwd os \/ In LogBothDir os -> (Z.of_nat (length sorted) <= fwd)%Z -> forall out ins, nth_error q (Z.to_nat bwd) = Some (out, ins) -> (0 <= bwd)%Z ->
     exists b, lispLogs m sorted q fwd bwd = Ok b /\
       (b = true <-> In (WithLogger true) os /\ (In (WithWatchlist []) os \/ exists l n, In (WithWatchlist l) os /\ In (INode n) l /\ In n (out :: ins)))).
Proof.
  intro E. destruct (C116_lisp_options _ _ E) as (_&_&_&_&_&_&_&F&B&W&_&L&N).
  assert (X : forall x l, existsb (Nat.eqb x) l = true <-> In x l).
  { intros x l. rewrite existsb_exists. split; [intros [y [J H]]; apply Nat.eqb_eq in H; congruence|intro J; exists x; split; [exact J|apply Nat.eqb_refl]]. }
  unfold lispLogs. split; [|split].
  - intros N1 N2 N3. assert (logFwd m = false) as -> by (destruct (logFwd m); [destruct (proj1 F eq_refl); contradiction|reflexivity]).
    assert (logBwd m = false) as -> by (destruct (logBwd m); [destruct (proj1 B eq_refl); contradiction|reflexivity]). reflexivity.
  - intros H n En P. apply F in H. rewrite H, En. cbn [negb]. assert (LT : (fwd < Z.of_nat (length sorted))%Z) by (assert (nth_error sorted (Z.to_nat fwd) <> None) by congruence; apply nth_error_Some in H0; lia).
    rewrite (proj2 (Z.leb_le 0 fwd) P), (proj2 (Z.ltb_lt _ _) LT). cbn [andb]. eexists. split; [reflexivity|]. rewrite andb_true_iff, orb_true_iff, L, W, X, N. tauto.
  - intros H P out ins Eq P'. apply B in H. rewrite H. cbn [negb]. rewrite (proj2 (Z.ltb_ge _ _) P), andb_false_r, (proj2 (Z.leb_le 0 bwd) P'), Eq.
    exists (lLogger m && (existsb (Nat.eqb out) (lWatch m) || existsb (fun i => existsb (Nat.eqb i) (lWatch m)) ins || watchAll m)). split; [destruct (logFwd m); reflexivity|].
    rewrite andb_true_iff, !orb_true_iff, L, W, X, N. split; (intros [H1 H2]; split; [exact H1|]).
    + destruct H2 as [[[l [J1 J2]]|J]|J]; [| |left; exact J]; right.
      * exists l, out. split; [exact J1|]. split; [exact J2|left; reflexivity].
      * apply existsb_exists in J as [i [Ji J]]. apply X, N in J as [l [J1 J2]]. exists l, i. split; [exact J1|]. split; [exact J2|right; exact Ji].
    + destruct H2 as [J|[l [n [J1 [J2 [J3|J3]]]]]]; [right; exact J| |]; left.
      * left. subst n. eauto.
      * right. apply existsb_exists. exists n. split; [exact J3|]. apply X, N. eauto.
Qed.
Print Assumptions C116_lisp_log.
(** ... although the documentation of WithWatchlist promises it. *)
Theorem C116_watch_everything_refuted : ~ (forall os m sorted fwd, newLisp os = Some m -> In (WithLogger true) os -> In (WithWatchlist []) os ->
  (0 <= fwd < Z.of_nat (length sorted))%Z -> lispLogs m sorted [] fwd (-1) = Ok true).
Proof.
  intro H. specialize (H [WithLogger true; WithWatchlist []] _ [7] 0%Z eq_refl ltac:(left; reflexivity) ltac:(right; left; reflexivity) ltac:(cbn; lia)). discriminate H.
Qed.
Print Assumptions C116_watch_everything_refuted.

(** ** Runs *)
(** ExecuteBwdOnly: whatever values the nodes have, and however often it is called, RunAll
    does nothing at all, and reports success. *)
Theorem C116_bwd_only_does_nothing : forall (S : Type) os m roots sorted (exec : nat -> S -> S * bool) isAD bad diff st st' e,
  newLisp os = Some m -> (exists a b, os = a ++ ExecuteBwdOnly :: b /\ ~ In ExecuteFwdOnly b) ->
  let run := runAllL m roots sorted exec isAD bad diff in
  history run (reset S sorted) false st -> run st = (st', e) ->
  lst st' = lst st /\ (e = BadRoots \/ e = Ran Done).
Proof.
  intros S os m roots sorted exec isAD bad diff st st' e E X run Hi R. destruct (C116_lisp_options _ _ E) as (O&F&_). pose proof (proj2 F X) as F'. destruct O as [O|O]; [congruence|].
  assert (One : forall x x' e, lbwd x = (-1)%Z -> lq x = [] -> run x = (x', e) -> lbwd x' = (-1)%Z /\ lq x' = [] /\ lst x' = lst x /\ (e = BadRoots \/ e = Ran Done)).
  { intros x x' e' B Q Rx. unfold run, runAllL, runAll, forwardHalf in Rx. rewrite F', O in Rx. destruct (checkRoots m roots); [|injection Rx as <- <-; auto]. cbn [negb] in Rx. unfold backwardHalf in Rx. rewrite B, Q in Rx. cbn in Rx. injection Rx as <- <-. cbn. auto. }
  assert (I : lbwd st = (-1)%Z /\ lq st = []).
  { clear R. induction Hi as [s|x x' e' H IH Rx|x H IH|x s H IH|x b Hb H IH].
    - split; reflexivity.
    - destruct IH as [I1 I2]. destruct (One _ _ _ I1 I2 Rx) as [J1 [J2 _]]. auto.
    - destruct IH as [I1 I2]. unfold reset. cbn [lbwd lq]. rewrite I2. auto.
    - exact IH.
    - discriminate Hb. }
  destruct I as [I1 I2]. apply (One _ _ _ I1 I2 R).
Qed.
Print Assumptions C116_bwd_only_does_nothing.

(** LastRun never says that backpropagation was done. *)
Theorem C116_backprop_never_reported : forall (S : Type) os m roots sorted (exec : nat -> S -> S * bool) isAD bad diff st n,
  newLisp os = Some m -> history (runAllL m roots sorted exec isAD bad diff) (reset S sorted) true st ->
  lastRun (runBwd m) sorted st <> Ok (n, true).
Proof.
  intros S os m roots sorted exec isAD bad diff st n E Hi.
  assert (I : ((0 <= lfwd st)%Z \/ sorted = []) /\ (sorted = [] -> lq st = [])).
  { induction Hi as [s|x x' e H IH Rx|x H IH|x s H IH|x b Hb H IH].
    - split; [left; cbn; lia|reflexivity].
    - unfold runAllL in Rx. destruct (checkRoots m roots); [|injection Rx as <- <-; exact IH]. destruct (runAll _ _ _ _ _ _ _ _ x) as [y o] eqn:Ra. injection Rx as <- <-.
      pose proof (runAll_fwd _ _ _ _ _ _ _ _ _ _ Ra) as [Rf _]. destruct IH as [I1 I2]. split; [destruct I1 as [I1|I1]; [left; lia|right; exact I1]|]. intro Z0. exact (runAll_nil _ _ _ _ _ _ _ _ _ _ Z0 (I2 Z0) Ra).
    - destruct IH as [I1 I2]. split; [|intro Z0; unfold reset; cbn [lq]; rewrite (I2 Z0); reflexivity]. unfold reset. cbn [lfwd]. destruct sorted as [|k l]; [right; reflexivity|left; cbn [length]; lia].
    - exact IH.
    - exact IH. }
  destruct I as [I1 I2]. unfold lastRun. destruct (Z.ltb_spec (lfwd st) 0) as [L|L]; cbn [andb].
  - destruct I1 as [I1|Z0]; [lia|]. rewrite (I2 Z0), Z0. destruct (runBwd m); cbn [negb]; [|cbn; discriminate].
    destruct (lbwd st <? 0)%Z; [cbn; discriminate|]. destruct (Z.to_nat (lbwd st)); cbn; discriminate.
  - destruct (runBwd m); cbn [negb Z.ltb Z.compare]; destruct (nth_error sorted _); discriminate.
Qed.
Print Assumptions C116_backprop_never_reported.
(** LastRun after a successful run that went both ways panics; with ExecuteFwdOnly it names
    the first node; after a failed run it names the node that the error of RunAll names. *)
Theorem C116_last_run : forall (S : Type) os m roots sorted (exec : nat -> S -> S * bool) isAD bad diff st st',
  newLisp os = Some m -> let run := runAllL m roots sorted exec isAD bad diff in
  history run (reset S sorted) true st ->
  (~ In ExecuteFwdOnly os -> ~ In ExecuteBwdOnly os -> run st = (st', Ran Done) -> lastRun (runBwd m) sorted st' = Panic) /\
  (~ In ExecuteFwdOnly os -> ~ In ExecuteBwdOnly os -> forall n, run st = (st', Ran (Failed (Some n))) -> sorted <> [] -> lastRun (runBwd m) sorted st' = Ok (n, false)) /\
  ((exists a b, os = a ++ ExecuteFwdOnly :: b /\ ~ In ExecuteBwdOnly b) ->
     lastRun (runBwd m) sorted st = match sorted with [] => Panic | n :: _ => Ok (n, false) end).
Proof.
  intros S os m roots sorted exec isAD bad diff st st' E run Hi. destruct (C116_lisp_options _ _ E) as (_&F&B&_).
  assert (Both : ~ In ExecuteFwdOnly os -> ~ In ExecuteBwdOnly os -> runFwd m = true /\ runBwd m = true).
  { intros N1 N2. split.
    - destruct (runFwd m); [reflexivity|]. destruct (proj1 F eq_refl) as [a [b [-> _]]]. exfalso. apply N2. apply in_or_app. right. left. reflexivity.
    - destruct (runBwd m); [reflexivity|]. destruct (proj1 B eq_refl) as [a [b [-> _]]]. exfalso. apply N1. apply in_or_app. right. left. reflexivity. }
  assert (I : (-1 <= lfwd st)%Z /\ ((0 <= lfwd st)%Z \/ sorted = [])).
  { clear st'. induction Hi as [s|x x' e H IH Rx|x H IH|x s H IH|x b Hb H IH]; try exact IH.
    - split; [cbn; lia|left; cbn; lia].
    - unfold run, runAllL in Rx. destruct (checkRoots m roots); [|injection Rx as <- <-; exact IH]. destruct (runAll _ _ _ _ _ _ _ _ x) as [y o] eqn:Ra. injection Rx as <- <-.
      pose proof (runAll_fwd _ _ _ _ _ _ _ _ _ _ Ra) as [Rf _]. destruct IH as [I0 [I1|I1]]; (split; [lia|]); [left; lia|right; exact I1].
    - unfold reset. cbn [lfwd]. destruct sorted as [|k l]; [split; [cbn; lia|right; reflexivity]|split; [|left]; cbn [length]; lia]. }
  destruct I as [I0 I1]. split; [|split].
  - intros N1 N2 R. destruct (Both N1 N2) as [F' B']. unfold run, runAllL in R. rewrite F', B' in R. destruct (checkRoots m roots); [|discriminate]. destruct (runAll _ _ _ _ _ _ _ _ st) as [y o] eqn:Ra. injection R as -> ->.
    pose proof (runAll_fwd _ _ _ _ _ _ _ _ _ _ Ra) as [_ Rf]. specialize (Rf eq_refl eq_refl I0). unfold lastRun. rewrite B'. assert (L : (lfwd st' <? 0)%Z = false) by (apply Z.ltb_ge; lia). rewrite L. cbn [andb negb].
    destruct (nth_error sorted (Z.to_nat (lfwd st'))) eqn:N; [|reflexivity]. exfalso. assert (nth_error sorted (Z.to_nat (lfwd st')) <> None) by congruence. apply nth_error_Some in H. lia.
  - intros N1 N2 n R NE. destruct (Both N1 N2) as [F' B']. unfold run, runAllL in R. rewrite F', B' in R. destruct (checkRoots m roots); [|discriminate]. destruct (runAll _ _ _ _ _ _ _ _ st) as [y o] eqn:Ra. injection R as -> ->.
    pose proof (runAll_fwd _ _ _ _ _ _ _ _ _ _ Ra) as [Rf _]. destruct I1 as [I1|I1]; [|contradiction].
    assert (K : nth_error sorted (Z.to_nat (lfwd st')) = Some n).
    { revert Ra. unfold runAll, dropQ. destruct (forwardHalf S sorted exec isAD bad true true st) as [m1 []]; cbn [negb].
      - destruct (backwardHalf S diff m1) as [m2 []]; intro X; [discriminate X|]. injection X as <- X. cbn [lfwd]. revert X. unfold nameOf. destruct (lfwd m2 <? _)%Z; [auto|discriminate].
      - intro X. injection X as <- X. cbn [lfwd]. revert X. unfold nameOf. destruct (lfwd m1 <? _)%Z; [auto|discriminate]. }
    unfold lastRun. rewrite B'. assert (L : (lfwd st' <? 0)%Z = false) by (apply Z.ltb_ge; lia). rewrite L. cbn [andb negb]. rewrite K. reflexivity.
  - intro X. apply B in X. unfold lastRun. rewrite X, andb_false_r. cbn [negb]. destruct sorted; reflexivity.
Qed.
Print Assumptions C116_last_run.

(** Backpropagation fails at an instruction with [k] others still to be done: the next [k]
    calls of RunAll fail, though they change nothing, and then RunAll succeeds, though
    nothing has been done either. *)
Theorem C116_after_a_failed_backward : forall (S : Type) os m roots sorted (exec : nat -> S -> S * bool) isAD bad diff s s1 s2 s3 qa n qb,
  newLisp os = Some m -> ~ In ExecuteFwdOnly os -> ~ In ExecuteBwdOnly os ->
  (In WithManualGradient os \/ forall r, In r roots -> rScalar r = true) ->
  let run := runAllL m roots sorted exec isAD bad diff in
  all_done (watched exec bad) sorted s s1 -> filter isAD sorted = qa ++ n :: qb -> all_done diff (rev qb) s1 s2 -> diff n s2 = (s3, false) ->
  exists st st', run (newMachine S s) = (st, Ran (Failed None)) /\ lst st = s3 /\
    calls run (length qa) st = (st', repeat (Ran (Failed None)) (length qa)) /\ lst st' = s3 /\ run st' = (st', Ran Done).
Proof.
  intros S os m roots sorted exec isAD bad diff s s1 s2 s3 qa n qb E N1 N2 Ro run A Q D X. destruct (C116_lisp_options _ _ E) as (_&F&B&_&_&G&_).
  assert (F' : runFwd m = true). { destruct (runFwd m); [reflexivity|]. destruct (proj1 F eq_refl) as [a [b [-> _]]]. exfalso. apply N2. apply in_or_app. right. left. reflexivity. }
  assert (B' : runBwd m = true). { destruct (runBwd m); [reflexivity|]. destruct (proj1 B eq_refl) as [a [b [-> _]]]. exfalso. apply N1. apply in_or_app. right. left. reflexivity. }
  assert (C : checkRoots m roots = true).
  { unfold checkRoots. rewrite B'. apply forallb_forall. intros r J. destruct Ro as [Ro|Ro]; [rewrite (proj2 G Ro); destruct (rStmt r); reflexivity|]. rewrite (Ro r J). destruct (setRootGrad m && negb (rStmt r)); [reflexivity|]. cbn [negb]. rewrite andb_false_r. reflexivity. }
  assert (Run : forall x, run x = let (y, o) := runAll S sorted exec isAD bad diff true true x in (y, Ran o)) by (intro x; unfold run, runAllL; rewrite C, F', B'; reflexivity).
  set (L := Z.of_nat (length sorted)) in *.
  assert (Bw : forall qb s1 s2 r fuel, all_done diff (rev qb) s1 s2 -> (length qb < fuel)%nat ->
    bwdLoop S diff fuel (LM L (Z.of_nat (length (qa ++ n :: qb)) - 1) (qa ++ n :: qb ++ r) s1) = bwdLoop S diff (fuel - length qb) (LM L (Z.of_nat (length qa)) (qa ++ n :: qb ++ r) s2)).
  { clear Q D X s1 s2 s3 qb A. induction qb as [|y qb IH] using rev_ind; intros s1 s2 r fuel A Lt.
    - inversion A; subst. cbn [length app]. rewrite app_length. cbn [length]. rewrite Nat.sub_0_r. do 2 f_equal. lia.
    - rewrite rev_app_distr in A. cbn [rev app] in A. inversion A as [|y' l' u v w D1 D2]; subst. rewrite app_length in Lt. cbn [length] in Lt. destruct fuel as [|fuel]; [lia|].
      cbn [bwdLoop lbwd]. replace (0 <=? _)%Z with true by (symmetry; apply Z.leb_le; rewrite app_length; cbn [length]; lia).
      unfold bwdRound. cbn [lbwd lq lst lfwd]. replace (nth_error (qa ++ n :: (qb ++ [y]) ++ r) _) with (Some y).
      2:{ symmetry. replace (qa ++ n :: (qb ++ [y]) ++ r) with ((qa ++ n :: qb) ++ y :: r) by (rewrite <- !app_assoc; cbn [app]; rewrite <- ?app_assoc; reflexivity).
          rewrite nth_error_app2 by (rewrite !app_length; cbn [length]; rewrite ?app_length; cbn [length]; lia). replace (_ - _)%nat with O by (rewrite !app_length; cbn [length]; rewrite ?app_length; cbn [length]; lia). reflexivity. }
      rewrite D1. replace (qa ++ n :: (qb ++ [y]) ++ r) with (qa ++ n :: qb ++ (y :: r)) by (rewrite <- !app_assoc; reflexivity).
      replace (Z.of_nat (length (qa ++ n :: qb ++ [y])) - 1 - 1)%Z with (Z.of_nat (length (qa ++ n :: qb)) - 1)%Z by (rewrite !app_length; cbn [length]; rewrite app_length; cbn [length]; lia).
      rewrite (IH v s2 (y :: r) fuel D2) by lia. f_equal. rewrite app_length. cbn [length]. lia. }
  assert (After : forall k, runAll S sorted exec isAD bad diff true true (LM L (Z.of_nat k) [] s3) = (LM L (Z.of_nat k - 1) [] s3, Failed None)).
  { intro k. unfold runAll, forwardHalf, L. rewrite fwdLoop_done. cbn [negb]. unfold backwardHalf. cbn [lfwd lbwd lq lst]. replace (Z.of_nat k <? 0)%Z with false by (symmetry; apply Z.ltb_ge; lia).
    cbn [bwdLoop lbwd]. replace (0 <=? Z.of_nat k)%Z with true by (symmetry; apply Z.leb_le; lia). unfold bwdRound. cbn [lbwd lq lst lfwd]. rewrite Nat2Z.id. destruct k; cbn [nth_error]; unfold dropQ, nameOf; cbn [lfwd lbwd lq lst]; rewrite Z.ltb_irrefl; reflexivity. }
  exists (LM L (Z.of_nat (length qa) - 1) [] s3), (LM L (-1) [] s3). split; [|split; [reflexivity|split; [|split; [reflexivity|]]]].
  - rewrite Run. unfold runAll, forwardHalf, newMachine. change (LM 0 (-1) [] s) with (LM (Z.of_nat (length (@nil nat))) (-1) [] s).
    rewrite (fwd_all S sorted exec isAD bad true [] sorted (-1)%Z [] s s1 (Datatypes.S (length sorted)) eq_refl A) by lia. cbn [negb app].
    assert (Qu : queued isAD true sorted = qa ++ n :: qb) by (rewrite <- Q; unfold queued; apply filter_ext; intro a; apply andb_true_r). rewrite Qu. fold L.
    unfold backwardHalf. cbn [lfwd lbwd lq lst]. change (-1 <? 0)%Z with true. cbn iota. pose proof (Bw qb s1 s2 [] (Datatypes.S (Z.to_nat (Z.of_nat (length (qa ++ n :: qb)) - 1))) D) as W. rewrite app_nil_r in W.
    rewrite W by (rewrite app_length; cbn [length]; lia). replace (Datatypes.S (Z.to_nat (Z.of_nat (length (qa ++ n :: qb)) - 1)) - length qb)%nat with (Datatypes.S (length qa)) by (rewrite app_length; cbn [length]; lia).
    cbn [bwdLoop lbwd]. replace (0 <=? Z.of_nat (length qa))%Z with true by (symmetry; apply Z.leb_le; lia). unfold bwdRound. cbn [lbwd lq lst lfwd]. rewrite Nat2Z.id, nth_error_app2, Nat.sub_diag by lia. cbn [nth_error]. rewrite X.
    unfold dropQ, nameOf. cbn [lfwd lbwd lq lst]. unfold L. rewrite Z.ltb_irrefl. reflexivity.
  - generalize (length qa). clear - Run After. induction n as [|k IH]; [reflexivity|]. cbn [calls]. rewrite Run. replace (Z.of_nat (Datatypes.S k) - 1)%Z with (Z.of_nat k) by lia. rewrite After, IH. reflexivity.
  - rewrite Run. unfold runAll, forwardHalf, L. rewrite fwdLoop_done. reflexivity.
Qed.
Print Assumptions C116_after_a_failed_backward.

(** Which roots RunAll refuses. *)
Theorem C116_roots os m (roots : list root) : newLisp os = Some m ->
  (checkRoots m roots = false <->
   ~ (exists a b, os = a ++ ExecuteFwdOnly :: b /\ ~ In ExecuteBwdOnly b) /\ ~ In WithManualGradient os /\
   exists r, In r roots /\ rStmt r = false /\ rScalar r = false).
Proof.
  intro E. destruct (C116_lisp_options _ _ E) as (_&_&B&_&_&G&_). rewrite <- B, <- G. unfold checkRoots. destruct (runBwd m).
  2:{ split; [discriminate|]. intros [H _]. exfalso. apply H. reflexivity. }
  destruct (setRootGrad m); cbn [negb andb].
  { split; [|intros [_ [H _]]; exfalso; apply H; reflexivity]. intro H. exfalso. replace (forallb _ roots) with true in H; [discriminate|]. symmetry. apply forallb_forall. intros r _. destruct (rStmt r); reflexivity. }
  split.
  - intro H. split; [discriminate|]. split; [discriminate|]. induction roots as [|r rs IH]; [discriminate|]. cbn [forallb] in H. destruct (rStmt r) eqn:A; [|destruct (rScalar r) eqn:C].
    + rewrite andb_false_r in H. cbn in H. destruct (IH H) as [x [J K]]. exists x. split; [right; exact J|exact K].
    + cbn in H. destruct (IH H) as [x [J K]]. exists x. split; [right; exact J|exact K].
    + exists r. split; [left; reflexivity|auto].
  - intros [_ [_ [r [J [A C]]]]]. apply not_true_is_false. intro H. rewrite forallb_forall in H. specialize (H r J). rewrite A, C in H. discriminate H.
Qed.
Print Assumptions C116_roots.

(** A machine for two nodes whose backward half fails at the second of three instructions. *)
Example C116_ex :
  exists m, newLisp [ExecuteBwdOnly; WithNaNWatch; ExecuteFwdOnly; WithWatchlist [INode 4; INode 2]; LogBothDir; WithLogger true] = Some m /\
    runFwd m = true /\ runBwd m = false /\ watchNaN m = true /\ lWatch m = [4; 2] /\
    lispLogs m [1; 2; 3] [] 1 (-1) = Ok true /\ lispLogs m [1; 2; 3] [] 0 (-1) = Ok false.
Proof. eexists. split; [reflexivity|]. repeat split. Qed.
Example C116_ex_run :
  let run := runAllL (Lisp 3 0 [] false 0 0 false) [Root false true] [1; 2; 3] (fun n s => (s + n, true)) (fun _ => true) (fun _ _ => false) (fun n s => (s + 10, negb (Nat.eqb n 2))) in
  newLisp [] = Some (Lisp 3 0 [] false 0 0 false) /\
  run (newMachine nat 0) = (LM 3 0 [] 26, Ran (Failed None)) /\
  calls run 2 (LM 3 0 [] 26) = (LM 3 (-1) [] 26, [Ran (Failed None); Ran Done]) /\
  lastRun true [1; 2; 3] (LM 3 (-1) [] 26) = Panic.
Proof. repeat split. Qed.
Example C116_ex_bwd :
  exists m, newLisp [ExecuteBwdOnly] = Some m /\
  runAllL m [Root false true] [1; 2; 3] (fun n s => (s + n, true)) (fun _ => true) (fun _ _ => false) (fun n s => (s + 10, true)) (newMachine nat 6) = (LM 0 (-1) [] 6, Ran Done).
Proof. eexists. split; [reflexivity|]. reflexivity. Qed.
