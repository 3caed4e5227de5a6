(** Flags as bits, and options one after the other. *)
From Coq Require Import Arith NArith ZArith List Bool Lia Btauto.
From Verif Require Import BroadcastModel LispModel FlagModel FlagSpec.
Import ListNotations.

Lemma hasFlag_bit f i : hasFlag f i = N.testbit f i.
Proof.
  unfold hasFlag. change 1%N with (N.ones 1). rewrite N.land_ones. change (2 ^ 1)%N with 2%N. rewrite <- N.bit0_mod, N.shiftr_spec by lia. rewrite N.add_0_l.
  destruct (N.testbit f i); reflexivity.
Qed.

(** Reads off every flag after an option. *)
Ltac flags := repeat rewrite hasFlag_bit; unfold setFlag, clearFlag; repeat rewrite N.lor_spec; repeat rewrite N.land_spec; repeat rewrite N.lor_spec;
  repeat match goal with |- context [N.testbit ?x ?y] =>
    match x with context [lRun _] => fail 1 | context [lLog _] => fail 1 | context [tRun _] => fail 1 | context [tLog _] => fail 1
    | _ => let v := eval vm_compute in (N.testbit x y) in change (N.testbit x y) with v end end;
  rewrite ?orb_false_r, ?orb_true_r, ?andb_true_r, ?andb_false_r.

(** One option, flag by flag. *)
Definition isO (o o' : vmopt) : bool :=
  match o, o' with
  | EvalMode, EvalMode | WithNaNWatch, WithNaNWatch | WithInfWatch, WithInfWatch | WithPointerWatch, WithPointerWatch
  | ExecuteFwdOnly, ExecuteFwdOnly | ExecuteBwdOnly, ExecuteBwdOnly | LogFwd, LogFwd | LogBwd, LogBwd
  | LogBothDir, LogBothDir | TraceExec, TraceExec | WithManualGradient, WithManualGradient => true
  | WithWatchlist [], WithWatchlist [] => true
  | WithLogger true, WithLogger true => true
  | _, _ => false
  end.
Definition nodesOf (l : list item) : list nat := flat_map (fun i => match i with INode n => [n] | _ => [] end) l.

Lemma allNodes_spec l ns : allNodes l = Some ns -> ns = nodesOf l.
Proof.
  revert ns. induction l as [|i l IH]; intros ns E; cbn [allNodes] in E; [injection E as <-; reflexivity|].
  destruct i; try discriminate. destruct (allNodes l) as [ms|]; [|discriminate]. injection E as <-. cbn. f_equal. apply IH. reflexivity.
Qed.
Lemma allNodes_none l : allNodes l = None <-> exists i, In i l /\ forall n, i <> INode n.
Proof.
  induction l as [|i l IH]; cbn [allNodes]; [split; [discriminate|intros [i [[] _]]]|].
  assert (O : (forall n, i <> INode n) -> (exists i0, In i0 (i :: l) /\ forall n, i0 <> INode n)) by (intro H; exists i; split; [left; reflexivity|exact H]).
  destruct i as [k|k|n|]; try (split; [intros _; apply O; discriminate|reflexivity]).
  destruct (allNodes l) as [ns|]; split.
  - discriminate.
  - intros [i [[<-|J] H]]; [exfalso; apply (H n eq_refl)|]. assert (X : Some ns = None) by (apply IH; eauto). discriminate X.
  - intros _. destruct (proj1 IH eq_refl) as [i [J H]]. exists i. split; [right; exact J|exact H].
  - reflexivity.
Qed.

Definition lispStep (o : vmopt) (m m' : lisp) : Prop :=
  runFwd m' = (runFwd m || isO ExecuteFwdOnly o) && negb (isO ExecuteBwdOnly o) /\
  runBwd m' = (runBwd m || isO ExecuteBwdOnly o) && negb (isO ExecuteFwdOnly o) /\
  watchNaN m' = watchNaN m || isO WithNaNWatch o /\
  watchInf m' = watchInf m || isO WithInfWatch o /\
  setRootGrad m' = setRootGrad m || isO WithManualGradient o /\
  dealloc m' = dealloc m /\
  logFwd m' = logFwd m || isO LogFwd o || isO LogBothDir o /\
  logBwd m' = logBwd m || isO LogBwd o || isO LogBothDir o /\
  watchAll m' = watchAll m || isO (WithWatchlist []) o /\
  lEval m' = lEval m || isO EvalMode o /\
  lLogger m' = lLogger m || isO (WithLogger true) o /\
  lWatch m' = lWatch m ++ (match o with WithWatchlist l => nodesOf l | _ => [] end).
Lemma optLisp_step m o m' : optLisp m o = Some m' -> lispStep o m m'.
Proof.
  intro E. unfold lispStep, runFwd, runBwd, watchNaN, watchInf, setRootGrad, dealloc, logFwd, logBwd, watchAll.
  destruct o as [|[] | |[|i l]| | | | | | | | | | | | |]; cbn [optLisp] in E; try discriminate E;
  try (injection E as <-; cbn [runF logF lRun lLog lWatch lLogger lEval isO nodesOf flat_map]; rewrite ?app_nil_r; flags; repeat split; reflexivity).
  destruct (allNodes (i :: l)) as [ns|] eqn:A; [|discriminate]. injection E as <-. cbn [lRun lLog lWatch lLogger lEval isO]. rewrite (allNodes_spec _ _ A), !orb_false_r, !andb_true_r. repeat split; reflexivity.
Qed.

Lemma isO_in o os : isO o o = true -> (existsb (isO o) os = true <-> In o os).
Proof.
  intro R. rewrite existsb_exists. split.
  - intros [x [J H]]. assert (X : o = x); [|rewrite X; exact J]. destruct o as [|[] | |[|? ?]| | | | | | | | | | | | |], x as [|[] | |[|? ?]| | | | | | | | | | | | |]; try discriminate H; try discriminate R; reflexivity.
  - intro J. exists o. split; assumption.
Qed.

(** The last of two opposite options counts. *)
Lemma last_wins on off (f : bool -> vmopt -> bool) :
  (forall b, f b on = true) -> (forall b, f b off = false) -> (forall o b, o <> on -> o <> off -> f b o = b) ->
  (forall o, o = on \/ o = off \/ (o <> on /\ o <> off)) -> on <> off ->
  forall os b, fold_left f os b = false <-> (exists x y, os = x ++ off :: y /\ ~ In on y) \/ (b = false /\ ~ In on os).
Proof.
  intros H1 H2 H3 D NE. induction os as [|o os IH]; intro b; cbn [fold_left].
  - split; [intros ->; right; split; [reflexivity|intros []]|]. intros [[x [y [E _]]]|[-> _]]; [destruct x; discriminate|reflexivity].
  - rewrite IH. destruct (D o) as [->|[->|[N1 N2]]].
    + rewrite H1. split.
      * intros [[x [y [-> J]]]|[X _]]; [left; exists (on :: x), y; auto|discriminate X].
      * intros [[x [y [E J]]]|[_ J]]; [|exfalso; apply J; left; reflexivity]. destruct x as [|a x]; cbn [app] in E; injection E as E' E; [contradiction|left; exists x, y; auto].
    + rewrite H2. split.
      * intros [[x [y [-> J]]]|[_ J]]; [left; exists (off :: x), y; auto|left; exists [], os; auto].
      * intros [[x [y [E J]]]|[_ J]]; [|right; split; [reflexivity|intro K; apply J; right; exact K]]. destruct x as [|a x]; cbn [app] in E; [injection E as E; right; rewrite E; auto|injection E as _ E; left; exists x, y; auto].
    + rewrite H3 by assumption. split.
      * intros [[x [y [-> J]]]|[-> J]]; [left; exists (o :: x), y; auto|right; split; [reflexivity|intros [K|K]; auto]].
      * intros [[x [y [E J]]]|[-> J]]; [|right; split; [reflexivity|intro K; apply J; right; exact K]]. destruct x as [|a x]; cbn [app] in E; injection E as E' E; [contradiction|left; exists x, y; auto].
Qed.

Definition fFwd (b : bool) (o : vmopt) : bool := (b || isO ExecuteFwdOnly o) && negb (isO ExecuteBwdOnly o).
Definition fBwd (b : bool) (o : vmopt) : bool := (b || isO ExecuteBwdOnly o) && negb (isO ExecuteFwdOnly o).

Lemma optsLisp_run : forall os m m', optsLisp m os = Some m' ->
  runFwd m' = fold_left fFwd os (runFwd m) /\ runBwd m' = fold_left fBwd os (runBwd m) /\
  watchNaN m' = watchNaN m || existsb (isO WithNaNWatch) os /\
  watchInf m' = watchInf m || existsb (isO WithInfWatch) os /\
  setRootGrad m' = setRootGrad m || existsb (isO WithManualGradient) os /\
  dealloc m' = dealloc m /\
  logFwd m' = logFwd m || existsb (isO LogFwd) os || existsb (isO LogBothDir) os /\
  logBwd m' = logBwd m || existsb (isO LogBwd) os || existsb (isO LogBothDir) os /\
  watchAll m' = watchAll m || existsb (isO (WithWatchlist [])) os /\
  lEval m' = lEval m || existsb (isO EvalMode) os /\
  lLogger m' = lLogger m || existsb (isO (WithLogger true)) os /\
  lWatch m' = lWatch m ++ flat_map (fun o => match o with WithWatchlist l => nodesOf l | _ => [] end) os.
Proof.
  induction os as [|o os IH]; intros m m' E; cbn [optsLisp] in E.
  - injection E as <-. cbn [fold_left existsb flat_map]. rewrite ?orb_false_r, app_nil_r. repeat split; reflexivity.
  - destruct (optLisp m o) as [m1|] eqn:E1; [|discriminate]. apply optLisp_step in E1. destruct E1 as (A1&A2&A3&A4&A5&A6&A7&A8&A9&A10&A11&A12).
    destruct (IH _ _ E) as (B1&B2&B3&B4&B5&B6&B7&B8&B9&B10&B11&B12). cbn [fold_left existsb flat_map]. unfold fFwd at 2, fBwd at 2.
    rewrite B1, B2, B3, B4, B5, B6, B7, B8, B9, B10, B11, B12, A1, A2, A3, A4, A5, A6, A7, A8, A9, A10, A11, A12, app_assoc.
    repeat split; try reflexivity; btauto.
Qed.
Lemma both_never_off : forall os b1 b2, b1 || b2 = true -> fold_left fFwd os b1 || fold_left fBwd os b2 = true.
Proof.
  induction os as [|o os IH]; intros b1 b2 H; cbn [fold_left]; [exact H|]. apply IH. unfold fFwd, fBwd. destruct o; cbn [isO negb]; rewrite ?orb_false_r, ?andb_true_r, ?orb_true_r, ?andb_false_r; try exact H; reflexivity.
Qed.

(** ** The tape machine *)
Definition tapeStep (o : vmopt) (m m' : tape) : Prop :=
  tWatchNaN m' = tWatchNaN m || isO WithNaNWatch o /\
  tWatchInf m' = tWatchInf m || isO WithInfWatch o /\
  tWatchPointer m' = tWatchPointer m || isO WithPointerWatch o /\
  tWatchAll m' = tWatchAll m || isO (WithWatchlist []) o /\
  tTrace m' = tTrace m || isO TraceExec o /\
  tBindDV m' = tBindDV m || (match o with BindDualValues _ => true | _ => false end) /\
  tEval m' = tEval m || isO EvalMode o /\
  tLogger m' = tLogger m || isO (WithLogger true) o /\
  tRegs m' = tRegs m ++ (match o with WithWatchlist l => flat_map (fun i => match i with IReg n => [n] | _ => [] end) l | _ => [] end) /\
  tIds m' = tIds m ++ (match o with WithWatchlist l => flat_map (fun i => match i with IId n => [n] | _ => [] end) l | _ => [] end) /\
  tNodes m' = tNodes m ++ (match o with WithWatchlist l => nodesOf l | _ => [] end) /\
  tBind m' = tBind m ++ (match o with BindDualValues ns => ns | _ => [] end) /\
  tProg m' = (match o with WithPrecompiled p l => Some (p, l) | _ => tProg m end).
Lemma watchItems_spec : forall l m m', watchItems m l = Some m' ->
  m' = Tape (tRun m) (tLog m) (tRegs m ++ flat_map (fun i => match i with IReg n => [n] | _ => [] end) l)
    (tIds m ++ flat_map (fun i => match i with IId n => [n] | _ => [] end) l) (tNodes m ++ nodesOf l) (tBind m) (tLogger m) (tFmt m) (tEng m) (tProg m) (tEval m).
Proof.
  induction l as [|i l IH]; intros m m' E; cbn [watchItems] in E.
  - injection E as <-. cbn [flat_map nodesOf]. rewrite !app_nil_r. destruct m; reflexivity.
  - destruct i; try discriminate; apply IH in E; cbn [tRun tLog tRegs tIds tNodes tBind tLogger tFmt tEng tProg tEval] in E; rewrite E; unfold nodesOf; cbn [flat_map app]; rewrite <- ?app_assoc; reflexivity.
Qed.
Lemma watchItems_none : forall l m, watchItems m l = None <-> In IOther l.
Proof.
  induction l as [|i l IH]; intro m; cbn [watchItems]; [split; [discriminate|intros []]|].
  destruct i; rewrite ?IH; split; intro H; try (right; exact H); try (destruct H as [H|H]; [discriminate H|exact H]); [left; reflexivity|reflexivity].
Qed.
Lemma optTape_step m o m' : optTape m o = Some m' -> tapeStep o m m'.
Proof.
  intro E. unfold tapeStep, tWatchNaN, tWatchInf, tWatchPointer, tWatchAll, tTrace, tBindDV.
  destruct o as [|[] | |[|i l]| | | | | | | | | | | | |]; cbn [optTape] in E; try discriminate E;
  try (injection E as <-; cbn [runT logT tRun tLog tRegs tIds tNodes tBind tLogger tProg tEval isO nodesOf flat_map]; rewrite ?app_nil_r; flags; repeat split; reflexivity).
  apply watchItems_spec in E. rewrite E. cbn [tRun tLog tRegs tIds tNodes tBind tLogger tProg tEval isO]. rewrite !orb_false_r, app_nil_r. repeat split; reflexivity.
Qed.
Lemma optsTape_run : forall os m m', optsTape m os = Some m' ->
  tWatchNaN m' = tWatchNaN m || existsb (isO WithNaNWatch) os /\
  tWatchInf m' = tWatchInf m || existsb (isO WithInfWatch) os /\
  tWatchPointer m' = tWatchPointer m || existsb (isO WithPointerWatch) os /\
  tWatchAll m' = tWatchAll m || existsb (isO (WithWatchlist [])) os /\
  tTrace m' = tTrace m || existsb (isO TraceExec) os /\
  tBindDV m' = tBindDV m || existsb (fun o => match o with BindDualValues _ => true | _ => false end) os /\
  tEval m' = tEval m || existsb (isO EvalMode) os /\
  tLogger m' = tLogger m || existsb (isO (WithLogger true)) os /\
  tRegs m' = tRegs m ++ flat_map (fun o => match o with WithWatchlist l => flat_map (fun i => match i with IReg n => [n] | _ => [] end) l | _ => [] end) os /\
  tIds m' = tIds m ++ flat_map (fun o => match o with WithWatchlist l => flat_map (fun i => match i with IId n => [n] | _ => [] end) l | _ => [] end) os /\
  tNodes m' = tNodes m ++ flat_map (fun o => match o with WithWatchlist l => nodesOf l | _ => [] end) os /\
  tBind m' = tBind m ++ flat_map (fun o => match o with BindDualValues ns => ns | _ => [] end) os /\
  tProg m' = fold_left (fun p o => match o with WithPrecompiled q l => Some (q, l) | _ => p end) os (tProg m).
Proof.
  induction os as [|o os IH]; intros m m' E; cbn [optsTape] in E.
  - injection E as <-. cbn [fold_left existsb flat_map]. rewrite ?orb_false_r, !app_nil_r. repeat split; reflexivity.
  - destruct (optTape m o) as [m1|] eqn:E1; [|discriminate]. apply optTape_step in E1. destruct E1 as (A1&A2&A3&A4&A5&A6&A7&A8&A9&A10&A11&A12&A13).
    destruct (IH _ _ E) as (B1&B2&B3&B4&B5&B6&B7&B8&B9&B10&B11&B12&B13). cbn [fold_left existsb flat_map].
    rewrite B1, B2, B3, B4, B5, B6, B7, B8, B9, B10, B11, B12, B13, A1, A2, A3, A4, A5, A6, A7, A8, A9, A10, A11, A12, A13, !app_assoc, !orb_assoc.
    repeat split; reflexivity.
Qed.

(** ** Runs *)
Definition gf (v : nat) (o : vmopt) : nat := match o with WithValueFmt x => x | _ => v end.
Definition ge (v : nat) (o : vmopt) : nat := match o with WithEngine x => x | _ => v end.
Lemma optsLisp_fold os : forall m m', optsLisp m os = Some m' -> lFmt m' = fold_left gf os (lFmt m) /\ lEng m' = fold_left ge os (lEng m).
Proof.
  induction os as [|o os IH]; intros m m' E; cbn [optsLisp] in E; [injection E as <-; split; reflexivity|].
  destruct (optLisp m o) as [m1|] eqn:E1; [|discriminate]. destruct (IH _ _ E) as [-> ->]. cbn [fold_left].
  assert (K : lFmt m1 = gf (lFmt m) o /\ lEng m1 = ge (lEng m) o); [|destruct K as [-> ->]; split; reflexivity].
  destruct o as [|[]| |[|i l]| | | | | | | | | | | | |]; cbn [optLisp] in E1; try discriminate; try (injection E1 as <-; split; reflexivity).
  destruct (allNodes (i :: l)); [|discriminate]. injection E1 as <-. split; reflexivity.
Qed.
Lemma watchItems_keep l : forall m m', watchItems m l = Some m' -> tFmt m' = tFmt m /\ tEng m' = tEng m.
Proof.
  induction l as [|[] l IH]; intros m m' E; cbn [watchItems] in E; try discriminate; [injection E as <-; split; reflexivity| | |]; apply IH in E; exact E.
Qed.
Lemma optsTape_fold os : forall m m', optsTape m os = Some m' -> tFmt m' = fold_left gf os (tFmt m) /\ tEng m' = fold_left ge os (tEng m).
Proof.
  induction os as [|o os IH]; intros m m' E; cbn [optsTape] in E; [injection E as <-; split; reflexivity|].
  destruct (optTape m o) as [m1|] eqn:E1; [|discriminate]. destruct (IH _ _ E) as [-> ->]. cbn [fold_left].
  assert (K : tFmt m1 = gf (tFmt m) o /\ tEng m1 = ge (tEng m) o); [|destruct K as [-> ->]; split; reflexivity].
  destruct o as [|[]| |[|i l]| | | | | | | | | | | | |]; cbn [optTape] in E1; try discriminate; try (injection E1 as <-; split; reflexivity).
  apply watchItems_keep in E1. exact E1.
Qed.
Lemma last_of (c : nat -> vmopt) (g : nat -> vmopt -> nat) : (forall v x, g v (c x) = x) -> (forall v o, (forall x, o <> c x) -> g v o = v) -> (forall o, (exists x, o = c x) \/ forall x, o <> c x) ->
  forall l v, ((forall x, ~ In (c x) l) /\ fold_left g l v = v) \/ exists a b, l = a ++ c (fold_left g l v) :: b /\ forall x, ~ In (c x) b.
Proof.
  intros H1 H2 D l v. induction l as [|o l IH] using rev_ind; [left; split; [intros x []|reflexivity]|]. rewrite fold_left_app. cbn [fold_left]. destruct (D o) as [[x ->]|N].
  - right. rewrite H1. exists l, []. split; [reflexivity|intros y []].
  - rewrite (H2 _ _ N). destruct IH as [[IH1 IH2]|[a [b [E IH]]]].
    + left. split; [|exact IH2]. intros x J. apply in_app_or in J as [J|[J|[]]]; [exact (IH1 x J)|exact (N x J)].
    + right. exists a, (b ++ [o]). split; [rewrite E at 1; rewrite <- app_assoc; reflexivity|]. intros x J. apply in_app_or in J as [J|[J|[]]]; [exact (IH x J)|exact (N x J)].
Qed.

Section Runs.
Context {S : Type}.
Variable sorted : list nat.
Variable exec : nat -> S -> S * bool.
Variable isAD : nat -> bool.
Variable bad : nat -> S -> bool.
Variable diff : nat -> S -> S * bool.

Lemma fwdRound_fwd bw m m' ok : (lfwd m < Z.of_nat (length sorted))%Z -> fwdRound S sorted exec isAD bad bw m = (m', ok) -> lfwd m' = (lfwd m + 1)%Z.
Proof.
  intros L. unfold fwdRound. destruct (Z.ltb_spec (lfwd m) 0); [intro E; injection E as <- _; reflexivity|].
  destruct (nth_error sorted (Z.to_nat (lfwd m))) as [n|] eqn:N; [|apply nth_error_None in N; lia].
  destruct (exec n (lst m)) as [s []]; intro E; injection E as <- _; reflexivity.
Qed.
Lemma fwdLoop_fwd bw : forall fuel m m' ok, fwdLoop S sorted exec isAD bad bw fuel m = (m', ok) -> (lfwd m <= lfwd m')%Z /\
  (ok = true -> (Z.of_nat (length sorted) - lfwd m <= Z.of_nat fuel)%Z -> (Z.of_nat (length sorted) <= lfwd m')%Z).
Proof.
  induction fuel as [|fuel IH]; intros m m' ok; cbn [fwdLoop]; destruct (Z.ltb_spec (lfwd m) (Z.of_nat (length sorted))) as [L|L].
  - intro E. injection E as <- <-. split; [lia|]. intros _ H. cbn in H. lia.
  - intro E. injection E as <- <-. split; [lia|]. intros _ _. lia.
  - destruct (fwdRound S sorted exec isAD bad bw m) as [m1 []] eqn:R; apply fwdRound_fwd in R; try assumption.
    + intro E. destruct (IH _ _ _ E) as [H1 H2]. split; [lia|]. intros Hok H. apply H2; [exact Hok|lia].
    + intro E. injection E as <- <-. split; [lia|discriminate].
  - intro E. injection E as <- <-. split; [lia|]. intros _ _. lia.
Qed.
Lemma bwdLoop_keep : forall fuel m m' ok, bwdLoop S diff fuel m = (m', ok) -> lfwd m' = lfwd m /\ lq m' = lq m.
Proof.
  induction fuel as [|fuel IH]; intros m m' ok; cbn [bwdLoop]; destruct (0 <=? lbwd m)%Z; try (intro E; injection E as <- <-; split; reflexivity).
  destruct (bwdRound S diff m) as [m1 []] eqn:R; assert (K : lfwd m1 = lfwd m /\ lq m1 = lq m) by
    (unfold bwdRound in R; destruct (nth_error (lq m) (Z.to_nat (lbwd m))) as [n|]; [destruct (diff n (lst m)) as [s b]|]; inversion R; subst; split; reflexivity).
  - intro E. destruct (IH _ _ _ E) as [H1 H2]. destruct K as [K1 K2]. split; congruence.
  - intro E. injection E as <- <-. exact K.
Qed.
Lemma backwardHalf_keep m m' ok : backwardHalf S diff m = (m', ok) -> lfwd m' = lfwd m /\ lq m' = lq m.
Proof. unfold backwardHalf. intro E. apply bwdLoop_keep in E. exact E. Qed.

Lemma runAll_fwd fw bw m m' o : runAll S sorted exec isAD bad diff fw bw m = (m', o) -> (lfwd m <= lfwd m')%Z /\
  (fw = true -> o = Done -> (-1 <= lfwd m)%Z -> (Z.of_nat (length sorted) <= lfwd m')%Z).
Proof.
  unfold runAll, forwardHalf, dropQ. destruct fw.
  - destruct (fwdLoop S sorted exec isAD bad bw _ m) as [m1 []] eqn:F; apply fwdLoop_fwd in F; destruct F as [F1 F2]; cbn [negb].
    + destruct bw; cbn [negb].
      * destruct (backwardHalf S diff m1) as [m2 []] eqn:B; apply backwardHalf_keep in B; destruct B as [B1 _]; intro E; injection E as <- <-; cbn [lfwd]; (split; [lia|]); [|discriminate].
        intros _ _ L. rewrite B1. apply F2; [reflexivity|lia].
      * intro E. injection E as <- <-. split; [lia|]. intros _ _ L. apply F2; [reflexivity|lia].
    + intro E. injection E as <- <-. cbn [lfwd]. split; [lia|discriminate].
  - cbn [negb]. destruct bw; cbn [negb].
    + destruct (backwardHalf S diff m) as [m2 []] eqn:B; apply backwardHalf_keep in B; destruct B as [B1 _]; intro E; injection E as <- <-; cbn [lfwd]; (split; [lia|discriminate]).
    + intro E. injection E as <- <-. split; [lia|discriminate].
Qed.
Lemma fwdLoop_nil bw : sorted = [] -> forall fuel m m' ok, fwdLoop S sorted exec isAD bad bw fuel m = (m', ok) -> lq m' = lq m.
Proof.
  intro Z0. induction fuel as [|fuel IH]; intros m m' ok; cbn [fwdLoop]; destruct (Z.ltb_spec (lfwd m) (Z.of_nat (length sorted))) as [L|L]; try (intro E; injection E as <- <-; reflexivity).
  destruct (fwdRound S sorted exec isAD bad bw m) as [m1 []] eqn:R; assert (K : lq m1 = lq m) by
    (unfold fwdRound in R; rewrite Z0 in R, L; cbn in L; rewrite (proj2 (Z.ltb_lt _ _) L) in R; injection R as <-; reflexivity || (rewrite Z0 in R; discriminate R)).
  - intro E. rewrite (IH _ _ _ E). exact K.
  - intro E. injection E as <- <-. exact K.
Qed.
Lemma runAll_nil fw bw m m' o : sorted = [] -> lq m = [] -> runAll S sorted exec isAD bad diff fw bw m = (m', o) -> lq m' = [].
Proof.
  intros Z0 Q. unfold runAll, forwardHalf, dropQ. destruct (if fw then fwdLoop S sorted exec isAD bad bw (Datatypes.S (length sorted)) m else (m, true)) as [m1 ok] eqn:F.
  assert (K : lq m1 = []). { destruct fw; [apply fwdLoop_nil in F; [congruence|exact Z0]|injection F as <- _; exact Q]. }
  destruct ok; cbn [negb].
  - destruct bw; cbn [negb]; [|intro E; injection E as <- <-; exact K]. destruct (backwardHalf S diff m1) as [m2 b] eqn:B. apply backwardHalf_keep in B. intro E. injection E as <- <-. reflexivity.
  - intro E. injection E as <- <-. cbn [lq]. destruct bw; [reflexivity|exact K].
Qed.
End Runs.
