(** C105: lifted functions. *)
From Coq Require Import List Arith Bool Lia.
From Verif Require Import BroadcastModel LiftModel LiftSpec.
Import ListNotations.

(** A program written with lifted functions means what it would mean with an explicit check
    after every call: the node, or the cause of its leftmost innermost error, and the same
    effects; no function is called with a failed argument. *)
Theorem C105_programs : forall S mkF (p : prog S) s,
  exists i, lifted mkF p s = (fst (means p s), Ok i) /\ shows i (snd (means p s)).
Proof.
  intros S mkF. induction p as [n|e|f p IH|f p IHp q IHq]; intros s; cbn [lifted means].
  - eexists. split; [reflexivity|constructor].
  - eexists. split; [reflexivity|constructor].
  - destruct (IH s) as (i & E & Sh). rewrite E. destruct (means p s) as [s1 [n|c]]; cbn [fst snd] in *; inversion Sh; subst; clear Sh.
    + unfold Lift1. cbn [checkOne nodeM]. destruct (f s1 n) as [s2 [k [e|]]]; unfold outcome; cbn [fst snd TransformResult Err_ option_map mkAll asResult isResult].
      * eexists. split; [reflexivity|]. apply (sh_err (WithStack e)).
      * eexists. split; [reflexivity|constructor].
    + unfold Lift1. cbn [checkOne fst snd]. eexists. split; [reflexivity|]. apply (sh_err (WithStack (WithStack e))).
  - destruct (IHp s) as (i & E & Sh). rewrite E. destruct (means p s) as [s1 ra]. cbn [fst snd] in *.
    destruct (IHq s1) as (i' & E' & Sh'). rewrite E'. destruct (means q s1) as [s2 rb]. cbn [fst snd] in *.
    inversion Sh as [e|n]; subst; inversion Sh' as [e'|n']; subst; clear Sh Sh'; unfold Lift2; cbn [checkOne nodeM].
    + eexists. split; [reflexivity|]. apply (sh_err (WithStack (WithStack e))).
    + eexists. split; [reflexivity|]. apply (sh_err (WithStack (WithStack e))).
    + eexists. split; [reflexivity|]. apply (sh_err (WithStack (WithStack e'))).
    + destruct (f s2 n n') as [s3 [k [e|]]]; unfold outcome; cbn [fst snd TransformResult Err_ option_map mkAll asResult isResult].
      * eexists. split; [reflexivity|]. apply (sh_err (WithStack e)).
      * eexists. split; [reflexivity|constructor].
Qed.
Print Assumptions C105_programs.

(** A failed argument of any kind: the function is not called and the error handed on; the
    first argument's error wins. Nothing else makes a lifted function of one argument fail but
    the function itself. *)
Theorem C105_failed : forall S mkF f g (s : S) a b e,
  (failed a e -> exists e', Lift1 mkF S f s a = (s, Ok (IErr (Some e'))) /\ causeOf e' = causeOf e) /\
  (failed a e -> exists e', Lift2 mkF S g s a b = (s, Ok (IErr (Some e'))) /\ causeOf e' = causeOf e) /\
  (forall n, usable a n -> failed b e -> exists e', Lift2 mkF S g s a b = (s, Ok (IErr (Some e'))) /\ causeOf e' = causeOf e) /\
  (forall n s1 k e0, usable a n -> f s (Some n) = (s1, (k, Some e0)) ->
     exists e', Lift1 mkF S f s a = (s1, Ok (IErr (Some e'))) /\ causeOf e' = causeOf e0).
Proof.
  intros S mkF f g s a b e.
  assert (U : forall i n, usable i n -> checkOne i = None /\ nodeM i = Ok (Some n)).
  { intros i n H. induction H as [n|i n H [_ IH]|n e0 m [-> | ->]]; cbn; auto. }
  assert (F : forall i x, failed i x -> checkOne i = Some x) by (intros i x H; inversion H; reflexivity).
  repeat split.
  - intros H. unfold Lift1. rewrite (F _ _ H). eexists. split; reflexivity.
  - intros H. unfold Lift2. rewrite (F _ _ H). eexists. split; reflexivity.
  - intros n H Hb. unfold Lift2. destruct (U _ _ H) as [-> _]. rewrite (F _ _ Hb). eexists. split; reflexivity.
  - intros n s1 k e0 H Ef. unfold Lift1. destruct (U _ _ H) as [-> ->]. rewrite Ef. eexists. split; reflexivity.
Qed.
Print Assumptions C105_failed.

(** A usable argument: the function gets its node; the result is made by the arguments' Mk
    methods, the first argument's first. *)
Theorem C105_made : forall S mkF f g (s s' : S) n n' k e e' m m',
  e = None \/ e = Some None -> e' = None \/ e' = Some None ->
  (f s (Some n) = (s', (k, None)) ->
     exists r, Lift1 mkF S f s (IOwn (Some n) e (Some m)) = (s', Ok r) /\
       (r = mkF m (INode k) \/ r = IResult (mkF m (INode k)))) /\
  (g s (Some n) (Some n') = (s', (k, None)) ->
     exists r, Lift2 mkF S g s (IOwn (Some n) e (Some m)) (IOwn (Some n') e' (Some m')) = (s', Ok r) /\
       (r = mkF m' (mkF m (INode k)) \/ r = IResult (mkF m' (mkF m (INode k))))) /\
  (g s (Some n) (Some n') = (s', (k, None)) ->
     exists r, Lift2 mkF S g s (INode (Some n)) (IOwn (Some n') e' (Some m')) = (s', Ok r) /\
       (r = mkF m' (INode k) \/ r = IResult (mkF m' (INode k)))) /\
  (g s (Some n) (Some n') = (s', (k, None)) ->
     exists r, Lift2 mkF S g s (IOwn (Some n) e (Some m)) (INode (Some n')) = (s', Ok r) /\
       (r = mkF m (INode k) \/ r = IResult (mkF m (INode k)))).
Proof.
  intros S mkF f g s s' n n' k e e' m m' He He'.
  assert (C : forall x o mk, o = None \/ o = Some None -> checkOne (IOwn x o mk) = None) by (intros x o mk [-> | ->]; reflexivity).
  assert (A : forall i, asResult i = i \/ asResult i = IResult i) by (intros i; unfold asResult; destruct (isResult i); auto).
  split; [|split; [|split]]; intros E.
  - unfold Lift1. rewrite C by exact He. cbn [nodeM]. rewrite E. eexists. split; [reflexivity|]. cbn [fst snd TransformResult mkAll]. apply A.
  - unfold Lift2. rewrite !C by assumption. cbn [nodeM]. rewrite E. eexists. split; [reflexivity|]. cbn [fst snd TransformResult mkAll]. apply A.
  - unfold Lift2. rewrite C by assumption. cbn [checkOne nodeM]. rewrite E. eexists. split; [reflexivity|]. cbn [fst snd TransformResult mkAll]. apply A.
  - unfold Lift2. rewrite C by assumption. cbn [checkOne nodeM]. rewrite E. eexists. split; [reflexivity|]. cbn [fst snd TransformResult mkAll]. apply A.
Qed.
Print Assumptions C105_made.

(** A type of the user's that has Mk and Err is kept through any chain of lifted functions. *)
Theorem C105_own_kept : forall S mkF m, (forall k, mkF m (INode (Some k)) = IOwn (Some k) (Some None) (Some m)) ->
  forall fs (s : S) n s' j, composed fs s n s' j ->
  chain mkF fs s (IOwn (Some n) (Some None) (Some m)) = (s', Ok (IOwn (Some j) (Some None) (Some m))).
Proof.
  intros S mkF m H. induction fs as [|f fs IH]; intros s n s' j C; inversion C; subst; cbn [chain]; [reflexivity|].
  match goal with X : f s (Some n) = _ |- _ => unfold Lift1; cbn [checkOne nodeM]; rewrite X end.
  cbn [fst snd TransformResult mkAll]. rewrite H. cbn [asResult isResult]. apply IH. assumption.
Qed.
Print Assumptions C105_own_kept.
(** One that has Mk but no Err method, as far as Input and Mker ask: the first call wraps it in
    a Result that hides Mk, and from the second call on the results are plain nodes. *)
Theorem C105_own_lost : forall S mkF m, (forall k, mkF m (INode (Some k)) = IOwn (Some k) None (Some m)) ->
  forall f fs (s : S) n s' j, composed (f :: fs) s n s' j ->
  chain mkF (f :: fs) s (IOwn (Some n) None (Some m)) =
    (s', Ok (match fs with [] => IResult (IOwn (Some j) None (Some m)) | _ => INode (Some j) end)).
Proof.
  intros S mkF m H f fs s n s' j C. inversion C as [|? ? ? ? s1 k ? ? E C1]; subst. cbn [chain].
  unfold Lift1. cbn [checkOne nodeM]. rewrite E. cbn [fst snd TransformResult mkAll]. rewrite H. cbn [asResult isResult].
  destruct fs as [|g fs]; [inversion C1; subst; reflexivity|]. inversion C1 as [|? ? ? ? s2 k2 ? ? E2 C2]; subst. cbn [chain].
  unfold Lift1. cbn [checkOne nodeM]. rewrite E2. cbn [fst snd TransformResult mkAll asResult isResult].
  clear - C2. revert s2 k2 C2. induction fs as [|h fs IH]; intros s2 k2 C2; inversion C2 as [|? ? ? ? s3 k3 ? ? E3 C3]; subst; cbn [chain]; [reflexivity|].
  unfold Lift1. cbn [checkOne nodeM]. rewrite E3. cbn [fst snd TransformResult mkAll asResult isResult]. apply IH. exact C3.
Qed.
Print Assumptions C105_own_lost.
(** So it is false that chains of lifted functions keep the types that can make themselves. *)
Theorem C105_own_refuted :
  ~ (forall S mkF m e, (forall k, mkF m (INode (Some k)) = IOwn (Some k) e (Some m)) -> e = None \/ e = Some None ->
     forall fs (s : S) n s' j, composed fs s n s' j ->
     exists r, chain mkF fs s (IOwn (Some n) e (Some m)) = (s', Ok r) /\
       (r = IOwn (Some j) e (Some m) \/ r = IResult (IOwn (Some j) e (Some m)))).
Proof.
  intros H. set (f := fun (s : unit) (n : option nat) => (s, (option_map S n, @None error))).
  destruct (H unit (fun _ i => match i with INode n => IOwn n None (Some 0) | _ => i end) 0 None (fun _ => eq_refl) (or_introl eq_refl)
    [f; f] tt 0 tt 2) as (r & E & D).
  - repeat econstructor.
  - vm_compute in E. injection E as <-. destruct D; discriminate.
Qed.
Print Assumptions C105_own_refuted.

(** NodesFromInputs: the nodes in order, or the error of the first input that is none. *)
Lemma checkAll_app : forall xs ns i ys, Forall2 usable xs ns -> checkAll i (xs ++ ys) = checkAll (i + length xs) ys.
Proof.
  intros xs ns i ys H. revert i. induction H as [|x n xs ns U H IH]; intros i; cbn [app length]; [rewrite Nat.add_0_r; reflexivity|].
  cbn [checkAll].
  assert (checkOne x = None /\ nodeM x = Ok (Some n)) as [-> ->].
  { clear - U. induction U as [n|j n H [_ IH]|n e0 m [-> | ->]]; cbn; auto. }
  rewrite IH. f_equal. lia.
Qed.
Theorem C105_nodes : forall xs ns, Forall2 usable xs ns ->
  NodesFromInputs xs = Ok (map Some ns, None) /\
  (forall y e ys, failed y e -> NodesFromInputs (xs ++ y :: ys) = Ok ([], Some (Wrapf (length xs) e))) /\
  (forall y ys, nodeless y -> NodesFromInputs (xs ++ y :: ys) = Ok ([], Some (NotANode (length xs)))) /\
  (forall ys, NodesFromInputs (xs ++ INil :: ys) = Panic).
Proof.
  intros xs ns H. unfold NodesFromInputs. split; [|split; [|split]].
  - pose proof (checkAll_app xs ns 0 [] H) as C. rewrite app_nil_r in C. rewrite C. cbn [checkAll]. f_equal. f_equal. clear C.
    induction H as [|x n xs ns U H IH]; [reflexivity|]. cbn [nodesOf map]. rewrite IH. f_equal.
    assert (nodeM x = Ok (Some n)) as ->; [|reflexivity]. clear - U. induction U; cbn; auto.
  - intros y e ys F. rewrite (checkAll_app _ _ 0 _ H). cbn [checkAll Nat.add].
    assert (checkOne y = Some e) as -> by (inversion F; reflexivity). reflexivity.
  - intros y ys F. rewrite (checkAll_app _ _ 0 _ H). cbn [checkAll Nat.add].
    assert (checkOne y = None /\ nodeM y = Ok None) as [-> ->]; [|reflexivity].
    clear - F. induction F as [| | |j F [_ IH]|e m [-> | ->]]; cbn; auto.
  - intros ys. rewrite (checkAll_app _ _ 0 _ H). reflexivity.
Qed.
Print Assumptions C105_nodes.

(** LiftResult: an error discards the node; otherwise the input itself, wrapped only if it has
    no Err method. *)
Theorem C105_result : forall a err,
  (forall e, err = Some e -> exists e', LiftResult a err = IErr (Some e') /\ causeOf e' = causeOf e) /\
  (err = None -> forall n, usable a n -> usable (LiftResult a err) n) /\
  (err = None -> forall n, LiftResult (INode n) err = INode n).
Proof.
  intros a err. split; [|split].
  - intros e ->. eexists. split; reflexivity.
  - intros -> n U. unfold LiftResult, asResult. destruct (isResult a); [exact U|constructor; exact U].
  - intros -> n. reflexivity.
Qed.
Print Assumptions C105_result.

(** A Result whose Err is nil need not have a node: a lifted function then gets the nil node. *)
Theorem C105_nodeless : forall S mkF f (s : S) a, nodeless a ->
  checkOne a = None /\ exists r, Lift1 mkF S f s a = (fst (f s None), r).
Proof.
  intros S mkF f s a H.
  assert (checkOne a = None /\ nodeM a = Ok None) as [C N] by (induction H as [| | |j F [_ IH]|e m [-> | ->]]; cbn; auto).
  split; [exact C|]. unfold Lift1. rewrite C, N. destruct (f s None) as [s' r]. eexists. reflexivity.
Qed.
Print Assumptions C105_nodeless.
Theorem C105_no_error_refuted :
  ~ (forall i, checkOne i = None -> i <> INil -> exists n, nodeM i = Ok (Some n)).
Proof. intros H. destruct (H (Err_ None) eq_refl ltac:(discriminate)) as [n E]. discriminate E. Qed.
Print Assumptions C105_no_error_refuted.

(** tanh(add(mul(1, 2), 3)) where the functions make the next node and mul fails; the log is
    the list of nodes made. *)
Definition exF1 (s : list nat) (n : option nat) : list nat * (option nat * option error) := (length s :: s, (Some (length s), None)).
Definition exF2 (s : list nat) (n m : option nat) : list nat * (option nat * option error) := (length s :: s, (Some (length s), None)).
Definition exBad2 (s : list nat) (n m : option nat) : list nat * (option nat * option error) := (s, (None, Some (WithStack (Cause 7)))).
Example C105_case :
  means (P1 exF1 (P2 exF2 (P2 exBad2 (PNode (Some 1)) (PNode (Some 2))) (P1 exF1 (PNode (Some 3))))) [] = ([0], inr (Cause 7)) /\
  means (P1 exF1 (P2 exF2 (PNode (Some 1)) (P1 exF1 (PNode (Some 3))))) [] = ([2; 1; 0], inl (Some 2)) /\
  fst (lifted (fun _ i => i) (P1 exF1 (P2 exF2 (P2 exBad2 (PNode (Some 1)) (PNode (Some 2))) (P1 exF1 (PNode (Some 3))))) []) = [0].
Proof. vm_compute. repeat split. Qed.
Example C105_nodes_ex : Forall2 usable [INode (Some 4); IResult (IOwn (Some 5) None None)] [4; 5] /\
  NodesFromInputs [INode (Some 4); IResult (IOwn (Some 5) None None)] = Ok ([Some 4; Some 5], None).
Proof. split; [repeat constructor|reflexivity]. Qed.
