(** C97: with one card, every node reads its inputs on its own device, from transports that
    come in time; DetermineDevice never finds a device. *)
From Coq Require Import List Arith Bool Lia.
From Verif Require Import BroadcastModel DeviceModel DeviceSpec.
Import ListNotations.

Lemma devEq_spec d e : devEq d e = true <-> d = e.
Proof.
  destruct d, e; cbn [devEq]; try (split; [discriminate|discriminate]); [split; reflexivity|].
  rewrite Nat.eqb_eq. split; [intros ->; reflexivity|intro E; injection E as ->; reflexivity].
Qed.
Lemma originals_app l m : originals (l ++ m) = originals l ++ originals m.
Proof. induction l as [|[n|s d] l IH]; cbn [app originals]; [reflexivity|rewrite IH; reflexivity|exact IH]. Qed.
Lemma sources_app l m : sources (l ++ m) = sources l ++ sources m.
Proof. induction l as [|[n|s d] l IH]; cbn [app sources]; [reflexivity|exact IH|rewrite IH; reflexivity]. Qed.
Lemma in_sources l s : In s (sources l) <-> exists d, In (Trans s d) l.
Proof.
  induction l as [|[n|r e] l IH]; cbn [sources In].
  - split; [intros []|intros [d []]].
  - rewrite IH. split; intros [d H]; exists d; [right; exact H|]. destruct H as [H|H]; [discriminate H|exact H].
  - rewrite IH. split.
    + intros [->|[d H]]; [exists e; left; reflexivity|exists d; right; exact H].
    + intros [d [H|H]]; [injection H as -> _; left; reflexivity|right; exists d; exact H].
Qed.
Lemma in_originals l n : In (Orig n) l <-> In n (originals l).
Proof.
  induction l as [|[m|r e] l IH]; cbn [originals In]; [reflexivity| |].
  - rewrite IH. split; intros [H|H]; [injection H as ->; left; reflexivity|right; exact H|left; rewrite H; reflexivity|right; exact H].
  - rewrite IH. split; [intros [H|H]; [discriminate H|exact H]|intro H; right; exact H].
Qed.
(** Where an element of an appended list is. *)
Lemma split_app {X} (a b pre post : list X) y : a ++ b = pre ++ y :: post ->
  (exists q, a = pre ++ y :: q) \/ (exists q, pre = a ++ q /\ b = q ++ y :: post).
Proof.
  revert pre. induction a as [|x a IH]; intros pre E; cbn [app] in E.
  - right. exists pre. split; [reflexivity|exact E].
  - destruct pre as [|z pre]; cbn [app] in E; injection E as -> E.
    + left. exists a. reflexivity.
    + destruct (IH _ E) as [[q ->]|[q [-> ->]]]; [left|right]; exists q; [reflexivity|split; reflexivity].
Qed.

Section Insert.
Variable g : nat -> dnode.
Variable repl : nat -> nat.
Hypothesis one : forall n, dataOn (g n) = Cpu \/ dataOn (g n) = Card 0.
Notation dv := (devOf g).

Lemma dev_home n : dv n = home (g n).
Proof. unfold devOf, analyzeDevice, home. destruct (cudaOp (g n)); [|reflexivity]. destruct (one n) as [-> | ->]; reflexivity. Qed.
Definition other (d : device) : device := match d with Cpu => Card 0 | _ => Cpu end.
Lemma dev_two n : dv n = Cpu \/ dv n = Card 0.
Proof. rewrite dev_home. unfold home. destruct (cudaOp (g n)); [right|left]; reflexivity. Qed.
Lemma other_dev c n : dv c <> dv n -> other (dv c) = dv n.
Proof. destruct (dev_two c) as [-> | ->], (dev_two n) as [-> | ->]; intro H; try contradiction; reflexivity. Qed.
Definition wanted (d : device) (child : nat) : item := if devEq (dv (repl child)) d then Orig child else Trans (repl child) d.
Lemma wanted_reads d child : reads d (dv (repl child)) child (repl child) (wanted d child).
Proof.
  unfold wanted, reads. destruct (devEq (dv (repl child)) d) eqn:E.
  - left. apply devEq_spec in E. split; [exact E|reflexivity].
  - right. split; [|reflexivity]. intro H. apply devEq_spec in H. rewrite H in E. discriminate E.
Qed.
Definition shaped (tr : nat -> option item) : Prop := forall s t, tr s = Some t -> t = Trans s (other (dv s)).

Lemma kids_spec n i done : i = length done -> forall ks X tr, shaped tr ->
  exists new tr', kidsLoop g repl (dv n) i ks (done ++ X) tr =
    (map (wanted (dv n)) ks, existsb (fun c => negb (devEq (dv (repl c)) (dv n))) ks, length new, done ++ rev new ++ X, tr') /\
    shaped tr' /\
    Forall (fun t => exists c, In c ks /\ t = Trans (repl c) (dv n) /\ dv (repl c) <> dv n /\ tr (repl c) = None) new /\
    NoDup (sources new) /\
    (forall s t, tr s = Some t -> tr' s = Some t) /\
    (forall s d, In (Trans s d) new -> tr' s <> None) /\
    (forall s t, tr' s = Some t -> tr s = Some t \/ In t new) /\
    (forall c, In c ks -> dv (repl c) <> dv n -> tr' (repl c) <> None).
Proof.
  intro Hi. induction ks as [|k ks IH]; intros X tr Sh.
  - exists [], tr. cbn [kidsLoop map existsb length rev app sources]. repeat split; try exact Sh; try constructor.
    + intros s t E. exact E.
    + intros s d [].
    + exact H.
    + intros c [].
  - cbn [kidsLoop map existsb]. unfold wanted at 1. destruct (devEq (dv (repl k)) (dv n)) eqn:E; cbn [negb orb].
    + destruct (IH X tr Sh) as [new [tr' [K [S' [F [N [P [Q [R T]]]]]]]]]. exists new, tr'. rewrite K. split; [reflexivity|].
      split; [exact S'|]. split; [|split; [exact N|split; [exact P|split; [exact Q|split; [exact R|]]]]].
      * eapply Forall_impl; [|exact F]. intros t [c [I W]]. exists c. split; [right; exact I|exact W].
      * intros c [<-|I] D; [|apply T; assumption]. apply devEq_spec in E. contradiction.
    + assert (D : dv (repl k) <> dv n) by (intro H; apply devEq_spec in H; rewrite H in E; discriminate E).
      destruct (tr (repl k)) as [t|] eqn:M.
      * destruct (IH X tr Sh) as [new [tr' [K [S' [F [N [P [Q [R T]]]]]]]]]. exists new, tr'. rewrite K.
        rewrite (Sh _ _ M), (other_dev _ _ D). split; [reflexivity|].
        split; [exact S'|]. split; [|split; [exact N|split; [exact P|split; [exact Q|split; [exact R|]]]]].
        -- eapply Forall_impl; [|exact F]. intros t' [c [I W]]. exists c. split; [right; exact I|exact W].
        -- intros c [<-|I] D'; [|apply T; assumption]. rewrite (P _ _ M). discriminate.
      * assert (Sh' : shaped (put tr (repl k) (Trans (repl k) (dv n)))).
        { intros s t. unfold put. destruct (Nat.eqb_spec s (repl k)) as [->|_]; [|apply Sh].
          intro E'. injection E' as <-. rewrite (other_dev _ _ D). reflexivity. }
        destruct (IH (Trans (repl k) (dv n) :: X) _ Sh') as [new [tr' [K [S' [F [N [P [Q [R T]]]]]]]]].
        assert (I' : insertAt i (Trans (repl k) (dv n)) (done ++ X) = done ++ Trans (repl k) (dv n) :: X).
        { unfold insertAt. rewrite Hi, firstn_app, firstn_all, Nat.sub_diag, skipn_app, skipn_all, Nat.sub_diag. cbn [firstn skipn]. rewrite app_nil_r. reflexivity. }
        assert (Pk : tr' (repl k) = Some (Trans (repl k) (dv n))) by (apply P; unfold put; rewrite Nat.eqb_refl; reflexivity).
        exists (Trans (repl k) (dv n) :: new), tr'. rewrite I', K. cbn [rev length]. rewrite <- app_assoc. cbn [app]. split; [reflexivity|].
        split; [exact S'|]. split; [|split; [|split; [|split; [|split]]]].
        -- constructor; [exists k; repeat split; [left; reflexivity|exact D|exact M]|].
           eapply Forall_impl; [|exact F]. intros t' [c [I [W1 [W2 W3]]]]. exists c. split; [right; exact I|]. split; [exact W1|]. split; [exact W2|].
           unfold put in W3. destruct (Nat.eqb (repl c) (repl k)); [discriminate W3|exact W3].
        -- cbn [sources]. constructor; [|exact N]. intro H. apply in_sources in H. destruct H as [d H].
           rewrite Forall_forall in F. destruct (F _ H) as [c [_ [W1 [_ W3]]]]. injection W1 as W1 _. rewrite <- W1 in W3. unfold put in W3. rewrite Nat.eqb_refl in W3. discriminate W3.
        -- intros s t Hs. apply P. unfold put. destruct (Nat.eqb_spec s (repl k)) as [->|_]; [rewrite M in Hs; discriminate Hs|exact Hs].
        -- intros s d [H|H]; [injection H as <- _; rewrite Pk; discriminate|apply (Q _ _ H)].
        -- intros s t Hs. destruct (R _ _ Hs) as [H|H]; [|right; right; exact H]. unfold put in H. destruct (Nat.eqb_spec s (repl k)) as [->|_]; [|left; exact H].
           injection H as <-. right. left. reflexivity.
        -- intros c [<-|I] D'; [rewrite Pk; discriminate|apply T; assumption].
Qed.

(** What holds of the part of the list already done. *)
Definition mixed (n : nat) : bool := existsb (fun c => negb (devEq (dv (repl c)) (dv n))) (kids (g n)).
Record inv (nodes : list nat) (done : list item) (tr : nat -> option item) (tk : nat -> option (list item)) : Prop := {
  i_shaped : shaped tr;
  i_in : forall s t, tr s = Some t -> In t done;
  i_src : forall s d, In (Trans s d) done -> tr s <> None;
  i_dup : NoDup (sources done);
  i_to : forall s d, In (Trans s d) done -> d = other (dv s);
  i_for : forall s d, In (Trans s d) done -> exists n child, In n nodes /\ In child (kids (g (repl n))) /\ repl child = s /\ dv (repl n) = d;
  i_nodes : originals done = nodes;
  i_kids : forall r l, tk r = Some l -> l = map (wanted (dv r)) (kids (g r)) /\ mixed r = true;
  i_used : forall n, In n nodes -> mixed (repl n) = true -> tk (repl n) <> None;
  i_before : forall pre n post c, done = pre ++ Orig n :: post -> In c (kids (g (repl n))) -> dv (repl c) <> dv (repl n) -> In (Trans (repl c) (dv (repl n))) pre;
  i_after : forall pre s d post, done = pre ++ Trans s d :: post -> In (Orig s) pre
}.
Lemma in_rev_new new s d : In (Trans s d) (rev new) <-> In (Trans s d) new.
Proof. symmetry. apply in_rev. Qed.
Lemma originals_trans new : Forall (fun t => exists c d, t = Trans c d) new -> originals new = [].
Proof. induction 1 as [|t new [c [d ->]] _ IH]; cbn [originals]; [reflexivity|exact IH]. Qed.

Lemma loop_spec : forall rest nodes done tr tk fuel, length rest < fuel ->
  (forall pre n post c, nodes ++ rest = pre ++ n :: post -> In c (kids (g (repl n))) -> In (repl c) pre) ->
  inv nodes done tr tk ->
  exists out tr' tk', insertLoop g repl fuel (length done) (done ++ map Orig rest) tr tk = Some (out, tr', tk') /\ inv (nodes ++ rest) out tr' tk'.
Proof.
  induction rest as [|n rest IH]; intros nodes done tr tk fuel Hf Hord Hinv; destruct fuel as [|fuel]; cbn [length] in Hf; try lia.
  - cbn [insertLoop map]. rewrite !app_nil_r. assert (E : nth_error done (length done) = None) by (apply nth_error_None; lia). rewrite E.
    exists done, tr, tk. split; [reflexivity|exact Hinv].
  - cbn [insertLoop map]. rewrite nth_error_app2, Nat.sub_diag by lia. cbn [nth_error].
    destruct (kids_spec (repl n) (length done) done eq_refl (kids (g (repl n))) (Orig n :: map Orig rest) tr (i_shaped _ _ _ _ Hinv)) as
      [new [tr' [K [S' [F [N [P [Q [R T]]]]]]]]].
    rewrite K.
    assert (OT : originals (rev new) = []).
    { apply originals_trans, Forall_rev. eapply Forall_impl; [|exact F]. intros t [c [_ [-> _]]]. exists (repl c), (dv (repl n)). reflexivity. }
    set (done' := done ++ rev new ++ [Orig n]).
    set (tk' := if existsb (fun c => negb (devEq (dv (repl c)) (dv (repl n)))) (kids (g (repl n))) then put tk (repl n) (map (wanted (dv (repl n))) (kids (g (repl n)))) else tk).
    assert (L : length done + length new + 1 = length done') by (unfold done'; rewrite !app_length, rev_length; cbn [length]; lia).
    assert (Li : done ++ rev new ++ Orig n :: map Orig rest = done' ++ map Orig rest) by (unfold done'; rewrite <- !app_assoc; reflexivity).
    rewrite L, Li.
    assert (Hinv' : inv (nodes ++ [n]) done' tr' tk').
    { assert (TD : forall s d, In (Trans s d) done' -> In (Trans s d) done \/ In (Trans s d) new).
      { intros s d H. unfold done' in H. rewrite !in_app_iff in H. destruct H as [H|[H|[H|[]]]]; [left; exact H|right; apply in_rev_new; exact H|discriminate H]. }
      constructor.
      - exact S'.
      - intros s t H. unfold done'. rewrite !in_app_iff. destruct (R _ _ H) as [H'|H']; [left; apply (i_in _ _ _ _ Hinv _ _ H')|].
        right. left. apply in_rev in H'. exact H'.
      - intros s d H. destruct (TD _ _ H) as [H'|H']; [|apply (Q _ _ H')].
        destruct (tr s) as [t|] eqn:Et; [rewrite (P _ _ Et); discriminate|]. elim (i_src _ _ _ _ Hinv _ _ H' Et).
      - unfold done'. rewrite !sources_app. cbn [sources]. rewrite app_nil_r.
        assert (Nr : NoDup (sources (rev new))).
        { assert (E : forall l, sources (rev l) = rev (sources l)).
          { induction l as [|[m|s d] l IHl]; cbn [rev sources]; [reflexivity| |]; rewrite sources_app, IHl; cbn [sources]; [apply app_nil_r|reflexivity]. }
          rewrite E. apply NoDup_rev, N. }
        assert (G : forall s, In s (sources (rev new)) -> ~ In s (sources done)).
        { intros s H1 H2. apply in_sources in H1, H2. destruct H1 as [d1 H1], H2 as [d2 H2]. apply (proj1 (in_rev_new _ _ _)) in H1.
          rewrite Forall_forall in F. destruct (F _ H1) as [c [_ [W [_ W3]]]]. injection W as -> _. apply (i_src _ _ _ _ Hinv _ _ H2 W3). }
        pose proof (i_dup _ _ _ _ Hinv) as Nd. revert Nd G. generalize (sources done). intro ld. induction ld as [|x ld IHd]; cbn [app]; intros Nd G; [exact Nr|].
        inversion Nd as [|x' ld' Nx Nl Ex]. constructor.
        + rewrite in_app_iff. intros [H9|H9]; [contradiction|]. apply (G x H9). left. reflexivity.
        + apply IHd; [exact Nl|]. intros s Hs H9. apply (G s Hs). right. exact H9.
      - intros s d H. destruct (TD _ _ H) as [H'|H']; [apply (i_to _ _ _ _ Hinv _ _ H')|].
        rewrite Forall_forall in F. destruct (F _ H') as [c [_ [W [W2 _]]]]. injection W as -> ->. symmetry. apply other_dev, W2.
      - intros s d H. destruct (TD _ _ H) as [H'|H'].
        + destruct (i_for _ _ _ _ Hinv _ _ H') as [m [c [Im W]]]. exists m, c. split; [apply in_app_iff; left; exact Im|exact W].
        + rewrite Forall_forall in F. destruct (F _ H') as [c [Ic [W _]]]. injection W as -> ->. exists n, c.
          split; [apply in_app_iff; right; left; reflexivity|]. split; [exact Ic|]. split; reflexivity.
      - unfold done'. rewrite !originals_app, OT, (i_nodes _ _ _ _ Hinv). reflexivity.
      - intros r l H. unfold tk' in H. destruct (existsb _ (kids (g (repl n)))) eqn:M; [|apply (i_kids _ _ _ _ Hinv _ _ H)].
        unfold put in H. destruct (Nat.eqb_spec r (repl n)) as [->|_]; [|apply (i_kids _ _ _ _ Hinv _ _ H)].
        injection H as <-. split; [reflexivity|exact M].
      - intros m Hm Mx. unfold tk'. rewrite in_app_iff in Hm. destruct (existsb _ (kids (g (repl n)))) eqn:M.
        + unfold put. destruct (Nat.eqb_spec (repl m) (repl n)) as [E|Ne]; [discriminate|].
          destruct Hm as [Hm|[->|[]]]; [apply (i_used _ _ _ _ Hinv _ Hm Mx)|contradiction].
        + destruct Hm as [Hm|[->|[]]]; [apply (i_used _ _ _ _ Hinv _ Hm Mx)|]. unfold mixed in Mx. rewrite Mx in M. discriminate M.
      - intros pre m post c E Ic D. unfold done' in E. destruct (split_app _ _ _ _ _ E) as [[q Eq]|[q [-> Eq]]].
        + apply (i_before _ _ _ _ Hinv _ _ _ _ Eq Ic D).
        + destruct (split_app _ _ _ _ _ Eq) as [[q' Eq']|[q' [-> Eq']]].
          * exfalso. assert (H : In (Orig m) (rev new)) by (rewrite Eq'; apply in_elt). apply in_originals in H. rewrite OT in H. destruct H.
          * destruct q' as [|y q']; [|destruct q'; discriminate Eq']. cbn [app] in Eq'. injection Eq' as Em _. subst m.
            rewrite app_nil_r, in_app_iff. destruct (tr' (repl c)) as [t|] eqn:Et; [|elim (T c Ic D Et)].
            pose proof (S' _ _ Et) as W. rewrite (other_dev _ _ D) in W. subst t.
            destruct (R _ _ Et) as [H|H]; [left; apply (i_in _ _ _ _ Hinv _ _ H)|right; apply in_rev_new; exact H].
      - intros pre s d post E. unfold done' in E. destruct (split_app _ _ _ _ _ E) as [[q Eq]|[q [-> Eq]]].
        + apply (i_after _ _ _ _ Hinv _ _ _ _ Eq).
        + rewrite in_app_iff. left. destruct (split_app _ _ _ _ _ Eq) as [[q' Eq']|[q' [-> Eq']]].
          * assert (H : In (Trans s d) new) by (apply in_rev_new; rewrite Eq'; apply in_elt).
            rewrite Forall_forall in F. destruct (F _ H) as [c [Ic [W _]]]. injection W as -> _.
            apply in_originals. rewrite (i_nodes _ _ _ _ Hinv). apply (Hord nodes n rest c eq_refl Ic).
          * destruct q' as [|y q']; [discriminate Eq'|destruct q'; discriminate Eq']. }
    assert (A : nodes ++ n :: rest = (nodes ++ [n]) ++ rest) by (rewrite <- app_assoc; reflexivity).
    rewrite A in *. apply IH; [lia|exact Hord|exact Hinv'].
Qed.

(** The theorem: the graph's nodes stay in order, and every node's inputs are on its
    device, transported in time and only where needed, once for each source. *)
Theorem C97_transports sorted :
  (forall pre n post c, sorted = pre ++ n :: post -> In c (kids (g (repl n))) -> In (repl c) pre) ->
  exists out tr tk, insertDeviceInstr g repl sorted = Some (out, tr, tk) /\
    originals out = sorted /\ NoDup (sources out) /\
    (forall n, In n sorted ->
       Forall2 (fun child x => reads (home (g (repl n))) (home (g (repl child))) child (repl child) x) (kids (g (repl n))) (usedKids g tk (repl n)) /\
       forall s d, In (Trans s d) (usedKids g tk (repl n)) -> before (Trans s d) (Orig n) out) /\
    (forall s d, In (Trans s d) out -> before (Orig s) (Trans s d) out /\ d <> home (g s) /\
       exists n child, In n sorted /\ In child (kids (g (repl n))) /\ repl child = s /\ home (g (repl n)) = d).
Proof.
  intro Hord.
  assert (I0 : inv [] [] (fun _ => None) (fun _ => None)).
  { split.
    - intros s t E. discriminate E.
    - intros s t E. discriminate E.
    - intros s d [].
    - constructor.
    - intros s d [].
    - intros s d [].
    - reflexivity.
    - intros r l E. discriminate E.
    - intros n [].
    - intros pre n post c E. destruct pre; discriminate E.
    - intros pre s d post E. destruct pre; discriminate E. }
  destruct (loop_spec sorted [] [] _ _ (S (length sorted)) ltac:(lia) Hord I0) as [out [tr [tk [E Hinv]]]].
  exists out, tr, tk. split; [exact E|]. cbn [app] in Hinv. split; [apply Hinv|]. split; [apply Hinv|].
  assert (U : forall n, In n sorted -> usedKids g tk (repl n) = map (wanted (dv (repl n))) (kids (g (repl n)))).
  { intros n Hn. unfold usedKids. destruct (tk (repl n)) as [l|] eqn:Et; [apply (i_kids _ _ _ _ Hinv _ _ Et)|].
    destruct (mixed (repl n)) eqn:M; [elim (i_used _ _ _ _ Hinv _ Hn M Et)|].
    apply map_ext_in. intros c Ic. unfold wanted. destruct (devEq (dv (repl c)) (dv (repl n))) eqn:D; [reflexivity|].
    exfalso. unfold mixed in M. assert (Mx : existsb (fun c => negb (devEq (dv (repl c)) (dv (repl n)))) (kids (g (repl n))) = true).
    { apply existsb_exists. exists c. split; [exact Ic|]. rewrite D. reflexivity. }
    rewrite Mx in M. discriminate M. }
  split.
  - intros n Hn. rewrite (U n Hn). split.
    + assert (G : forall ks, Forall2 (fun child x => reads (home (g (repl n))) (home (g (repl child))) child (repl child) x) ks (map (wanted (dv (repl n))) ks)).
      { induction ks as [|k ks IHk]; cbn [map]; constructor; [|exact IHk]. rewrite <- !dev_home. apply wanted_reads. }
      apply G.
    + intros s d H pre post Eo. apply in_map_iff in H. destruct H as [c [W Ic]]. unfold wanted in W.
      destruct (devEq (dv (repl c)) (dv (repl n))) eqn:D; [discriminate W|]. injection W as <- <-.
      apply (i_before _ _ _ _ Hinv _ _ _ _ Eo Ic). intro H. apply devEq_spec in H. rewrite H in D. discriminate D.
  - intros s d H. split; [intros pre post Eo; apply (i_after _ _ _ _ Hinv _ _ _ _ Eo)|].
    split; [rewrite (i_to _ _ _ _ Hinv _ _ H), <- dev_home; destruct (dev_two s) as [-> | ->]; discriminate|].
    destruct (i_for _ _ _ _ Hinv _ _ H) as [n [c W]]. exists n, c. rewrite <- dev_home. exact W.
Qed.
End Insert.
Print Assumptions C97_transports.

(** With a second card a transport is reused for the wrong device. *)
Theorem C97_two_cards_refuted : ~ (forall g repl sorted,
  (forall pre n post c, sorted = pre ++ n :: post -> In c (kids (g (repl n))) -> In (repl c) pre) ->
  exists out tr tk, insertDeviceInstr g repl sorted = Some (out, tr, tk) /\
    forall n, In n sorted -> Forall (fun x => match x with Orig c => devOf g (repl c) | Trans _ d => d end = devOf g (repl n)) (usedKids g tk (repl n))).
Proof.
  intro H. pose (g := fun n => match n with 0 => DN false Cpu [] | 1 => DN true (Card 0) [0] | _ => DN true (Card 1) [0] end).
  destruct (H g (fun n => n) [0; 1; 2]) as [out [tr [tk [E W]]]].
  - intros pre n post c E I. destruct pre as [|a [|b [|d pre]]]; cbn [app] in E; injection E as E.
    + subst n. destruct I.
    + subst. destruct I as [<-|[]]. left. reflexivity.
    + subst. destruct I as [<-|[]]. left. reflexivity.
    + destruct pre; discriminate.
  - vm_compute in E. injection E as <- <- <-. assert (I : In 2 [0; 1; 2]) by (right; right; left; reflexivity).
    specialize (W 2 I). vm_compute in W. inversion W as [|x l X]. discriminate X.
Qed.
Print Assumptions C97_two_cards_refuted.
(** DetermineDevice fails whatever the devices. *)
Theorem C97_determine_never inputs output : determineDevice inputs output = Err.
Proof.
  assert (G : forall inputs inDev, determineLoop output inDev false inputs = Ok false \/ determineLoop output inDev false inputs = Err).
  { clear. induction inputs as [|d inputs IH]; intro inDev; cbn [determineLoop]; [left; reflexivity|].
    replace (if negb (devEq d output) then false else false) with false by (destruct (negb (devEq d output)); reflexivity).
    destruct inDev as [d0|]; [|apply IH]. destruct (negb (devEq d d0) && negb (devEq d output)); [right; reflexivity|apply IH]. }
  unfold determineDevice. destruct (G inputs None) as [-> | ->]; reflexivity.
Qed.
Theorem C97_determine_refuted : ~ (forall inputs output, Forall (fun d => d = output) inputs -> determineDevice inputs output = Ok output).
Proof. intro H. specialize (H [Cpu; Cpu] Cpu). rewrite C97_determine_never in H. assert (F : Forall (fun d => d = Cpu) [Cpu; Cpu]) by (repeat constructor). discriminate (H F). Qed.
Print Assumptions C97_determine_never.
Print Assumptions C97_determine_refuted.

(** Input 0 on the CPU; 1 and 3 on the card read it; 2 on the CPU reads 1; 3 reads 2 too;
    4 is replaced by 1. *)
Definition exg (n : nat) : dnode :=
  match n with 0 => DN false Cpu [] | 1 => DN true Cpu [0] | 2 => DN false Cpu [1] | 3 => DN true Cpu [0; 2; 4] | 4 => DN true Cpu [0] | _ => DN false Cpu [] end.
Definition exr (n : nat) : nat := match n with 4 => 1 | n => n end.
Example C97_case : match insertDeviceInstr exg exr [0; 1; 4; 2; 3] with
  | Some (out, _, tk) => (out, usedKids exg tk 3, usedKids exg tk 2) | None => ([], [], []) end
  = ([Orig 0; Trans 0 (Card 0); Orig 1; Orig 4; Trans 1 Cpu; Orig 2; Trans 2 (Card 0); Orig 3], [Trans 0 (Card 0); Trans 2 (Card 0); Orig 4], [Trans 1 Cpu]).
Proof. vm_compute. reflexivity. Qed.
Example C97_case_order : forall pre n post c, [0; 1; 4; 2; 3] = pre ++ n :: post -> In c (kids (exg (exr n))) -> In (exr c) pre.
Proof.
  intros pre n post c E I. destruct pre as [|a [|b [|d [|e [|f pre]]]]]; cbn [app] in E; injection E as E; subst; cbn in *; try (destruct pre; discriminate); intuition; subst; cbn; tauto.
Qed.
Example C97_case_determine : determineDevice [Card 0; Card 0] (Card 0) = Err.
Proof. reflexivity. Qed.
