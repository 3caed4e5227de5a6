(** Invariants of the engine's life. *)
From Coq Require Import List Bool Arith Lia.
From Verif Require Import EngModel EngSpec.
Import ListNotations.

Definition busy (r : rpc) : bool := match r with RWork _ | RAns _ => true | _ => false end.
Definition okc (c : cpc) (r : rpc) : bool :=
  match c with
  | PWaitB false _ _ | PWaitN false _ => busy r
  | PSendN false _ _ | PShut false _ | PFin false => match r with RLoop | RFail => true | _ => false end
  | PFin2 false => match r with RFin | REnd => true | _ => false end
  | PWaitB true _ _ | PWaitN true _ | PSendN true _ _ | PShut true _ | PFin true | PFin2 true => false
  | PInit2 _ | PClose true _ _ _ _ | PSendB true _ _ _ => negb (alive r)
  | _ => negb (busy r)
  end.
Definition oki (c : cpc) (i : bool) : bool :=
  match c with
  | PInit2 _ | PClose true _ _ _ _ | PSendB true _ _ _ => negb i
  | PWaitB _ _ _ | PSendN _ _ _ | PWaitN _ _ | PShut _ _ | PFin _ | PFin2 _ => i
  | _ => true
  end.
Definition okf (c : cpc) (r : rpc) (f : nat) : bool :=
  match r with
  | RStart | RPut => f =? 0
  | RNone => f <=? 1
  | REnd => match c with PFin2 _ => f =? 0 | _ => f <=? 1 end
  | _ => f =? 1
  end.
Definition okl (c : cpc) (l : bool) : bool :=
  match c with
  | PSendB _ _ _ _ | PWaitB _ _ _ | PSendN _ _ _ | PWaitN _ _ | PShut _ _ | PFin _ | PFin2 _ => l
  | PPanic => true
  | _ => negb l
  end.
Definition outside (c : cpc) : bool :=
  match c with PIdle | PInit1 _ | PClose false _ _ _ _ | PSendB false _ _ _ | PSig | PPanic => true | _ => false end.
Definition oke (c : cpc) (r : rpc) (i e : bool) : bool :=
  if e then match r with RFin | REnd => i && outside c | _ => false end else true.
Definition inv (s : st) : bool :=
  negb (twice s) && (inited s || negb (alive (run s))) && (negb (inited s) || ctx s) &&
  okc (cl s) (run s) && oki (cl s) (inited s) && okf (cl s) (run s) (f2 s) && okl (cl s) (locked s) && oke (cl s) (run s) (inited s) (eerr s).

Lemma inv_start p : inv (start p) = true.
Proof. reflexivity. Qed.

Ltac crush :=
  repeat match goal with
  | H : None = Some _ |- _ => discriminate H
  | H : Some _ = Some _ |- _ => injection H as <-
  | H : false = true |- _ => discriminate H
  | H : true = true |- _ => clear H
  | H : context [match ?x with _ => _ end] |- _ => is_var x; destruct x; cbn in H
  | |- context [match ?x with _ => _ end] => is_var x; destruct x; cbn
  | H : context [?x || _] |- _ => is_var x; destruct x; cbn in H
  | H : context [?x && _] |- _ => is_var x; destruct x; cbn in H
  | H : context [negb ?x] |- _ => is_var x; destruct x; cbn in H
  end.

Lemma inv_step l s s' : inv s = true -> fire l s = Some s' -> inv s' = true.
Proof.
  intros H F. destruct s as [lo ini cx w f e pe ru tw c td ou]. unfold inv in H. cbn in H.
  rewrite !andb_true_iff in H. destruct H as [[[[[[[H1 H2] H2'] H3] H4] H5] H6] H7].
  destruct tw; [discriminate H1|]. clear H1.
  destruct f as [|[|f]].
  3: { exfalso. clear -H5. destruct ru; cbn in H5; try discriminate; destruct c; discriminate. }
  all: destruct lo, ini, cx, e; cbn in H2, H2', H6; try discriminate.
  all: destruct ru; cbn in H2, H3, H5, H7; try discriminate; destruct c; cbn in H3, H4, H5, H6, H7; try discriminate.
  all: destruct l; cbn in F; try discriminate; crush; try reflexivity; cbn in *; crush; try reflexivity; try discriminate.
Qed.

Lemma inv_go ls : forall s s', inv s = true -> go ls s = Some s' -> inv s' = true.
Proof.
  induction ls as [|l r IH]; intros s s' H G; cbn [go] in G; [congruence|]. destruct (fire l s) as [s1|] eqn:F; [|discriminate].
  exact (IH _ _ (inv_step _ _ _ H F) G).
Qed.

(** ** What has been returned *)
Definition cur (c : call) (k : cpc) (cx : bool) : Prop :=
  match k with
  | PInit1 f | PInit2 f => c = CInit f
  | PClose true u _ _ _ => c = CInit (Some FCtx) \/ (c = CInit (Some (FLater u)) /\ cx = true)
  | PSendB true _ _ _ => True
  | PClose false u b n e => c = CClose u b n e
  | PSendB false b n e => c = CClose false b n e
  | PWaitB false n e | PSendN false n e => exists b, c = CClose false b n e
  | PWaitN false e | PShut false e => exists b n, c = CClose false b n e
  | PFin false | PFin2 false => exists b n, c = CClose false b n false
  | PSig => c = CMemcpy
  | PPanic => True
  | _ => False
  end.
Definition J (p0 : list call) (o0 : list bool) (s : st) : Prop :=
  exists d r, outs s = o0 ++ r /\ Forall2 Result d r /\
    match cl s with
    | PIdle => p0 = d ++ todo s
    | k => exists c, p0 = d ++ c :: todo s /\ cur c k (ctx s)
    end.

Lemma J_ret p0 o0 s s' c e d r : outs s = o0 ++ r -> Forall2 Result d r -> p0 = d ++ c :: todo s -> Result c e ->
  cl s' = PIdle -> todo s' = todo s -> outs s' = outs s ++ [e] -> J p0 o0 s'.
Proof.
  intros H1 H2 H3 H4 H5 H6 H7. exists (d ++ [c]), (r ++ [e]). rewrite H7, H1, H5, H6, <- !app_assoc. split; [reflexivity|].
  split; [apply Forall2_app; [exact H2|repeat constructor; exact H4]|exact H3].
Qed.
Lemma J_move p0 o0 s s' c d r : outs s = o0 ++ r -> Forall2 Result d r -> p0 = d ++ c :: todo s ->
  cl s' <> PIdle -> cur c (cl s') (ctx s') -> todo s' = todo s -> outs s' = outs s -> J p0 o0 s'.
Proof.
  intros H1 H2 H3 H4 H5 H6 H7. exists d, r. rewrite H7. split; [exact H1|]. split; [exact H2|].
  destruct (cl s'); try congruence; (exists c; rewrite H6; auto).
Qed.
Lemma J_same p0 o0 s s' : J p0 o0 s -> cl s' = cl s -> todo s' = todo s -> outs s' = outs s -> ctx s' = ctx s -> J p0 o0 s'.
Proof. intros (d & r & H) E1 E2 E3 E4. exists d, r. rewrite E1, E2, E3, E4. exact H. Qed.

Lemma inv_parts s : inv s = true ->
  twice s = false /\ (inited s = true \/ alive (run s) = false) /\ (inited s = true -> ctx s = true) /\
  okc (cl s) (run s) = true /\ oki (cl s) (inited s) = true /\ okf (cl s) (run s) (f2 s) = true /\
  okl (cl s) (locked s) = true /\ oke (cl s) (run s) (inited s) (eerr s) = true.
Proof.
  unfold inv. intros H. rewrite !andb_true_iff in H. destruct H as [[[[[[[H1 H2] H2'] H3] H4] H5] H6] H7].
  split; [apply negb_true_iff in H1; exact H1|]. split; [apply orb_true_iff in H2; rewrite negb_true_iff in H2; exact H2|].
  split; [|auto 10]. intros E. rewrite E in H2'. exact H2'.
Qed.

Lemma J_step p0 o0 l s s' : inv s = true -> J p0 o0 s -> fire l s = Some s' -> J p0 o0 s'.
Proof.
  intros HI HJ F. pose proof (inv_parts _ HI) as (_ & _ & _ & Ic & _ & _ & _ & Ie). destruct l; cbn [fire] in F.
  - destruct HJ as (d & r & H1 & H2 & H3). unfold caller in F. destruct (cl s) eqn:C; try discriminate F.
    + destruct (todo s) as [|c p] eqn:T; [discriminate|]. injection F as <-. destruct c.
      * eapply J_move with (c := CInit f) (s := St (locked s) (inited s) (ctx s) (wa s) (f2 s) (eerr s) (pend s) (run s) (twice s) PIdle p (outs s)); cbn; eauto; try discriminate.
      * eapply J_move with (c := CClose unload closeB closeN closeC) (s := St (locked s) (inited s) (ctx s) (wa s) (f2 s) (eerr s) (pend s) (run s) (twice s) PIdle p (outs s)); cbn; eauto; try discriminate.
      * eapply J_move with (c := CMemcpy) (s := St (locked s) (inited s) (ctx s) (wa s) (f2 s) (eerr s) (pend s) (run s) (twice s) PIdle p (outs s)); cbn; eauto; try discriminate.
      * eapply J_ret with (c := CBatch fails) (e := false) (s := St (locked s) (inited s) (ctx s) (wa s) (f2 s) (eerr s) (pend s) (run s) (twice s) PIdle p (outs s)); cbn; eauto.
    + destruct H3 as (c & H3 & H4). cbn in H4. subst c. destruct (locked s); [discriminate|]. injection F as <-.
      destruct (inited s).
      * eapply J_ret with (c := CInit f) (e := false); cbn; eauto. destruct f as [[|u]|]; cbn; auto. discriminate.
      * eapply J_move with (c := CInit f); cbn; eauto; try discriminate.
    + destruct H3 as (c & H3 & H4). cbn in H4. subst c. destruct (locked s); [discriminate|]. injection F as <-.
      destruct f as [[|u]|].
      * eapply J_move with (c := CInit (Some FCtx)); cbn; eauto; try discriminate.
      * eapply J_move with (c := CInit (Some (FLater u))); cbn; eauto; try discriminate.
      * eapply J_ret with (c := CInit None) (e := false); cbn; eauto.
    + destruct H3 as (c0 & H3 & H4). destruct (locked s); [discriminate|]. injection F as <-.
      destruct (ctx s) eqn:X; cbn [negb].
      * destruct unload.
        -- eapply J_ret with (c := c0) (e := true); cbn; eauto; [|rewrite orb_true_r; reflexivity].
           destruct init; cbn in H4; [destruct H4 as [-> |[-> _]]; cbn; auto|subst; cbn; auto].
        -- eapply J_move with (c := c0); cbn; eauto; [discriminate|]. destruct init; cbn in H4 |- *; auto.
      * eapply J_ret with (c := c0) (e := init); cbn; eauto; [|rewrite orb_false_r; reflexivity].
        destruct init; cbn in H4.
        -- destruct H4 as [-> |[_ A]]; cbn; [exact Logic.I|discriminate A].
        -- subst; cbn. discriminate.
    + destruct H3 as (c0 & H3 & H4). destruct init; [destruct H4|]. cbn in H4. destruct H4 as (b & n & ->).
      destruct (wa s) as [[|]|] eqn:W; injection F as <-.
      * destruct c.
        -- eapply J_ret with (c := CClose false b n true) (e := true); cbn; eauto.
        -- eapply J_move with (c := CClose false b n false); cbn; eauto; try discriminate.
      * eapply J_move with (c := CClose false b n c); cbn; eauto; try discriminate.
      * destruct c.
        -- eapply J_ret with (c := CClose false b n true) (e := true); cbn; eauto.
        -- eapply J_move with (c := CClose false b n false); cbn; eauto; try discriminate.
    + destruct H3 as (c0 & H3 & H4). destruct init; [destruct H4|]. cbn in H4. destruct H4 as (b & n & ->).
      destruct (f2 s <? 1); [|discriminate]. injection F as <-.
      eapply J_ret with (c := CClose false b n false) (e := false); cbn; eauto; discriminate.
    + destruct H3 as (c0 & H3 & H4). destruct (wa s) as [[|]|]; try discriminate F. injection F as <-.
      eapply J_move with (c := c0); cbn; eauto; discriminate.
  - unfold runner in F. destruct (run s); try discriminate F; try (destruct (locked s); try discriminate F);
      try (destruct (f2 s <? 1); try discriminate F); try (destruct (f2 s); try discriminate F); injection F as <-; eapply J_same; eauto.
  - destruct (run s); try discriminate F. destruct (pend s); [discriminate|]. injection F as <-. eapply J_same; eauto.
  - destruct HJ as (d & r & H1 & H2 & H3). destruct (run s) eqn:R; try discriminate F.
    destruct (cl s) eqn:C; try discriminate F; injection F as <-; destruct H3 as (c0 & H3 & H4).
    + destruct init; [discriminate Ic|]. cbn in H4. subst c0. eapply J_move with (c := CClose false b n c); cbn; eauto; try discriminate.
    + destruct init; [discriminate Ic|]. destruct H4 as (b & ->). eapply J_move with (c := CClose false b n c); cbn; eauto; try discriminate.
  - destruct HJ as (d & r & H1 & H2 & H3). destruct (run s) eqn:R; try discriminate F.
    assert (E : eerr s = false) by (destruct (eerr s); [discriminate Ie|reflexivity]).
    destruct (cl s) eqn:C; try discriminate F; injection F as <-; destruct H3 as (c0 & H3 & H4).
    + destruct init; [discriminate Ic|]. destruct H4 as (b & ->). rewrite E. destruct fails.
      * eapply J_ret with (c := CClose false b n c) (e := false); cbn; eauto; try discriminate.
      * eapply J_move with (c := CClose false b n c); cbn; eauto; try discriminate.
    + destruct init; [discriminate Ic|]. destruct H4 as (b & n & ->). rewrite E. destruct fails.
      * eapply J_ret with (c := CClose false b n c) (e := false); cbn; eauto; try discriminate.
      * eapply J_move with (c := CClose false b n c); cbn; eauto; try discriminate.
  - destruct HJ as (d & r & H1 & H2 & H3). destruct (run s) eqn:R; try discriminate F.
    destruct (cl s) eqn:C; try discriminate F. injection F as <-. destruct H3 as (c0 & H3 & H4).
    destruct init; [discriminate Ic|]. destruct H4 as (b & n & ->). eapply J_move with (c := CClose false b n false); cbn; eauto; try discriminate.
Qed.
Lemma J_go p0 o0 ls : forall s s', inv s = true -> J p0 o0 s -> go ls s = Some s' -> J p0 o0 s'.
Proof.
  induction ls as [|l r IH]; intros s s' HI H G; cbn [go] in G; [congruence|]. destruct (fire l s) as [s1|] eqn:F; [|discriminate].
  exact (IH _ _ (inv_step _ _ _ HI F) (J_step _ _ _ _ _ HI H F) G).
Qed.

(** ** A Close that waits for a Run that is gone *)
Lemma hang_step l s s' i b n c : cl s = PSendB i b n c -> alive (run s) = false -> fire l s = Some s' -> False.
Proof.
  intros C R F. destruct l; cbn in F; unfold caller, runner in F; rewrite ?C in F; destruct (run s); try discriminate R; try discriminate F.
Qed.

(** ** An ended or ending Run, the engine still marked as initialised *)
Definition K (p0 : list call) (o0 : list bool) (s : st) : Prop :=
  inited s = true /\ ctx s = true /\ (run s = RFail \/ run s = RFin \/ run s = REnd) /\
  exists d r, outs s = o0 ++ r /\ Forall2 (fun c (_ : bool) => forall b n e, c <> CClose false b n e) d r /\
    match cl s with
    | PIdle => p0 = d ++ todo s
    | k => outside k = true /\ exists c, p0 = d ++ c :: todo s /\ cur c k true
    end.
Lemma K_step p0 o0 l s s' : K p0 o0 s -> fire l s = Some s' -> K p0 o0 s'.
Proof.
  intros (Hi & Hx & R & d & r & H1 & H2 & H3) F.
  assert (RET : forall c e s1, p0 = d ++ c :: todo s -> (forall b n e, c <> CClose false b n e) ->
     inited s1 = true -> ctx s1 = true -> (run s1 = RFail \/ run s1 = RFin \/ run s1 = REnd) -> outs s1 = outs s ++ [e] -> cl s1 = PIdle -> todo s1 = todo s -> K p0 o0 s1).
  { intros c e s1 P N A1 A2 A3 A4 A5 A6. split; [exact A1|]. split; [exact A2|]. split; [exact A3|]. exists (d ++ [c]), (r ++ [e]).
    rewrite A4, H1, A5, A6, <- !app_assoc. split; [reflexivity|]. split; [apply Forall2_app; [exact H2|repeat constructor; exact N]|exact P]. }
  assert (MOVE : forall c s1, p0 = d ++ c :: todo s1 -> outside (cl s1) = true -> cl s1 <> PIdle -> cur c (cl s1) true ->
     inited s1 = true -> ctx s1 = true -> (run s1 = RFail \/ run s1 = RFin \/ run s1 = REnd) -> outs s1 = outs s -> K p0 o0 s1).
  { intros c s1 P O N C A1 A2 A3 A4. split; [exact A1|]. split; [exact A2|]. split; [exact A3|]. exists d, r. rewrite A4. split; [exact H1|].
    split; [exact H2|]. destruct (cl s1); try congruence; (split; [exact O|exists c; auto]). }
  assert (SAME : forall s1, inited s1 = true -> ctx s1 = true -> (run s1 = RFail \/ run s1 = RFin \/ run s1 = REnd) -> outs s1 = outs s -> cl s1 = cl s -> todo s1 = todo s -> K p0 o0 s1).
  { intros s1 A1 A2 A3 A4 A5 A6. split; [exact A1|]. split; [exact A2|]. split; [exact A3|]. exists d, r. rewrite A4, A5, A6. auto. }
  destruct l; cbn [fire] in F.
  - unfold caller in F. destruct (cl s) eqn:C; try discriminate F.
    + destruct (todo s) as [|c p] eqn:T; [discriminate|]. injection F as <-. destruct c.
      * eapply MOVE with (c := CInit f); cbn; auto. discriminate.
      * eapply MOVE with (c := CClose unload closeB closeN closeC); cbn; auto. discriminate.
      * eapply MOVE with (c := CMemcpy); cbn; auto. discriminate.
      * split; [exact Hi|]. split; [exact Hx|]. split; [exact R|]. exists (d ++ [CBatch fails]), (r ++ [false]). cbn.
        rewrite H1, <- !app_assoc. split; [reflexivity|]. split; [apply Forall2_app; [exact H2|repeat constructor; discriminate]|exact H3].
    + destruct H3 as (O & c0 & H3 & H4). destruct (locked s); [discriminate|]. rewrite Hi in F. injection F as <-. cbn in H4. subst c0.
      eapply RET with (c := CInit f) (e := false); cbn; auto. discriminate.
    + destruct H3 as (O & _). discriminate O.
    + destruct H3 as (O & c0 & H3 & H4). destruct init; [discriminate O|]. destruct (locked s); [discriminate|]. rewrite Hx in F. cbn [negb] in F. cbn in H4. subst c0.
      injection F as <-. destruct unload.
      * eapply RET with (c := CClose true b n c) (e := true); cbn; auto. discriminate.
      * eapply MOVE with (c := CClose false b n c); cbn; auto. discriminate.
    + destruct H3 as (O & _). discriminate O.
    + destruct H3 as (O & _). discriminate O.
    + destruct H3 as (O & c0 & H3 & H4). destruct (wa s) as [[|]|]; try discriminate F. injection F as <-. eapply MOVE with (c := c0); cbn; auto. discriminate.
  - unfold runner in F. destruct R as [R|[R|R]]; rewrite R in F; [| |discriminate F].
    + destruct (locked s); [discriminate|]. injection F as <-. apply SAME; cbn; auto.
    + destruct (f2 s); [discriminate|]. injection F as <-. apply SAME; cbn; auto.
  - destruct R as [R|[R|R]]; rewrite R in F; discriminate F.
  - destruct R as [R|[R|R]]; rewrite R in F; discriminate F.
  - destruct R as [R|[R|R]]; rewrite R in F; discriminate F.
  - destruct R as [R|[R|R]]; rewrite R in F; discriminate F.
Qed.
Lemma K_go p0 o0 ls : forall s s', K p0 o0 s -> go ls s = Some s' -> K p0 o0 s'.
Proof.
  induction ls as [|l r IH]; intros s s' H G; cbn [go] in G; [congruence|]. destruct (fire l s) as [s1|] eqn:F; [|discriminate].
  exact (IH _ _ (K_step _ _ _ _ _ H F) G).
Qed.

(** ** Every execution ends *)
Definition cw (c : cpc) : nat :=
  match c with
  | PIdle | PPanic => 0 | PInit1 _ => 90 | PInit2 _ => 80 | PClose _ _ _ _ _ => 60 | PSendB _ _ _ _ => 50 | PWaitB _ _ _ => 40
  | PSendN _ _ _ => 35 | PWaitN _ _ => 30 | PShut _ _ => 25 | PFin _ => 20 | PFin2 _ => 10 | PSig => 5
  end.
Definition rw (r : rpc) : nat :=
  match r with RNone => 0 | RStart => 12 | RPut => 11 | RLoop => 6 | RWork _ => 9 | RAns _ => 8 | RFail => 5 | RFin => 4 | REnd => 3 end.
Definition wt (s : st) : nat := 100 * length (todo s) + cw (cl s) + rw (run s) + 2 * length (pend s).
Lemma wt_step l s s' : fire l s = Some s' -> wt s' < wt s.
Proof.
  intros F. destruct s as [lo ini cx w f e pe ru tw c td ou]. unfold wt. destruct l; cbn [fire] in F.
  - unfold caller in F. cbn in F. destruct c; cbn in F; try discriminate F.
    + destruct td as [|c td]; [discriminate|]. injection F as <-. destruct c; cbn -[Nat.mul] in *; rewrite ?app_length; cbn -[Nat.mul] in *; lia.
    + destruct lo; [discriminate F|]. injection F as <-. destruct ini; cbn -[Nat.mul] in *; lia.
    + destruct lo; [discriminate F|]. injection F as <-. destruct f0 as [[|u]|]; cbn -[Nat.mul] in *; destruct ru; cbn -[Nat.mul] in *; lia.
    + destruct lo; [discriminate F|]. injection F as <-. destruct cx, unload; cbn -[Nat.mul] in *; lia.
    + destruct w as [[|]|]; injection F as <-; [destruct c| |destruct c]; cbn -[Nat.mul] in *; lia.
    + destruct f; cbn in F; [|discriminate F]. injection F as <-. cbn -[Nat.mul] in *; lia.
    + destruct w as [[|]|]; try discriminate F; injection F as <-; cbn -[Nat.mul] in *; lia.
  - unfold runner in F. cbn in F. destruct ru; try discriminate F; try (destruct lo; [discriminate F|]); try (destruct f; cbn in F; [|discriminate F]);
      try (destruct f; cbn in F; [discriminate F|]); injection F as <-; cbn -[Nat.mul] in *; lia.
  - cbn in F. destruct ru; try discriminate F. destruct pe as [|x pe]; [discriminate|]. injection F as <-. destruct x; cbn -[Nat.mul] in *; lia.
  - cbn in F. destruct ru; try discriminate F. destruct c; try discriminate F; injection F as <-; cbn -[Nat.mul] in *; lia.
  - cbn in F. destruct ru; try discriminate F. destruct c; try discriminate F; injection F as <-; destruct fails; cbn -[Nat.mul] in *; lia.
  - cbn in F. destruct ru; try discriminate F. destruct c; try discriminate F; injection F as <-; cbn -[Nat.mul] in *; lia.
Qed.
Lemma wt_go ls : forall s s', go ls s = Some s' -> length ls + wt s' <= wt s.
Proof.
  induction ls as [|l r IH]; intros s s' G; cbn [go] in G; [injection G as <-; cbn; lia|]. destruct (fire l s) as [s1|] eqn:F; [|discriminate].
  apply IH in G. apply wt_step in F. cbn [length]. lia.
Qed.

(** ** Programs as intended *)
Definition calm (r : rpc) : bool := match r with RWork true | RAns true | RFail => false | _ => true end.
Definition up (c : cpc) (r : rpc) : bool :=
  match c with PFin2 _ => true | _ => match r with RStart | RPut | RLoop | RWork _ | RAns _ => true | _ => false end end.
Definition O (s : st) : Prop :=
  (inited s = true -> up (cl s) (run s) = true) /\
  calm (run s) = true /\ Forall (fun f => f = false) (pend s) /\ Forall (fun e => e = false) (outs s) /\
  match cl s with
  | PIdle => Orderly (inited s) (todo s) /\ (inited s = true -> wa s = Some true)
  | PInit1 None | PInit2 None => inited s = false /\ Orderly true (todo s)
  | PClose false false false false false | PSendB false false false false | PWaitB false false false | PSendN false false false
  | PWaitN false false | PShut false false => inited s = true /\ wa s = Some true /\ Orderly false (todo s)
  | PFin false => inited s = true /\ Orderly false (todo s) /\ run s = RLoop
  | PFin2 false => inited s = true /\ Orderly false (todo s)
  | _ => False
  end.
Lemma O_step l s s' : inv s = true -> O s -> fire l s = Some s' -> O s'.
Proof.
  intros HI HO F. pose proof (inv_parts _ HI) as (_ & _ & Ix & Ic & _ & _ & _ & Ie).
  destruct s as [lo ini cx w f e pe ru tw c td ou]. unfold O in *. cbn in HO, Ix, Ic, Ie. destruct HO as (A & R & P & U & H).
  destruct l; cbn [fire] in F.
  - unfold caller in F. cbn in F. destruct c; cbn in F; try discriminate F; try (destruct H; fail).
    + destruct td as [|c td]; [discriminate|]. injection F as <-. destruct H as [Or W]. cbn in Or. destruct c as [[x|]|[] [] [] []| |[]]; try (destruct Or; fail); destruct ini; try (destruct Or; fail); cbn; auto 10.
      split; [exact A|]. split; [exact R|]. split; [apply Forall_app; auto|]. split; [apply Forall_app; auto|auto].
    + destruct f0; [destruct H|]. destruct H as [-> H]. destruct lo; [discriminate|]. injection F as <-. cbn. auto 10.
    + destruct f0; [destruct H|]. destruct H as [-> H]. destruct lo; [discriminate|]. injection F as <-. cbn. split; [reflexivity|]. split; [reflexivity|]. split; [constructor|].
      split; [apply Forall_app; auto|auto].
    + destruct init, unload, b, n, c; try (destruct H; fail). destruct H as (-> & W & H). destruct lo; [discriminate|]. rewrite (Ix eq_refl) in F. injection F as <-. cbn. auto 10.
    + destruct init, c; try (destruct H; fail). destruct H as (-> & -> & H). injection F as <-. cbn.
      split; [exact A|]. split; [exact R|]. split; [exact P|]. split; [exact U|]. split; [reflexivity|]. split; [exact H|]. destruct ru; try discriminate Ic; [reflexivity|discriminate R].
    + destruct init; [destruct H|]. destruct H as (-> & H). destruct f; cbn in F; [|discriminate]. injection F as <-. cbn.
      split; [discriminate|]. split; [exact R|]. split; [exact P|]. split; [apply Forall_app; auto|]. split; [exact H|discriminate].
  - unfold runner in F. cbn in F. destruct ru; try discriminate F; try (destruct lo; [discriminate F|]); try (destruct f; cbn in F; [|discriminate F]);
      try (destruct f; cbn in F; [discriminate F|]); try discriminate R; injection F as <-; cbn; (split; [first [exact A|idtac]|]); try ((split; [first [exact R|reflexivity]|]); (split; [exact P|]); (split; [exact U|]));
      try exact H; destruct c as [|[]|[]|[] [] [] [] []|[] [] [] []|[] [] []|[] [] []|[] []|[] []|[]|[]| |]; try exact H; try exact A; try (destruct H as (_ & _ & X); discriminate X); try reflexivity.
  - cbn in F. destruct ru; try discriminate F. destruct pe as [|x pe]; [discriminate|]. injection F as <-. cbn.
    pose proof (Forall_inv P) as X. cbv beta in X. subst x. apply Forall_inv_tail in P. auto.
  - cbn in F. destruct ru; try discriminate F. destruct c; try discriminate F; injection F as <-; cbn.
    + destruct init, b, n, c; try (destruct H; fail). auto.
    + destruct init, n, c; try (destruct H; fail). auto.
  - cbn in F. destruct ru; try discriminate F. destruct fails; [discriminate R|]. destruct c; try discriminate F; injection F as <-; cbn.
    + destruct init, n, c; try (destruct H; fail). auto.
    + destruct init, c; try (destruct H; fail). auto.
  - cbn in F. destruct ru; try discriminate F. destruct c; try discriminate F; injection F as <-; cbn.
    destruct init; [destruct H|]. destruct H as (B & C & _). auto 10.
Qed.
Lemma O_go ls : forall s s', inv s = true -> O s -> go ls s = Some s' -> O s'.
Proof.
  induction ls as [|l r IH]; intros s s' HI H G; cbn [go] in G; [congruence|]. destruct (fire l s) as [s1|] eqn:F; [|discriminate].
  exact (IH _ _ (inv_step _ _ _ HI F) (O_step _ _ _ HI H F) G).
Qed.
Lemma O_stuck s : inv s = true -> O s -> (forall l, fire l s = None) ->
  (cl s = PIdle /\ todo s = []) \/ (cl s = PSendB false false false false /\ run s = RStart).
Proof.
  intros HI HO N. pose proof (inv_parts _ HI) as (_ & Ia & Ix & Ic & Ii & If & Il & Ie).
  pose proof (N LCall) as N1. pose proof (N LRun) as N2. pose proof (N LWork) as N4. pose proof (N LAns) as N5. pose proof (N LFin) as N6. clear N.
  destruct s as [lo ini cx w f e pe ru tw c td ou]. unfold O in HO. cbn in *. unfold caller, runner in *. cbn in *. destruct HO as (A & R & P & U & H).
  assert (F1 : f = 0 \/ f = 1) by (clear -If; destruct f as [|[|f]]; auto; destruct ru, c; discriminate If).
  destruct c as [|[]|[]|[] [] [] [] []|[] [] [] []|[] [] []|[] [] []|[] []|[] []|[]|[]| |]; cbn in *; try (destruct H; fail);
    try (destruct lo; discriminate); try (destruct td; [auto|discriminate]); destruct H as (-> & H); specialize (A eq_refl);
    destruct ru; try discriminate A; try discriminate Ic; try discriminate; auto;
    try (destruct F1 as [-> | ->]; discriminate); try (destruct w as [[|]|]; discriminate).
Qed.
