(** Proofs about the placement of flush instructions. *)
From Coq Require Import List Arith ZArith Lia Bool.
From Verif Require Import TapeModel TapeSpec TapeIntervals TapeProofs FlushModel FlushSpec.
Import ListNotations.
Local Open Scope nat_scope.

(** ** Programs with flushes erased *)
Lemma without_app : forall a b, withoutFlushes (a ++ b) = withoutFlushes a ++ withoutFlushes b.
Proof. induction a as [|[i|] a IH]; intros b; cbn [withoutFlushes app]; rewrite ?IH; reflexivity. Qed.

Lemma flushReads_without : forall ns i reads st, withoutFlushes (fst (flushReads ns i reads st)) = [].
Proof.
  induction reads as [|r rest IH]; intros st; cbn [flushReads]; [reflexivity|].
  destruct (wantsFlush ns i st r); [|apply IH].
  specialize (IH (flushQ st)). destruct (flushReads ns i rest (flushQ st)) as [code st'].
  cbn [fst withoutFlushes] in *. exact IH.
Qed.

Lemma flushReads_alloced : forall ns i reads st, alloced (snd (flushReads ns i reads st)) = alloced st.
Proof.
  induction reads as [|r rest IH]; intros st; cbn [flushReads]; [reflexivity|].
  destruct (wantsFlush ns i st r); [|apply IH].
  specialize (IH (flushQ st)). destruct (flushReads ns i rest (flushQ st)) as [code st'].
  cbn [snd] in *. exact IH.
Qed.

Lemma genNodeF_without : forall ns rs rg st i,
  withoutFlushes (fst (genNodeF ns rs rg st i)) = fst (genNode ns rs rg (alloced st) i) /\
  alloced (snd (genNodeF ns rs rg st i)) = snd (genNode ns rs rg (alloced st) i).
Proof.
  intros ns rs rg st i. unfold genNodeF, genNode.
  assert (N : withoutFlushes (fst (addNodeF ns rs rg st i)) = fst (addNode ns rs rg (alloced st) i) /\
              alloced (snd (addNodeF ns rs rg st i)) = snd (addNode ns rs rg (alloced st) i)).
  { unfold addNodeF, addNode.
    set (na := isMutable (nodeAt ns i) && textern (nodeAt ns i) &&
               negb (existsb (Nat.eqb (rg (replOf rs i))) (alloced st))).
    set (reads := map (fun c => rg (replOf rs c)) (tkids (nodeAt ns i))).
    set (st1 := if na then _ else st).
    pose proof (flushReads_without ns i reads st1) as W.
    pose proof (flushReads_alloced ns i reads st1) as A.
    destruct (flushReads ns i reads st1) as [fl st2]. cbn [fst snd] in *.
    rewrite !without_app, W. unfold st1 in A.
    destruct na; destruct (Nat.eqb i (replOf rs i)); cbn [withoutFlushes app alloced wrote] in *; auto. }
  destruct (tk (nodeAt ns i)); auto.
  destruct (isFlushed st i); auto.
Qed.

Lemma genFromF_without : forall ns rs rg is st,
  withoutFlushes (genFromF ns rs rg st is) = List.concat (genFrom ns rs rg (alloced st) is).
Proof.
  induction is as [|i is IH]; intros st; cbn [genFromF genFrom]; [reflexivity|].
  pose proof (genNodeF_without ns rs rg st i) as [W A].
  destruct (genNodeF ns rs rg st i) as [code st'].
  destruct (genNode ns rs rg (alloced st) i) as [c al]. cbn [fst snd] in *. subst.
  cbn [List.concat]. rewrite without_app, IH. reflexivity.
Qed.

(** ** Hazards, followed along the program.  An entry of [pd] is a queued call:
    the registers it reads and the register it writes. *)
Fixpoint reads_ok (ns : list tnode) (pd : list (list nat * nat)) (fs : list finstr) : Prop :=
  match fs with
  | [] => True
  | FFlush :: r => reads_ok ns [] r
  | FI (IExec j rs w pre un) :: r =>
      if textern (nodeAt ns j) then reads_ok ns ((rs, w) :: pd) r
      else (forall x y, In (x, y) pd -> ~ In y rs) /\ reads_ok ns pd r
  | FI (IRead i w) :: r => (forall x, ~ In (x, w) pd) /\ reads_ok ns pd r
  | FI _ :: r => reads_ok ns pd r
  end.

Fixpoint writes_ok (ns : list tnode) (pd : list (list nat * nat)) (fs : list finstr) : Prop :=
  match fs with
  | [] => True
  | FFlush :: r => writes_ok ns [] r
  | FI (IExec j rs w pre un) :: r =>
      if textern (nodeAt ns j) then writes_ok ns ((rs, w) :: pd) r
      else (forall x y, In (x, y) pd -> ~ In w x) /\ writes_ok ns pd r
  | FI _ :: r => writes_ok ns pd r
  end.

Lemma reads_ok_mono : forall ns fs gs, moreFlushes fs gs -> forall pd pd', incl pd' pd ->
  reads_ok ns pd fs -> reads_ok ns pd' gs.
Proof.
  intros ns fs gs M. induction M as [|f a b M IH|a b M IH]; intros pd pd' Hi H; cbn [reads_ok] in *; auto.
  - destruct f as [[i w|i w|i rs w pre un| |i r]|].
    + eauto.
    + eauto.
    + destruct (textern (nodeAt ns i)).
      * eapply IH; [|exact H]. intros x [<-|Hx]; [left; reflexivity|right; auto].
      * destruct H as [H1 H2]. split; [intros x y Hx; apply (H1 x y); auto | eauto].
    + eauto.
    + destruct H as [H1 H2]. split; [intros x Hx; apply (H1 x); auto | eauto].
    + eauto using incl_refl.
  - apply (IH pd); [|exact H]. intros x [].
Qed.

Lemma writes_ok_mono : forall ns fs gs, moreFlushes fs gs -> forall pd pd', incl pd' pd ->
  writes_ok ns pd fs -> writes_ok ns pd' gs.
Proof.
  intros ns fs gs M. induction M as [|f a b M IH|a b M IH]; intros pd pd' Hi H; cbn [writes_ok] in *; auto.
  - destruct f as [[i w|i w|i rs w pre un| |i r]|].
    + eauto.
    + eauto.
    + destruct (textern (nodeAt ns i)).
      * eapply IH; [|exact H]. intros x [<-|Hx]; [left; reflexivity|right; auto].
      * destruct H as [H1 H2]. split; [intros x y Hx; apply (H1 x y); auto | eauto].
    + eauto.
    + eauto.
    + eauto using incl_refl.
  - apply (IH pd); [|exact H]. intros x [].
Qed.

Lemma without_more : forall fs gs, moreFlushes fs gs -> withoutFlushes gs = withoutFlushes fs.
Proof.
  induction 1 as [|f a b M IH|a b M IH]; cbn [withoutFlushes]; auto.
  destruct f; rewrite IH; reflexivity.
Qed.

(** From following to splitting. *)
Lemma reads_ok_at : forall ns b pd x r j rs' w' pre' un' c, ~ In FFlush b -> In (x, r) pd ->
  reads_ok ns pd (b ++ FI (IExec j rs' w' pre' un') :: c) -> textern (nodeAt ns j) = false -> ~ In r rs'.
Proof.
  induction b as [|f b IH]; intros pd x r j rs' w' pre' un' c NF Hin H E; cbn [app reads_ok] in H.
  - rewrite E in H. apply (proj1 H x r Hin).
  - assert (NF' : ~ In FFlush b) by (intros Q; apply NF; right; exact Q).
    destruct f as [[i w|i w|i rs w pre un| |i w]|]; [| | | | |exfalso; apply NF; left; reflexivity].
    + eapply IH; eauto.
    + eapply IH; eauto.
    + destruct (textern (nodeAt ns i)); [exact (IH ((rs, w) :: pd) x r j rs' w' pre' un' c NF' (or_intror Hin) H E) |
        exact (IH pd x r j rs' w' pre' un' c NF' Hin (proj2 H) E)].
    + eapply IH; eauto.
    + exact (IH pd x r j rs' w' pre' un' c NF' Hin (proj2 H) E).
Qed.

Lemma reads_ok_read : forall ns b pd x r i c, ~ In FFlush b -> In (x, r) pd ->
  reads_ok ns pd (b ++ FI (IRead i r) :: c) -> False.
Proof.
  induction b as [|f b IH]; intros pd x r j c NF Hin H; cbn [app reads_ok] in H.
  - apply (proj1 H x Hin).
  - assert (NF' : ~ In FFlush b) by (intros Q; apply NF; right; exact Q).
    destruct f as [[i w|i w|i rs w pre un| |i w]|]; [| | | | |exfalso; apply NF; left; reflexivity].
    + eapply IH; eauto.
    + eapply IH; eauto.
    + destruct (textern (nodeAt ns i)); [exact (IH ((rs, w) :: pd) x r j c NF' (or_intror Hin) H) |
        exact (IH pd x r j c NF' Hin (proj2 H))].
    + eapply IH; eauto.
    + exact (IH pd x r j c NF' Hin (proj2 H)).
Qed.

Lemma reads_ok_tail : forall ns a pd k rs r pre un b, textern (nodeAt ns k) = true ->
  reads_ok ns pd (a ++ FI (IExec k rs r pre un) :: b) -> exists pd', In (rs, r) pd' /\ reads_ok ns pd' b.
Proof.
  induction a as [|f a IH]; intros pd k rs r pre un b E H; cbn [app reads_ok] in H.
  - rewrite E in H. exists ((rs, r) :: pd). split; [left; reflexivity|exact H].
  - destruct f as [[i w|i w|i rs0 w pre0 un0| |i w]|]; try (eapply IH; eauto; fail).
    + destruct (textern (nodeAt ns i)); [eapply IH; eauto | eapply IH; [|apply H]; eauto].
    + eapply IH; [|apply H]; eauto.
Qed.

Lemma FFlush_dec : forall b, In FFlush b \/ ~ In FFlush b.
Proof.
  induction b as [|f b IH]; [right; intros []|].
  destruct f as [i|]; [|left; left; reflexivity].
  destruct IH as [H|H]; [left; right; exact H | right; intros [Q|Q]; [discriminate|auto]].
Qed.

Lemma reads_ok_settled : forall ns p, reads_ok ns [] p -> readsSettled ns p.
Proof.
  intros ns p H. split.
  - intros a b c k rs r pre un j rs' w' pre' un' -> E1 E2 Hin.
    destruct (FFlush_dec b) as [Q|Q]; [exact Q|exfalso].
    destruct (reads_ok_tail ns a [] k rs r pre un _ E1 H) as (pd & Hp & H').
    exact (reads_ok_at ns b pd rs r j rs' w' pre' un' c Q Hp H' E2 Hin).
  - intros a b c k rs r pre un i -> E1.
    destruct (FFlush_dec b) as [Q|Q]; [exact Q|exfalso].
    destruct (reads_ok_tail ns a [] k rs r pre un _ E1 H) as (pd & Hp & H').
    exact (reads_ok_read ns b pd rs r i c Q Hp H').
Qed.

(** From splitting to following, for the operands. *)
Lemma kept_writes_ok : forall ns fs pre0 pd,
  (forall x y, In (x, y) pd -> exists a k p u c, pre0 = a ++ FI (IExec k x y p u) :: c /\
      textern (nodeAt ns k) = true /\ ~ In FFlush c) ->
  operandsKept ns (pre0 ++ fs) -> writes_ok ns pd fs.
Proof.
  induction fs as [|f fs IH]; intros pre0 pd Hpd H; cbn [writes_ok]; [exact I|].
  assert (Step : forall pd', (forall x y, In (x, y) pd' -> exists a k p u c,
      pre0 ++ [f] = a ++ FI (IExec k x y p u) :: c /\
      textern (nodeAt ns k) = true /\ ~ In FFlush c) -> writes_ok ns pd' fs).
  { intros pd' Q. apply (IH (pre0 ++ [f])); [exact Q|]. rewrite <- app_assoc. exact H. }
  assert (Old : f <> FFlush -> forall x y, In (x, y) pd -> exists a k p u c,
      pre0 ++ [f] = a ++ FI (IExec k x y p u) :: c /\
      textern (nodeAt ns k) = true /\ ~ In FFlush c).
  { intros N x y Hin. destruct (Hpd x y Hin) as (a & k & p & u & c & -> & E & NF).
    exists a, k, p, u, (c ++ [f]). rewrite <- app_assoc. split; [reflexivity|]. split; [exact E|].
    intros Q. apply in_app_iff in Q. destruct Q as [Q|[Q|[]]]; auto. }
  destruct f as [[i w|i w|i rs w pre un| |i w]|].
  - apply Step, Old. discriminate.
  - apply Step, Old. discriminate.
  - destruct (textern (nodeAt ns i)) eqn:E.
    + apply Step. intros x y [Q|Q].
      * inversion Q; subst. exists pre0, i, pre, un, []. split; [reflexivity|]. split; [exact E|intros []].
      * apply Old; [discriminate|exact Q].
    + split; [|apply Step, Old; discriminate].
      intros x y Hin Hw. destruct (Hpd x y Hin) as (a & k & p & u & c & -> & Ek & NF). apply NF.
      apply (H a c fs k x y p u i rs w pre un); auto. rewrite <- app_assoc. reflexivity.
  - apply Step, Old. discriminate.
  - apply Step, Old. discriminate.
  - apply Step. intros x y [].
Qed.

(** ** The generator *)
Section Gen.
Variable ns : list tnode.
Let n := length ns.
Hypothesis SG : sortedGraph ns.
Hypothesis NL : noLet ns.
Let lc := loc ns.
Let ext (i : nat) := textern (nodeAt ns i) = true.

Lemma ext_op : forall k, hasValue ns k -> ext k -> tk (nodeAt ns k) = TOp.
Proof.
  intros k HV E. pose proof (sg_leaf ns SG k (proj1 HV)) as L. unfold ext in E.
  destruct HV as (Hk & H1 & H2 & H3). destruct (tk (nodeAt ns k)) eqn:K; try congruence.
  - destruct L as (_ & _ & L); [auto|congruence].
  - destruct L as (_ & _ & L); [auto|congruence].
  - destruct L as (_ & _ & L); [auto|congruence].
Qed.

Record GInv (j : nat) (st : cgstate) (ks : list nat) : Prop := {
  g_fl : forall k, In k (flushed st) \/ In k (queue st) -> k < j;
  g_al : forall r, In r (alloced st) -> exists i, i < j /\ hasValue ns i /\ r = lc i;
  g_pd : forall k, In k ks -> k < j /\ hasValue ns k /\ ext k /\ latest ns j k /\
           lastW st (lc k) = Some k /\ ~ In k (flushed st)
}.

Lemma flushReads_spec : forall i reads st fl st', flushReads ns i reads st = (fl, st') ->
  lastW st' = lastW st /\
  (forall k, In k (flushed st') \/ In k (queue st') -> In k (flushed st) \/ In k (queue st)) /\
  (fl = [] -> st' = st /\ forall r, In r reads -> wantsFlush ns i st r = false) /\
  (forall f, In f fl -> f = FFlush) /\
  (textern (nodeAt ns i) = true -> fl = []).
Proof.
  intros i. induction reads as [|r rest IH]; intros st fl st' H; cbn [flushReads] in H.
  - inversion H; subst. split; [reflexivity|]. split; [auto|]. split; [intros _; split; [reflexivity|intros r []]|].
    split; [intros f []|reflexivity].
  - destruct (wantsFlush ns i st r) eqn:W.
    + destruct (flushReads ns i rest (flushQ st)) as [code st2] eqn:R. inversion H; subst.
      destruct (IH _ _ _ R) as (A & B & _ & D & E). cbn [flushQ lastW] in A.
      split; [exact A|]. split; [|split; [discriminate|split]].
      * intros k Hk. apply B in Hk. cbn [flushQ flushed queue In] in Hk.
        rewrite in_app_iff in Hk. destruct Hk as [[Hk|Hk]|[]]; auto.
      * intros f [<-|Hf]; auto.
      * intros Q. exfalso. unfold wantsFlush in W. rewrite Q in W. cbn [negb] in W.
        destruct (lastW st r); [|discriminate]. rewrite andb_false_r in W. cbn [andb] in W.
        destruct (tk (nodeAt ns n0)); discriminate.
    + destruct (IH _ _ _ H) as (A & B & C & D & E). split; [exact A|]. split; [exact B|].
      split; [|auto]. intros Q. destruct (C Q) as [C1 C2]. split; [exact C1|].
      intros r' [<-|Hr]; auto.
Qed.

Lemma wants_pending : forall j st ks k, GInv j st ks -> In k ks -> textern (nodeAt ns j) = false ->
  wantsFlush ns j st (lc k) = true.
Proof.
  intros j st ks k G Hk E. destruct (g_pd _ _ _ G k Hk) as (_ & HV & X & _ & L & NF).
  unfold wantsFlush. rewrite L. rewrite (ext_op k HV X). unfold ext in X. rewrite X, E. cbn [negb andb].
  apply negb_true_iff. unfold isFlushed. apply not_true_is_false. intros Q.
  apply existsb_exists in Q. destruct Q as (x & Hx & Q). apply Nat.eqb_eq in Q. subst x. auto.
Qed.

Definition entry (k : nat) : list nat * nat := (map lc (tkids (nodeAt ns k)), lc k).

Lemma in_entries : forall x y ks, In (x, y) (map entry ks) -> exists k, In k ks /\ y = lc k.
Proof.
  intros x y ks H. apply in_map_iff in H. destruct H as (k & E & Hk). inversion E; subst. exists k. auto.
Qed.

Lemma flushes_skip : forall fl pd rest, (forall f, In f fl -> f = FFlush) -> fl <> [] ->
  reads_ok ns pd (fl ++ rest) <-> reads_ok ns [] rest.
Proof.
  induction fl as [|f fl IH]; intros pd rest H N; [congruence|].
  rewrite (H f) by (left; reflexivity). cbn [app reads_ok].
  destruct fl as [|g fl]; [reflexivity|]. apply IH; [intros x Hx; apply H; right; exact Hx|discriminate].
Qed.

(** What is pending stays so over a node that writes another register. *)
Lemma ginv_next : forall j st ks st' ks', GInv j st ks -> incl ks' ks ->
  (forall k, In k (flushed st') \/ In k (queue st') -> k < S j) ->
  (forall r, In r (alloced st') -> exists i, i < S j /\ hasValue ns i /\ r = lc i) ->
  (forall k, In k ks' -> ~ In k (flushed st') /\ lastW st' (lc k) = Some k /\
      (hasValue ns j -> lc j <> lc k)) ->
  GInv (S j) st' ks'.
Proof.
  intros j st ks st' ks' G Hi Hf Ha H. constructor; [exact Hf|exact Ha|].
  intros k Hk. destruct (g_pd _ _ _ G k (Hi k Hk)) as (A & B & C & D & _).
  destruct (H k Hk) as (F & W & N). split; [lia|]. split; [exact B|]. split; [exact C|].
  split; [|split; [exact W|exact F]].
  intros i HVi H1 H2. destruct (Nat.eq_dec i j) as [->|Nij]; [exact (N HVi)|].
  apply (D i HVi); lia.
Qed.

Lemma gen_step : forall j st ks code st', j < n -> GInv j st ks ->
  genNodeF ns (seq 0 n) lc st j = (code, st') ->
  exists ks', GInv (S j) st' ks' /\
    (forall rest, reads_ok ns (map entry ks') rest -> reads_ok ns (map entry ks) (code ++ rest)).
Proof.
  intros j st ks code st' Hj G H.
  assert (Fl : forall k, In k (flushed st) \/ In k (queue st) -> k < S j).
  { intros k Hk. apply (g_fl _ _ _ G) in Hk. lia. }
  assert (Al : forall r, In r (alloced st) -> exists i, i < S j /\ hasValue ns i /\ r = lc i).
  { intros r Hr. destruct (g_al _ _ _ G r Hr) as (i & Hi & K). exists i. split; [lia|exact K]. }
  assert (Fresh : hasValue ns j -> tk (nodeAt ns j) <> TOp -> forall k, In k ks -> lc j <> lc k).
  { intros HV K k Hk. destruct (g_pd _ _ _ G k Hk) as (A & B & _).
    destruct (loc_new_or_kid ns SG NL j HV) as [Q|(o & c & T & _)]; [|congruence].
    intros E. exact (Q k B A (eq_sym E)). }
  assert (Wrote : forall s r i k, r <> lc k -> lastW (wrote s r i) (lc k) = lastW s (lc k)).
  { intros s r i k N. cbn [wrote lastW]. unfold updN. destruct (Nat.eqb_spec (lc k) r); congruence. }
  assert (Node : tk (nodeAt ns j) <> TArg -> tk (nodeAt ns j) <> TLet -> tk (nodeAt ns j) <> TRead ->
     tk (nodeAt ns j) <> TAt -> addNodeF ns (seq 0 n) lc st j = (code, st') ->
     exists ks', GInv (S j) st' ks' /\
       (forall rest, reads_ok ns (map entry ks') rest -> reads_ok ns (map entry ks) (code ++ rest))).
  { clear H. intros N1 N2 N3 N4 H. assert (HV : hasValue ns j) by (split; [exact Hj|auto]).
    unfold addNodeF in H. unfold n in H. rewrite (replOf_id ns) in H. rewrite Nat.eqb_refl in H.
    replace (map (fun c => lc (replOf (seq 0 (length ns)) c)) (tkids (nodeAt ns j)))
      with (map lc (tkids (nodeAt ns j))) in H
      by (apply map_ext; intros c; rewrite (replOf_id ns); reflexivity).
    set (reads := map lc (tkids (nodeAt ns j))) in *.
    set (un := match tover (nodeAt ns j) with Some _ => _ | None => _ end) in *.
    destruct (textern (nodeAt ns j)) eqn:X.
    - (* calls the BLAS *)
      assert (P : tk (nodeAt ns j) = TOp) by (apply ext_op; auto).
      assert (New : forall c, hasValue ns c -> c < j -> lc c <> lc j).
      { destruct (loc_new_or_kid ns SG NL j HV) as [Q|(o & c & T & X' & _)]; [exact Q|congruence]. }
      set (na := isMutable (nodeAt ns j) && true && _) in *.
      set (st1 := if na then _ else st) in *.
      destruct (flushReads ns j reads st1) as [fl st2] eqn:R.
      destruct (flushReads_spec _ _ _ _ _ R) as (_ & _ & C & _ & E).
      specialize (E X). destruct (C E) as [-> _]. subst fl. inversion H; subst code st'.
      exists (j :: ks). split.
      + constructor.
        * cbn [wrote flushed queue]. unfold st1. destruct na; [|exact Fl].
          cbn [flushed queue wrote]. intros k [Hk|Hk]; [apply Fl; auto|].
          apply in_app_iff in Hk. destruct Hk as [Hk|[<-|[]]]; [apply Fl; auto|lia].
        * cbn [wrote alloced]. unfold st1. destruct na; [|exact Al].
          cbn [alloced wrote]. intros r [<-|Hr]; [exists j; split; [lia|auto]|auto].
        * assert (F1 : flushed st1 = flushed st) by (unfold st1; destruct na; reflexivity).
          intros k [<-|Hk].
          -- split; [lia|]. split; [exact HV|]. split; [exact X|]. split; [intros i _ H1 H2; lia|].
             split; [cbn [wrote lastW]; unfold updN; rewrite Nat.eqb_refl; reflexivity|].
             cbn [wrote flushed]. rewrite F1. intros Q.
             assert (Q' := g_fl _ _ _ G j (or_introl Q)). lia.
          -- destruct (g_pd _ _ _ G k Hk) as (A & B & D & L & W & NF).
             assert (N : lc j <> lc k) by (intros Q; apply (New k B A); auto).
             split; [lia|]. split; [exact B|]. split; [exact D|]. split.
             { intros i HVi H1 H2. destruct (Nat.eq_dec i j) as [->|Nij]; [exact N|]. apply L; auto; lia. }
             split; [|cbn [wrote flushed]; rewrite F1; exact NF].
             rewrite Wrote by exact N. unfold st1. destruct na; [|exact W].
             cbn [lastW]. change (lastW (wrote st (lc j) j) (lc k) = Some k). rewrite Wrote by exact N. exact W.
      + intros rest Hr. rewrite <- app_assoc. cbn [app].
        assert (T : reads_ok ns (map entry ks) (FI (IExec j reads (lc j) na un) :: rest)).
        { cbn [reads_ok]. rewrite X. exact Hr. }
        destruct na; cbn [app reads_ok]; exact T.
    - (* works at once *)
      rewrite andb_false_r in H. cbn [andb app] in H.
      destruct (flushReads ns j reads st) as [fl st2] eqn:R.
      destruct (flushReads_spec _ _ _ _ _ R) as (A & B & C & D & _).
      pose proof (flushReads_alloced ns j reads st) as AL. rewrite R in AL. cbn [snd] in AL.
      inversion H; subst code st'.
      assert (Fl2 : forall k, In k (flushed (wrote st2 (lc j) j)) \/ In k (queue (wrote st2 (lc j) j)) -> k < S j).
      { cbn [wrote flushed queue]. intros k Hk. apply Fl, B, Hk. }
      assert (Al2 : forall r, In r (alloced (wrote st2 (lc j) j)) -> exists i, i < S j /\ hasValue ns i /\ r = lc i).
      { cbn [wrote alloced]. rewrite AL. exact Al. }
      destruct fl as [|f fl].
      + destruct (C eq_refl) as [-> C2].
        assert (Clear : forall k, In k ks -> ~ In (lc k) reads).
        { intros k Hk Q.
          specialize (C2 _ Q). rewrite (wants_pending j st ks k G Hk X) in C2. discriminate. }
        assert (Nlc : forall k, In k ks -> lc j <> lc k).
        { intros k Hk E. destruct (g_pd _ _ _ G k Hk) as (Hkj & HVk & _).
          destruct (loc_new_or_kid ns SG NL j HV) as [Q|(o & c & T & _ & _ & Nth & Lc)].
          - exact (Q k HVk Hkj (eq_sym E)).
          - apply (Clear k Hk). unfold reads. rewrite <- E. change (In (loc ns j) (map lc (tkids (nodeAt ns j)))).
            rewrite Lc. apply in_map. exact (nth_error_In _ _ Nth). }
        exists ks. split.
        * apply (ginv_next j st ks); auto using incl_refl.
          intros k Hk. destruct (g_pd _ _ _ G k Hk) as (_ & _ & _ & _ & W & NF).
          split; [exact NF|]. split; [rewrite Wrote; auto|auto].
        * intros rest Hr. cbn [app reads_ok]. rewrite X. split; [|exact Hr].
          intros x y Hin. apply in_entries in Hin. destruct Hin as (k & Hk & ->). exact (Clear k Hk).
      + exists []. split.
        * constructor; [exact Fl2|exact Al2|intros k []].
        * intros rest Hr. rewrite <- app_assoc. apply flushes_skip; [exact D|discriminate|].
          cbn [app reads_ok]. rewrite X. split; [intros x y []|exact Hr]. }
  unfold genNodeF in H. unfold n in H. rewrite (replOf_id ns) in H.
  destruct (tk (nodeAt ns j)) eqn:K.
  2,3,4: apply Node; try discriminate; exact H.
  - (* arg *)
    assert (HV : hasValue ns j) by (split; [exact Hj|rewrite K; repeat split; discriminate]).
    inversion H; subst code st'. exists ks. split; [|intros rest Hr; exact Hr].
    apply (ginv_next j st ks); auto using incl_refl.
    intros k Hk. assert (N : lc j <> lc k) by (apply Fresh; auto; discriminate).
    destruct (g_pd _ _ _ G k Hk) as (_ & _ & _ & _ & W & NF).
    split; [exact NF|]. split; [rewrite Wrote; auto|auto].
  - (* let *) exfalso. exact (NL j Hj K).
  - (* read *)
    assert (NF : isFlushed st j = false).
    { unfold isFlushed. apply not_true_is_false. intros Q. apply existsb_exists in Q.
      destruct Q as (x & Hx & Q). apply Nat.eqb_eq in Q. subst x.
      assert (Q' := g_fl _ _ _ G j (or_introl Hx)). lia. }
    rewrite NF in H. inversion H; subst code st'. exists []. split.
    + constructor; [|exact Al|intros k []].
      cbn [wrote flushQ flushed queue]. intros k [Hk|[]]. apply in_app_iff in Hk. apply Fl. tauto.
    + intros rest Hr. cbn [app reads_ok map] in *. split; [intros x []|exact Hr].
  - (* at *)
    inversion H; subst code st'. exists ks. split; [|intros rest Hr; exact Hr].
    apply (ginv_next j st ks); auto using incl_refl.
    intros k Hk. destruct (g_pd _ _ _ G k Hk) as (_ & _ & _ & _ & W & NF).
    split; [exact NF|]. split; [exact W|]. intros (_ & _ & _ & Q). congruence.
Qed.

Lemma gen_reads_ok : forall len j st ks, j + len = n -> GInv j st ks ->
  reads_ok ns (map entry ks) (genFromF ns (seq 0 n) lc st (seq j len)).
Proof.
  induction len as [|len IH]; intros j st ks Hl G; cbn [seq genFromF]; [exact I|].
  destruct (genNodeF ns (seq 0 n) lc st j) as [code st'] eqn:E.
  destruct (gen_step j st ks code st') as (ks' & G' & H); auto; [lia|].
  apply H. apply IH; [lia|exact G'].
Qed.

Hypothesis NC : noCollision ns.
Variable leaves : list nat.
Hypothesis LV : forall p, In p leaves -> p < n.

Lemma compile_reads_ok : reads_ok ns [] (compileF ns leaves).
Proof.
  unfold compileF. rewrite (replacements_id ns NC leaves LV).
  apply (gen_reads_ok n 0 _ [] eq_refl). constructor; cbn.
  - intros k [[]|[]].
  - intros r [].
  - intros k [].
Qed.
End Gen.
