From Coq Require Import Arith Lia List Bool Permutation.
From Verif Require Import BackpropModel BackpropSpec.
Import ListNotations.

Lemma mem_In n s : mem n s = true <-> In n s.
Proof.
  unfold mem. rewrite existsb_exists. split.
  - intros [x [H E]]. apply Nat.eqb_eq in E. subst; exact H.
  - intro H. exists n. split; [exact H|apply Nat.eqb_refl].
Qed.

Lemma mem_false n s : mem n s = false <-> ~ In n s.
Proof.
  rewrite <- mem_In. destruct (mem n s); split; congruence.
Qed.

Lemma addSet_In m n s : In m (addSet n s) <-> m = n \/ In m s.
Proof.
  unfold addSet. destruct (mem n s) eqn:E; simpl; [|intuition congruence].
  apply mem_In in E. intuition congruence.
Qed.

Lemma fold_addSet l : forall m, In m (fold_right addSet [] l) <-> In m l.
Proof.
  induction l as [|a l IH]; intro m; simpl; [tauto|].
  rewrite addSet_In, IH. intuition congruence.
Qed.

Lemma diffS_nil a b : diffS a b = [] <-> (forall m, In m a -> In m b).
Proof.
  unfold diffS. induction a as [|x a IH]; simpl.
  - split; [intros _ m []|reflexivity].
  - destruct (mem x b) eqn:E; simpl.
    + apply mem_In in E. rewrite IH. split.
      * intros H m [<-|Hm]; auto.
      * intros H m Hm. apply H; auto.
    + apply mem_false in E. split; [discriminate|]. intro H. exfalso. apply E, H. auto.
Qed.

Lemma inter_In m a b : In m (inter a b) <-> In m a /\ In m b.
Proof. unfold inter. rewrite filter_In, mem_In. reflexivity. Qed.

Section N.
Variable nd : nat -> nodeInfo.

Definition Edge n i c := nth_error (children (nd n)) i = Some c /\
                         nth_error (diffWRT (nd n)) i = Some true.

Lemma edge_child n i c : Edge n i c -> In c (children (nd n)).
Proof. intros [H _]. eapply nth_error_In; exact H. Qed.

Lemma path_snoc a p b : Path nd a p b -> forall i c, Edge b i c -> Path nd a (p ++ [(b, i)]) c.
Proof.
  induction 1 as [a|a j d p b H1 H2 H3 IH]; intros i c [E1 E2]; simpl.
  - econstructor; eauto. constructor.
  - econstructor; eauto. apply IH. split; assumption.
Qed.

Lemma path_app_inv a p1 : forall p2 c, Path nd a (p1 ++ p2) c ->
  exists b, Path nd a p1 b /\ Path nd b p2 c.
Proof.
  revert a. induction p1 as [|e p1 IH]; intros a p2 c H; simpl in *.
  - exists a. split; [constructor|exact H].
  - inversion H as [|? i d ? ? E1 E2 H']; subst.
    destruct (IH d p2 c H') as [b [P1 P2]]. exists b. split; [|exact P2].
    econstructor; eauto.
Qed.

Lemma path_snoc_inv a p b i c : Path nd a (p ++ [(b, i)]) c -> Path nd a p b /\ Edge b i c.
Proof.
  intro H. destruct (path_app_inv a p [(b,i)] c H) as [b' [P1 P2]].
  inversion P2 as [|? j d ? ? E1 E2 H']; subst. inversion H'; subst.
  split; [exact P1|split; assumption].
Qed.

(* ---------- order ---------- *)
Lemma topo_children l1 n l2 : topo nd (l1 ++ n :: l2) ->
  (forall c, In c (children (nd n)) -> In c l2 /\ c <> n) /\ ~ In n l1 /\ ~ In n l2 /\
  (forall m, In m l1 -> ~ In m l2) /\ topo nd l2.
Proof.
  induction l1 as [|a l1 IH]; simpl.
  - intros [H1 [H2 H3]]. repeat split; auto; apply H2; assumption.
  - intros [H1 [H2 H3]]. destruct (IH H3) as [A1 [A2 [A3 [A4 A5]]]].
    split; [exact A1|]. split.
    + intros [->|H]; [|contradiction]. apply H1. apply in_or_app. right; left; reflexivity.
    + split; [exact A3|]. split; [|exact A5].
      intros m [->|Hm]; [|auto]. intro H. apply H1. apply in_or_app. right; right; exact H.
Qed.

Lemma topo_in_rest l1 l2 n c : topo nd (l1 ++ l2) -> In n l2 -> In c (children (nd n)) -> In c l2.
Proof.
  intros H Hn Hc. apply in_split in Hn. destruct Hn as [x [y ->]].
  rewrite app_assoc in H. destruct (topo_children _ _ _ H) as [A _].
  apply in_or_app. right; right. apply A; exact Hc.
Qed.

Lemma path_in_rest l1 l2 a p b : topo nd (l1 ++ l2) -> In a l2 -> Path nd a p b ->
  In b l2 /\ forall e, In e p -> In (fst e) l2.
Proof.
  intros H Ha Hp. induction Hp as [a|a i c p b E1 E2 Hp IH].
  - split; [exact Ha|intros e []].
  - assert (Hc : In c l2) by (eapply topo_in_rest; eauto; eapply nth_error_In; exact E1).
    destruct (IH Hc) as [IH1 IH2]. split; [exact IH1|].
    intros e [<-|He]; [exact Ha|apply IH2; exact He].
Qed.

(* ---------- forward analysis ---------- *)
Hypothesis Hwf : wf_nodes nd.

Lemma edge_noninput n i c : Edge n i c -> isInput (nd n) = false.
Proof.
  intros [H _]. destruct (isInput (nd n)) eqn:E; [|reflexivity].
  destruct (Hwf n) as [W _]. rewrite (W E) in H. destruct i; discriminate.
Qed.

Lemma edge_sdop n i c : Edge n i c -> sdop (nd n) = true.
Proof.
  intros [_ H]. destruct (sdop (nd n)) eqn:E; [reflexivity|].
  destruct (Hwf n) as [_ [_ W]]. rewrite (W E) in H. destruct i; discriminate.
Qed.

Lemma addChildren_spec cs : forall dfs ds ds', addChildren ds cs dfs = Some ds' ->
  forall m, In m ds' <-> In m ds \/ exists i, nth_error cs i = Some m /\ nth_error dfs i = Some true.
Proof.
  induction cs as [|c cs IH]; intros dfs ds ds' H m; simpl in H.
  - injection H as <-. split; [auto|]. intros [H|[i [H _]]]; [exact H|destruct i; discriminate].
  - destruct dfs as [|d dfs]; [discriminate|]. rewrite (IH _ _ _ H m). split.
    + intros [H0|[i [H1 H2]]].
      * destruct d; [|auto]. apply addSet_In in H0. destruct H0 as [->|H0]; [|auto].
        right. exists 0. split; reflexivity.
      * right. exists (S i). split; assumption.
    + intros [H0|[[|i] [H1 H2]]].
      * left. destruct d; [apply addSet_In|]; auto.
      * simpl in H1, H2. injection H1 as ->. injection H2 as ->. left. apply addSet_In; auto.
      * right. exists i. split; assumption.
Qed.

Lemma addChildren_total cs : forall dfs, length dfs = length cs ->
  forall ds', exists r, addChildren ds' cs dfs = Some r.
Proof.
  induction cs as [|c cs IH]; intros [|d dfs] H ds'; try discriminate; simpl; eauto.
Qed.

Lemma forward_spec sorted : forall ds F, topo nd sorted -> forwardLoop nd sorted ds = Ok F ->
  (forall m, In m ds -> In m F) /\
  (forall m, In m F -> In m ds \/ In m sorted) /\
  (forall n i c, In n sorted -> In n F -> Edge n i c -> In c F).
Proof.
  induction sorted as [|n rest IH]; intros ds F Ht H.
  - simpl in H. injection H as <-. repeat split; auto. intros ? ? ? [].
  - pose proof Ht as [Hn [Hc Ht']]. cbn [forwardLoop] in H.
    destruct (mem n ds && negb (isInput (nd n))) eqn:E.
    + destruct (addChildren ds (children (nd n)) (diffWRT (nd n))) as [ds'|] eqn:Ea; [|discriminate].
      pose proof (addChildren_spec _ _ _ _ Ea) as Spec.
      destruct (IH ds' F Ht' H) as [I1 [I2 I3]].
      split; [intros m Hm; apply I1, Spec; auto|]. split.
      * intros m Hm. destruct (I2 m Hm) as [Hd|Hr]; [|right; right; exact Hr].
        apply Spec in Hd. destruct Hd as [Hd|[i [H1 _]]]; [auto|].
        right; right. apply Hc. eapply nth_error_In; exact H1.
      * intros m i c [<-|Hm] HF He.
        -- apply I1, Spec. right. exists i. exact He.
        -- eapply I3; eauto.
    + destruct (IH ds F Ht' H) as [I1 [I2 I3]].
      split; [exact I1|]. split.
      * intros m Hm. destruct (I2 m Hm); [auto|right; right; assumption].
      * intros m i c [<-|Hm] HF He; [|eapply I3; eauto].
        exfalso. destruct (I2 n HF) as [Hd|Hr]; [|contradiction].
        apply mem_In in Hd. rewrite Hd, (edge_noninput _ _ _ He) in E. discriminate.
Qed.

Lemma forward_preserves (P : nat -> Prop) sorted :
  (forall n i c, P n -> Edge n i c -> P c) ->
  forall ds F, (forall m, In m ds -> P m) -> forwardLoop nd sorted ds = Ok F ->
  forall m, In m F -> P m.
Proof.
  intro HP. induction sorted as [|n rest IH]; intros ds F Hd H; cbn [forwardLoop] in H.
  - injection H as <-. exact Hd.
  - destruct (mem n ds && negb (isInput (nd n))) eqn:E; [|eapply IH; eauto].
    destruct (addChildren ds (children (nd n)) (diffWRT (nd n))) as [ds'|] eqn:Ea; [|discriminate].
    eapply IH; [|exact H]. intros m Hm. apply (addChildren_spec _ _ _ _ Ea) in Hm.
    destruct Hm as [Hm|[i Hi]]; [auto|]. eapply HP; [|exact Hi].
    apply andb_prop in E. destruct E as [E _]. apply mem_In in E. auto.
Qed.

(* ---------- backward analysis ---------- *)
Variable nparents : nat -> nat.

Fixpoint btopo (l : list nat) : Prop :=
  match l with
  | [] => True
  | n :: rest => ~ In n rest /\ (forall c, In c (children (nd n)) -> ~ In c (n :: rest)) /\ btopo rest
  end.

Lemma btopo_snoc l n : btopo l -> ~ In n l ->
  (forall m c, In m l -> In c (children (nd m)) -> c <> n) ->
  (forall c, In c (children (nd n)) -> c <> n) -> btopo (l ++ [n]).
Proof.
  induction l as [|a l IH]; simpl; intros Hb Hn Hl Hc.
  - repeat split; auto. intros c H [E|[]]. apply (Hc c H). auto.
  - destruct Hb as [B1 [B2 B3]]. repeat split.
    + rewrite in_app_iff. intros [H|[H|[]]]; [auto|]. apply Hn. auto.
    + intros c H [E|H0]; [apply (B2 c H); auto|].
      apply in_app_iff in H0. destruct H0 as [H0|[H0|[]]]; [apply (B2 c H); auto|].
      apply (Hl a c); auto.
    + apply IH; auto. intros m c Hm. apply Hl. auto.
Qed.

Lemma topo_btopo l : topo nd l -> btopo (rev l).
Proof.
  induction l as [|n l IH]; simpl; [auto|]. intros [H1 [H2 H3]].
  apply btopo_snoc.
  - apply IH; exact H3.
  - rewrite <- in_rev. exact H1.
  - intros m c Hm Hc. apply in_rev in Hm. intros ->. apply H1.
    apply (topo_in_rest [] l m n); auto.
  - intros c Hc. apply H2; exact Hc.
Qed.

Lemma anyChild_spec ds cs : forall dfs r, anyChild ds cs dfs = Some r ->
  (r = true -> exists i c, nth_error cs i = Some c /\ nth_error dfs i = Some true /\ In c ds) /\
  (forall i c, nth_error cs i = Some c -> nth_error dfs i = Some true -> In c ds -> r = true).
Proof.
  induction cs as [|c cs IH]; intros dfs r H; simpl in H.
  - injection H as <-. split; [discriminate|]. intros i c H. destruct i; discriminate.
  - destruct dfs as [|d dfs]; [discriminate|].
    destruct (mem c ds && d) eqn:E.
    + injection H as <-. split; [|auto]. intros _. apply andb_prop in E. destruct E as [E1 ->].
      apply mem_In in E1. exists 0, c. auto.
    + destruct (IH dfs r H) as [I1 I2]. split.
      * intro Hr. destruct (I1 Hr) as [i [c' Hi]]. exists (S i), c'. exact Hi.
      * intros [|i] c' H1 H2 H3; simpl in H1, H2.
        -- injection H1 as <-. injection H2 as ->. apply mem_In in H3. rewrite H3 in E. discriminate.
        -- eapply I2; eauto.
Qed.

Lemma backward_spec rs : forall ds B, btopo rs -> backwardLoop nd nparents rs ds = Ok B ->
  (forall m, In m ds -> In m B) /\
  (forall m, In m B -> In m ds \/ In m rs) /\
  (forall n i c, In n rs -> In c B -> Edge n i c -> In n B).
Proof.
  induction rs as [|n rest IH]; intros ds B Ht H.
  - simpl in H. injection H as <-. repeat split; auto. intros ? ? ? [].
  - destruct Ht as [Hn [Hc Ht']]. cbn [backwardLoop] in H.
    (* a step that leaves the set alone is only taken if n has no edge into ds *)
    assert (Skip : backwardLoop nd nparents rest ds = Ok B ->
              (forall i c, Edge n i c -> ~ In c ds) ->
      (forall m, In m ds -> In m B) /\
      (forall m, In m B -> In m ds \/ In m (n :: rest)) /\
      (forall m i c, In m (n :: rest) -> In c B -> Edge m i c -> In m B)).
    { intros H' Hne. destruct (IH ds B Ht' H') as [I1 [I2 I3]].
      split; [exact I1|]. split.
      - intros m Hm. destruct (I2 m Hm); [auto|right; right; assumption].
      - intros m i c [<-|Hm] HB He; [|eapply I3; eauto].
        exfalso. destruct (I2 c HB) as [Hd|Hr]; [exact (Hne i c He Hd)|].
        apply (Hc c (edge_child _ _ _ He)). right; exact Hr. }
    destruct (if sdop (nd n) then diffWRT (nd n) else []) as [|d0 dr] eqn:Ed.
    + assert (Hno : forall i c, ~ Edge n i c).
      { intros i c He. rewrite (edge_sdop _ _ _ He) in Ed. destruct He as [_ He].
        rewrite Ed in He. destruct i; discriminate. }
      destruct (isStmt (nd n) || isInput (nd n)
                || match children (nd n) with [] => true | _ => false end).
      * apply Skip; [exact H|]. intros i c He _. exact (Hno i c He).
      * destruct (existsb _ _); [discriminate|].
        apply Skip; [exact H|]. intros i c He _. exact (Hno i c He).
    + assert (Es : diffWRT (nd n) = d0 :: dr) by (destruct (sdop (nd n)); [exact Ed|discriminate]).
      destruct (anyChild ds (children (nd n)) (d0 :: dr)) as [[|]|] eqn:Ea; [| |discriminate].
      * destruct (anyChild_spec _ _ _ _ Ea) as [A1 A2].
        destruct (IH (addSet n ds) B Ht' H) as [I1 [I2 I3]].
        split; [intros m Hm; apply I1, addSet_In; auto|]. split.
        -- intros m Hm. destruct (I2 m Hm) as [Hd|Hr]; [|right; right; exact Hr].
           apply addSet_In in Hd. destruct Hd as [->|Hd]; [right; left; reflexivity|auto].
        -- intros m i c [<-|Hm] HB He; [apply I1, addSet_In; auto|eapply I3; eauto].
      * destruct (anyChild_spec _ _ _ _ Ea) as [A1 A2].
        apply Skip; [exact H|]. intros i c [E1 E2] Hd. rewrite Es in E2.
        specialize (A2 i c E1 E2 Hd). discriminate.
Qed.

Lemma backward_preserves (P : nat -> Prop) rs :
  (forall n i c, P c -> Edge n i c -> P n) ->
  forall ds B, (forall m, In m ds -> P m) -> backwardLoop nd nparents rs ds = Ok B ->
  forall m, In m B -> P m.
Proof.
  intro HP. induction rs as [|n rest IH]; intros ds B Hd H; cbn [backwardLoop] in H.
  - injection H as <-. exact Hd.
  - destruct (if sdop (nd n) then diffWRT (nd n) else []) as [|d0 dr] eqn:Ed.
    + destruct (isStmt (nd n) || isInput (nd n)
                || match children (nd n) with [] => true | _ => false end); [eapply IH; eauto|].
      destruct (existsb _ _); [discriminate|eapply IH; eauto].
    + destruct (anyChild ds (children (nd n)) (d0 :: dr)) as [[|]|] eqn:Ea; [| |discriminate].
      * destruct (anyChild_spec _ _ _ _ Ea) as [A1 _]. destruct (A1 eq_refl) as [i [c [X1 [X2 X3]]]].
        eapply IH; [|exact H]. intros m Hm. apply addSet_In in Hm. destruct Hm as [->|Hm]; [|auto].
        eapply HP; [apply Hd; exact X3|]. split; [exact X1|].
        destruct (sdop (nd n)); [rewrite Ed; exact X2|discriminate].
      * eapply IH; eauto.
Qed.

Lemma backward_nopanic rs : forall ds,
  backwardLoop nd nparents rs ds <> Fail EPanic /\
  (forall e, backwardLoop nd nparents rs ds = Fail e -> e = EUnreachable).
Proof.
  induction rs as [|n rest IH]; intro ds; [split; discriminate|].
  cbn [backwardLoop].
  destruct (if sdop (nd n) then diffWRT (nd n) else []) as [|d0 dr] eqn:Ed.
  - destruct (isStmt (nd n) || isInput (nd n)
                || match children (nd n) with [] => true | _ => false end); [apply IH|].
    destruct (existsb _ _); [split; [discriminate|congruence]|apply IH].
  - assert (T : exists r, anyChild ds (children (nd n)) (d0 :: dr) = Some r).
    { destruct (sdop (nd n)) eqn:Es; [|discriminate].
      destruct (isInput (nd n)) eqn:Ei.
      - destruct (Hwf n) as [W _]. rewrite (W Ei). simpl. eauto.
      - destruct (Hwf n) as [_ [W _]]. specialize (W Ei Es). rewrite Ed in W.
        revert W. clear. generalize (d0 :: dr). induction (children (nd n)) as [|c cs IHc]; intros [|d l] W;
          try discriminate; simpl; eauto.
        destruct (mem c ds && d); eauto. }
    destruct T as [r Hr]. rewrite Hr. destruct r; apply IH.
Qed.

Lemma backward_total rs : (forall n, In n rs -> sdop (nd n) = true \/ children (nd n) = []) ->
  forall ds, exists B, backwardLoop nd nparents rs ds = Ok B.
Proof.
  induction rs as [|n rest IH]; intros Hs ds; [simpl; eauto|].
  assert (IH' := IH (fun m Hm => Hs m (or_intror Hm))).
  destruct (backward_nopanic (n :: rest) ds) as [_ Hb].
  destruct (backwardLoop nd nparents (n :: rest) ds) as [B|e] eqn:E; [eauto|].
  exfalso. cbn [backwardLoop] in E.
  destruct (if sdop (nd n) then diffWRT (nd n) else []) as [|d0 dr] eqn:Ed.
  - assert (Hc : children (nd n) = []).
    { destruct (Hs n (or_introl eq_refl)) as [S|C]; [|exact C]. rewrite S in Ed.
      destruct (isInput (nd n)) eqn:Ei; [apply Hwf; exact Ei|].
      destruct (Hwf n) as [_ [W _]]. specialize (W Ei S). rewrite Ed in W.
      destruct (children (nd n)); [reflexivity|discriminate]. }
    rewrite Hc in E. rewrite !orb_true_r in E. destruct (IH' ds) as [B HB]. congruence.
  - destruct (anyChild ds (children (nd n)) (d0 :: dr)) as [[|]|] eqn:Ea.
    + destruct (IH' (addSet n ds)) as [B HB]. congruence.
    + destruct (IH' ds) as [B HB]. congruence.
    + injection E as <-. specialize (Hb EPanic eq_refl). discriminate.
Qed.

Lemma forward_total sorted :
  (forall n, In n sorted -> sdop (nd n) = true \/ children (nd n) = []) ->
  forall ds, exists F, forwardLoop nd sorted ds = Ok F.
Proof.
  induction sorted as [|n rest IH]; intros Hs ds; cbn [forwardLoop]; [eauto|].
  assert (IH' := IH (fun m Hm => Hs m (or_intror Hm))).
  destruct (mem n ds && negb (isInput (nd n))) eqn:E; [|apply IH'].
  apply andb_prop in E. destruct E as [_ E]. apply negb_true_iff in E.
  destruct (Hs n (or_introl eq_refl)) as [S|C].
  - destruct (Hwf n) as [_ [W _]].
    destruct (addChildren_total (children (nd n)) (diffWRT (nd n)) (W E S) ds) as [r Hr].
    rewrite Hr. apply IH'.
  - rewrite C. simpl. apply IH'.
Qed.

(* ---------- the main loop ---------- *)
Context {A T : Type} (G : gradSem A).
Variable addT : T -> T -> option T.
Variable symDiff : nat -> T -> option (list (option T)).
Variable val : T -> A.
Hypothesis RR : right_rules G nd addT symDiff val.

Notation gs := (gsum G).

Lemma gsum_app l l' : gs (l ++ l') = gadd G (gs l) (gs l').
Proof.
  induction l as [|a l IH]; simpl.
  - symmetry. apply gadd_0.
  - rewrite IH. apply gadd_assoc.
Qed.

Lemma gadd_0_r a : gadd G a (gzero G) = a.
Proof. rewrite gadd_comm. apply gadd_0. Qed.

Lemma gsum_single a : gs [a] = a.
Proof. simpl. apply gadd_0_r. Qed.

Lemma gsum_pull n i l : gs (map (pull G n i) l) = pull G n i (gs l).
Proof.
  induction l as [|a l IH]; simpl; [symmetry; apply pull_0|].
  rewrite IH. symmetry. apply pull_add.
Qed.

Lemma reduceFrom_val l : forall acc t, reduceFrom T addT acc l = Some t ->
  val t = gadd G (val acc) (gs (map val l)).
Proof.
  induction l as [|x l IH]; intros acc t H; simpl in H.
  - injection H as <-. simpl. symmetry. apply gadd_0_r.
  - destruct (addT acc x) as [a|] eqn:E; [|discriminate].
    rewrite (IH a t H), (rr_add _ _ _ _ _ RR _ _ _ E). simpl. symmetry. apply gadd_assoc.
Qed.

Lemma reduceAdd_val l t : reduceAdd T addT l = Some t -> val t = gs (map val l).
Proof.
  destruct l as [|x l]; [discriminate|]. intro H. rewrite (reduceFrom_val l x t H). reflexivity.
Qed.

Variable outputs : list nat.
Variable seed : nat -> A.

Definition pv (op : nat * list edge) : A := pullPath G (snd op) (seed (fst op)).

Lemma pullPath_snoc p : forall n i g, pullPath G (p ++ [(n, i)]) g = pull G n i (pullPath G p g).
Proof. induction p as [|[m j] p IH]; intros; simpl; [reflexivity|apply IH]. Qed.

Definition snocP (n i : nat) (op : nat * list edge) : nat * list edge :=
  (fst op, snd op ++ [(n, i)]).

Lemma snocP_inj n i x y : snocP n i x = snocP n i y -> x = y.
Proof.
  destruct x as [a p], y as [b q]. unfold snocP; simpl. intro H. injection H as -> H.
  apply app_inj_tail in H. destruct H as [-> _]. reflexivity.
Qed.

(* what node n adds to the list of node m *)
Fixpoint contrib (cs : list nat) (dfs : list bool) (gl : list (option T)) (m : nat) : list T :=
  match cs, dfs, gl with
  | c :: cs', d :: dfs', g :: gl' =>
      match d, g with
      | true, Some t => if Nat.eqb c m then t :: contrib cs' dfs' gl' m else contrib cs' dfs' gl' m
      | _, _ => contrib cs' dfs' gl' m
      end
  | _, _, _ => []
  end.

Fixpoint pcontrib (n k : nat) (cs : list nat) (dfs : list bool) (m : nat)
   (Ln : list (nat * list edge)) : list (nat * list edge) :=
  match cs, dfs with
  | c :: cs', d :: dfs' =>
      (if d && Nat.eqb c m then map (snocP n k) Ln else []) ++ pcontrib n (S k) cs' dfs' m Ln
  | _, _ => []
  end.

Lemma distribute_contrib cs : forall dfs gl gm gm', distribute T gm cs dfs gl = Some gm' ->
  forall m, gm' m = gm m ++ contrib cs dfs gl m.
Proof.
  induction cs as [|c cs IH]; intros dfs gl gm gm' H m; simpl in H.
  - injection H as <-. simpl. symmetry. apply app_nil_r.
  - destruct dfs as [|d dfs]; [discriminate|]. destruct gl as [|g gl]; [discriminate|].
    cbn [contrib]. destruct d; [|apply IH; exact H].
    destruct g as [t|]; [|discriminate]. rewrite (IH _ _ _ _ H m). unfold upd.
    rewrite (Nat.eqb_sym c m). destruct (Nat.eqb m c) eqn:E; [|reflexivity].
    apply Nat.eqb_eq in E. subst. rewrite <- app_assoc. reflexivity.
Qed.

Lemma contrib_val n g m Ln cs : forall k dfs gl,
  length gl = length cs ->
  length dfs = length cs ->
  (forall i, nth_error dfs i = Some true -> i < length cs ->
     exists t, nth_error gl i = Some (Some t) /\ val t = pull G n (k + i) (val g)) ->
  val g = gs (map pv Ln) ->
  gs (map val (contrib cs dfs gl m)) = gs (map pv (pcontrib n k cs dfs m Ln)).
Proof.
  induction cs as [|c cs IH]; intros k dfs gl Hl Hd Hg Hv;
    destruct gl as [|g0 gl]; try discriminate; destruct dfs as [|d dfs]; try discriminate;
    [reflexivity|].
  assert (IH' : gs (map val (contrib cs dfs gl m)) = gs (map pv (pcontrib n (S k) cs dfs m Ln))).
  { apply IH; try (simpl in *; lia); [|exact Hv].
    intros i Hi Hlt. destruct (Hg (S i) Hi ltac:(simpl; lia)) as [t [Ht Hv']].
    exists t. split; [exact Ht|]. rewrite Hv'. f_equal. lia. }
  cbn [contrib pcontrib]. destruct d; cbn [andb].
  - destruct (Hg 0 eq_refl ltac:(simpl; lia)) as [t [Ht Hv']]. simpl in Ht. injection Ht as ->.
    destruct (Nat.eqb c m).
    + rewrite map_app, gsum_app, <- IH'. simpl. f_equal.
      rewrite Hv', Nat.add_0_r, Hv, <- gsum_pull, !map_map. f_equal. apply map_ext.
      intros [o p]. unfold pv, snocP; simpl. symmetry. apply pullPath_snoc.
    + exact IH'.
  - exact IH'.
Qed.

Lemma pcontrib_In n m Ln cs : forall k dfs o p, length dfs = length cs ->
  (In (o, p) (pcontrib n k cs dfs m Ln) <->
   exists i q, p = q ++ [(n, k + i)] /\ nth_error cs i = Some m /\
               nth_error dfs i = Some true /\ In (o, q) Ln).
Proof.
  induction cs as [|c cs IH]; intros k dfs o p Hl; destruct dfs as [|d dfs]; try discriminate.
  - simpl. split; [contradiction|]. intros [i [q [_ [H _]]]]. destruct i; discriminate.
  - simpl in Hl. cbn [pcontrib]. rewrite in_app_iff, (IH (S k) dfs o p) by lia. split.
    + intros [H|[i [q [H1 H2]]]].
      * destruct (d && Nat.eqb c m) eqn:E; [|contradiction].
        apply andb_prop in E. destruct E as [-> E]. apply Nat.eqb_eq in E. subst.
        apply in_map_iff in H. destruct H as [[o' q] [H Hin]]. unfold snocP in H. simpl in H.
        injection H as -> <-. exists 0, q. rewrite Nat.add_0_r. auto.
      * exists (S i), q. rewrite Nat.add_succ_r. exact (conj H1 H2).
    + intros [[|i] [q [H1 [H2 [H3 H4]]]]]; simpl in H2, H3.
      * left. injection H2 as ->. injection H3 as ->. rewrite Nat.eqb_refl. simpl.
        rewrite Nat.add_0_r in H1. subst. apply (in_map (snocP n k) Ln (o, q)). exact H4.
      * right. exists i, q. rewrite Nat.add_succ_r in H1. auto.
Qed.

Lemma NoDup_app_i {X} (l l' : list X) :
  NoDup l -> NoDup l' -> (forall x, In x l -> In x l' -> False) -> NoDup (l ++ l').
Proof.
  induction 1 as [|x l Hx Hl IH]; intros H' Hd; simpl; [exact H'|].
  constructor.
  - intro H. apply in_app_or in H. destruct H as [H|H]; [contradiction|].
    apply (Hd x); [left; reflexivity|exact H].
  - apply IH; [exact H'|]. intros y Hy. apply Hd. right; exact Hy.
Qed.

Lemma NoDup_map_inj {X Y} (f : X -> Y) l : (forall x y, f x = f y -> x = y) -> NoDup l -> NoDup (map f l).
Proof.
  intros Hf. induction 1 as [|x l Hx Hl IH]; simpl; constructor; [|exact IH].
  intro H. apply in_map_iff in H. destruct H as [y [E Hy]]. apply Hf in E. subst. auto.
Qed.

Lemma pcontrib_NoDup n m Ln cs : NoDup Ln -> forall k dfs, length dfs = length cs ->
  NoDup (pcontrib n k cs dfs m Ln).
Proof.
  intro HL. induction cs as [|c cs IH]; intros k dfs Hl; destruct dfs as [|d dfs]; try discriminate;
    cbn [pcontrib]; [constructor|]. simpl in Hl. apply NoDup_app_i.
  - destruct (d && Nat.eqb c m); [|constructor].
    apply NoDup_map_inj; [apply snocP_inj|exact HL].
  - apply IH. lia.
  - intros [o p] H1 H2. destruct (d && Nat.eqb c m); [|contradiction].
    apply in_map_iff in H1. destruct H1 as [[o' q] [E _]]. unfold snocP in E. simpl in E.
    injection E as -> <-. apply pcontrib_In in H2; [|lia].
    destruct H2 as [i [q' [E _]]]. apply app_inj_tail in E. destruct E as [_ E].
    injection E as E. lia.
Qed.

Lemma contrib_nochild cs : forall dfs gl m, ~ In m cs -> contrib cs dfs gl m = [].
Proof.
  induction cs as [|c cs IH]; intros dfs gl m H; [reflexivity|].
  destruct dfs as [|d dfs]; [reflexivity|]. destruct gl as [|g gl]; [reflexivity|].
  cbn [contrib]. assert (Hc : Nat.eqb c m = false).
  { apply Nat.eqb_neq. intros ->. apply H. left; reflexivity. }
  rewrite Hc. destruct d, g; apply IH; intro; apply H; right; assumption.
Qed.

Record Inv (act : list nat) (done : list nat) (gm : nat -> list T) (deriv : nat -> option T)
  (LM : nat -> list (nat * list edge)) : Prop := {
  i1 : forall m, gs (map val (gm m)) = gs (map pv (LM m));
  i2 : forall m, NoDup (LM m);
  i3 : forall m o p, In (o, p) (LM m) -> In o outputs /\ Path nd o p m /\
          (forall e, In e p -> In (fst e) done);
  i4 : forall m o p, In o outputs -> Path nd o p m ->
          (forall e, In e p -> In (fst e) done /\ In (fst e) act) -> In (o, p) (LM m);
  i5 : forall m, In m done -> In m act -> exists t, gm m = [t];
  i6 : forall m, ~ In m done -> deriv m = None
}.

Lemma step_inv act done n rest gm deriv LM gm' deriv' :
  topo nd (done ++ n :: rest) ->
  Inv act done gm deriv LM ->
  visitNode nd T addT symDiff act (gm, deriv) n = Ok (gm', deriv') ->
  exists LM', Inv act (done ++ [n]) gm' deriv' LM'.
Proof.
  intros Ht I H. destruct (topo_children _ _ _ Ht) as [Tc [Td [Tr [Tdr _]]]].
  unfold visitNode in H.
  destruct (mem n act) eqn:Ea; cbn [negb] in H.
  2:{ (* inactive *)
    injection H as <- <-. apply mem_false in Ea. exists LM. destruct I as [J1 J2 J3 J4 J5 J6]. split; auto.
    - intros m o p Hin. destruct (J3 m o p Hin) as [H1 [H2 H3]]. repeat split; auto.
      intros e He. apply in_or_app; auto.
    - intros m o p Ho Hp He. apply J4; auto. intros e Hin. destruct (He e Hin) as [E1 E2].
      split; [|exact E2]. apply in_app_or in E1. destruct E1 as [E1|[E1|[]]]; [exact E1|].
      rewrite <- E1 in E2. contradiction.
    - intros m Hm Hact. apply in_app_or in Hm. destruct Hm as [Hm|[->|[]]]; [auto|contradiction].
    - intros m Hm. apply J6. intro; apply Hm. apply in_or_app; auto. }
  rewrite (i6 _ _ _ _ _ I n Td) in H.
  destruct (gm n) as [|g0 more] eqn:Eg; [discriminate|].
  destruct (reduceAdd T addT (g0 :: more)) as [t|] eqn:Er; [|discriminate].
  pose proof (reduceAdd_val _ _ Er) as Hval. rewrite <- Eg in Hval.
  rewrite (i1 _ _ _ _ _ I n) in Hval.
  set (gm1 := match more with [] => gm | _ => upd gm n [t] end) in *.
  assert (Gn : gm1 n = [t]).
  { unfold gm1. destruct more as [|x more].
    - simpl in Er. injection Er as <-. exact Eg.
    - unfold upd. rewrite Nat.eqb_refl. reflexivity. }
  assert (Gm : forall m, m <> n -> gm1 m = gm m).
  { intros m Hm. unfold gm1. destruct more; [reflexivity|]. unfold upd.
    apply Nat.eqb_neq in Hm. rewrite Hm. reflexivity. }
  assert (G1 : forall m, gs (map val (gm1 m)) = gs (map pv (LM m))).
  { intro m. destruct (Nat.eq_dec m n) as [->|Hm].
    - rewrite Gn. simpl. rewrite gadd_0_r. exact Hval.
    - rewrite Gm by exact Hm. apply (i1 _ _ _ _ _ I). }
  assert (D6 : forall m, ~ In m (done ++ [n]) -> upd deriv n (Some t) m = None).
  { intros m Hm. unfold upd. destruct (Nat.eqb_spec m n) as [->|Hne].
    - exfalso. apply Hm. apply in_or_app. right; left; reflexivity.
    - apply (i6 _ _ _ _ _ I). intro; apply Hm. apply in_or_app; auto. }
  destruct (isInput (nd n)) eqn:Ei.
  { injection H as <- <-. exists LM. destruct I as [J1 J2 J3 J4 J5 J6]. split; auto.
    - intros m o p Hin. destruct (J3 m o p Hin) as [H1 [H2 H3]]. repeat split; auto.
      intros e He. apply in_or_app; auto.
    - intros m o p Ho Hp He. apply J4; auto. intros e Hin. destruct (He e Hin) as [E1 E2].
      split; [|exact E2]. apply in_app_or in E1. destruct E1 as [E1|[E1|[]]]; [exact E1|].
      exfalso. destruct e as [a i]. simpl in E1. subst a.
      apply in_split in Hin. destruct Hin as [p1 [p2 ->]].
      destruct (path_app_inv _ _ _ _ Hp) as [b [_ P2]].
      inversion P2 as [|? ? c ? ? X1 X2 _]; subst.
      rewrite (proj1 (Hwf n) Ei) in X1. destruct i; discriminate.
    - intros m Hm Hact. apply in_app_or in Hm. destruct Hm as [Hm|[<-|[]]]; [|eauto].
      destruct (J5 m Hm Hact) as [u Hu]. exists u. rewrite Gm; [exact Hu|].
      intros ->. contradiction. }
  destruct (sdop (nd n)) eqn:Es; cbn [negb] in H; [|discriminate].
  destruct (symDiff n t) as [gl|] eqn:Esym; [|discriminate].
  destruct (distribute T gm1 (children (nd n)) (diffWRT (nd n)) gl) as [gm2|] eqn:Ed; [|discriminate].
  injection H as <- <-.
  destruct (rr_sym _ _ _ _ _ RR n t gl Esym) as [Hlen Hrule].
  assert (Hdl : length (diffWRT (nd n)) = length (children (nd n))).
  { apply Hwf; assumption. }
  pose proof (distribute_contrib _ _ _ _ _ Ed) as Dist.
  exists (fun m => LM m ++ pcontrib n 0 (children (nd n)) (diffWRT (nd n)) m (LM n)).
  split.
  - intro m. rewrite Dist, !map_app, !gsum_app, G1. f_equal.
    apply (contrib_val n t m (LM n)); auto.
  - intro m. apply NoDup_app_i.
    + apply (i2 _ _ _ _ _ I).
    + apply pcontrib_NoDup; [apply (i2 _ _ _ _ _ I)|exact Hdl].
    + intros [o p] H1 H2. apply pcontrib_In in H2; [|exact Hdl].
      destruct H2 as [i [q [-> _]]]. apply (i3 _ _ _ _ _ I) in H1.
      destruct H1 as [_ [_ H1]]. apply Td. apply (H1 (n, 0 + i)). apply in_or_app. right; left; reflexivity.
  - intros m o p Hin. apply in_app_or in Hin. destruct Hin as [Hin|Hin].
    + destruct (i3 _ _ _ _ _ I m o p Hin) as [H1 [H2 H3]]. repeat split; auto.
      intros e He. apply in_or_app; auto.
    + apply pcontrib_In in Hin; [|exact Hdl]. destruct Hin as [i [q [-> [X1 [X2 X3]]]]].
      destruct (i3 _ _ _ _ _ I n o q X3) as [H1 [H2 H3]]. split; [exact H1|]. split.
      * apply path_snoc; [exact H2|split; assumption].
      * intros e He. apply in_app_or in He. apply in_or_app.
        destruct He as [He|[<-|[]]]; [left; auto|right; left; reflexivity].
  - intros m o p Ho Hp He.
    destruct (in_dec Nat.eq_dec n (map fst p)) as [Hn|Hn].
    + (* the edge from n must be the last one *)
      apply in_map_iff in Hn. destruct Hn as [[n' i] [En Hin]]. simpl in En. subst n'.
      apply in_split in Hin. destruct Hin as [p1 [p2 ->]].
      destruct (path_app_inv _ _ _ _ Hp) as [b [P1 P2]].
      inversion P2 as [|? ? c ? ? X1 X2 P3]; subst.
      assert (Hc : In c rest) by (apply Tc; eapply nth_error_In; exact X1).
      assert (Ht2 : topo nd ((done ++ [n]) ++ rest)) by (rewrite <- app_assoc; exact Ht).
      assert (p2 = []).
      { destruct p2 as [|e p2]; [reflexivity|]. exfalso.
        destruct (path_in_rest _ _ _ _ _ Ht2 Hc P3) as [_ Hr].
        assert (In (fst e) rest) by (apply Hr; left; reflexivity).
        destruct (He e) as [E1 _]. { apply in_or_app. right; right; left; reflexivity. }
        apply in_app_or in E1. destruct E1 as [E1|[E1|[]]].
        - exact (Tdr _ E1 H).
        - rewrite <- E1 in H. contradiction. }
      subst p2. inversion P3; subst.
      apply in_or_app. right. apply pcontrib_In; [exact Hdl|].
      exists i, p1. split; [reflexivity|]. split; [exact X1|]. split; [exact X2|].
      apply (i4 _ _ _ _ _ I); [exact Ho|exact P1|].
      intros e Hin. destruct (He e) as [E1 E2]. { apply in_or_app; auto. }
      split; [|exact E2]. apply in_app_or in E1. destruct E1 as [E1|[E1|[]]]; [exact E1|].
      (* source n inside p1: a cycle through n *)
      exfalso. destruct e as [a j]. simpl in E1. subst a.
      apply in_split in Hin. destruct Hin as [q1 [q2 ->]].
      destruct (path_app_inv _ _ _ _ P1) as [b' [_ Q2]].
      inversion Q2 as [|? ? c' ? ? Y1 Y2 Q3]; subst.
      assert (Hc' : In c' rest) by (apply Tc; eapply nth_error_In; exact Y1).
      destruct (path_in_rest _ _ _ _ _ Ht2 Hc' Q3) as [Hn _]. contradiction.
    + apply in_or_app. left. apply (i4 _ _ _ _ _ I); auto.
      intros e Hin. destruct (He e Hin) as [E1 E2]. split; [|exact E2].
      apply in_app_or in E1. destruct E1 as [E1|[E1|[]]]; [exact E1|].
      exfalso. apply Hn. rewrite E1. apply in_map. exact Hin.
  - intros m Hm Hact. assert (Hnc : ~ In m (children (nd n))).
    { intro Hc. apply Tc in Hc. destruct Hc as [Hc Hne].
      apply in_app_or in Hm. destruct Hm as [Hm|[Hm|[]]]; [exact (Tdr _ Hm Hc)|congruence]. }
    rewrite Dist, (contrib_nochild _ _ _ _ Hnc), app_nil_r.
    apply in_app_or in Hm. destruct Hm as [Hm|[<-|[]]]; [|eauto].
    destruct (i5 _ _ _ _ _ I m Hm Hact) as [u Hu]. exists u. rewrite Gm; [exact Hu|].
    intros ->. contradiction.
  - exact D6.
Qed.

Lemma visitAll_inv act rest : forall done gm deriv LM gm' deriv',
  topo nd (done ++ rest) -> Inv act done gm deriv LM ->
  visitAll nd T addT symDiff act (gm, deriv) rest = Ok (gm', deriv') ->
  exists LM', Inv act (done ++ rest) gm' deriv' LM'.
Proof.
  induction rest as [|n rest IH]; intros done gm deriv LM gm' deriv' Ht I H.
  - simpl in H. injection H as <- <-. rewrite app_nil_r. exists LM; exact I.
  - cbn [visitAll] in H.
    destruct (visitNode nd T addT symDiff act (gm, deriv) n) as [[gm1 d1]|] eqn:E; [|discriminate].
    destruct (step_inv _ _ _ _ _ _ _ _ _ Ht I E) as [LM1 I1'].
    replace (done ++ n :: rest) with ((done ++ [n]) ++ rest) in * by (rewrite <- app_assoc; reflexivity).
    eapply IH; eauto.
Qed.

Lemma initGrads_spec os : forall gl gm gm', NoDup os ->
  initGrads T gm os gl = Some gm' ->
  (forall m, ~ In m os -> gm' m = gm m) /\
  (forall i o, nth_error os i = Some o -> exists t, nth_error gl i = Some t /\ gm' o = [t]).
Proof.
  induction os as [|o os IH]; intros gl gm gm' Hn H; simpl in H.
  - injection H as <-. split; [reflexivity|]. intros [|i] ? E; discriminate.
  - destruct gl as [|g gl]; [discriminate|]. inversion Hn as [|? ? Ho Hn']; subst.
    destruct (IH _ _ _ Hn' H) as [I1' I2']. split.
    + intros m Hm. rewrite I1' by (intro; apply Hm; right; assumption).
      unfold upd. destruct (Nat.eqb_spec m o) as [->|]; [|reflexivity].
      exfalso. apply Hm. left; reflexivity.
    + intros [|i] o' E; simpl in *.
      * injection E as <-. exists g. split; [reflexivity|]. rewrite I1' by exact Ho.
        unfold upd. rewrite Nat.eqb_refl. reflexivity.
      * apply I2'; exact E.
Qed.

Lemma init_inv act gl gm : NoDup outputs ->
  initGrads T (fun _ => []) outputs gl = Some gm ->
  (forall i o t, nth_error outputs i = Some o -> nth_error gl i = Some t -> seed o = val t) ->
  Inv act [] gm (fun _ => None) (fun m => if mem m outputs then [(m, [])] else []).
Proof.
  intros Hn Hi Hs. destruct (initGrads_spec _ _ _ _ Hn Hi) as [S1 S2]. split.
  - intro m. destruct (mem m outputs) eqn:E.
    + apply mem_In in E. destruct (In_nth_error _ _ E) as [i Hi'].
      destruct (S2 i m Hi') as [t [H1 H2]]. rewrite H2. simpl. f_equal.
      unfold pv; simpl. symmetry. eapply Hs; eauto.
    + apply mem_false in E. rewrite S1 by exact E. reflexivity.
  - intro m. destruct (mem m outputs); repeat constructor. intros [].
  - intros m o p H. destruct (mem m outputs) eqn:E; [|contradiction].
    destruct H as [H|[]]. injection H as <- <-. apply mem_In in E.
    split; [exact E|]. split; [constructor|intros e []].
  - intros m o p Ho Hp He. destruct p as [|e p]; [|destruct (He e (or_introl eq_refl)) as [[] _]].
    inversion Hp; subst. apply mem_In in Ho. rewrite Ho. left; reflexivity.
  - intros m [].
  - reflexivity.
Qed.

Lemma collect_spec gm wrt : forall r, collect T gm wrt = Some r ->
  length r = length wrt /\
  forall i w, nth_error wrt i = Some w -> exists g l, gm w = g :: l /\ nth_error r i = Some g.
Proof.
  induction wrt as [|w wrt IH]; intros r H; simpl in H.
  - injection H as <-. split; [reflexivity|]. intros [|i] ? E; discriminate.
  - destruct (gm w) as [|g l] eqn:Eg; [discriminate|].
    destruct (collect T gm wrt) as [r'|]; [|discriminate]. injection H as <-.
    destruct (IH r' eq_refl) as [L1 L2]. split; [simpl; congruence|].
    intros [|i] w' E; simpl in *; [injection E as <-; eauto|apply L2; exact E].
Qed.

Theorem backprop_correct sorted wrt gl r deriv' :
  topo nd sorted -> NoDup outputs ->
  (forall o, In o outputs -> In o sorted) -> (forall w, In w wrt -> In w sorted) ->
  (forall i o t, nth_error outputs i = Some o -> nth_error gl i = Some t -> seed o = val t) ->
  backpropagate nd nparents T addT symDiff sorted (fun _ => None) outputs gl wrt = Ok (r, deriv') ->
  length r = length wrt /\
  forall i w, nth_error wrt i = Some w ->
    exists t, nth_error r i = Some t /\ is_path_sum G nd outputs seed w (val t).
Proof.
  intros Ht Hno Ho Hw Hs H. unfold backpropagate in H.
  destruct (forwardDiffAnalysis nd outputs sorted) as [F|] eqn:EF; [|discriminate].
  destruct (backwardDiffAnalysis nd nparents wrt sorted) as [B|] eqn:EB; [|discriminate].
  destruct (diffS wrt F) eqn:E1; [|discriminate].
  destruct (diffS outputs B) eqn:E2; [|discriminate].
  destruct (initGrads T (fun _ => []) outputs gl) as [gm|] eqn:Ei; [|discriminate].
  destruct (visitAll nd T addT symDiff (inter F B) (gm, fun _ => None) sorted) as [[gm' d']|] eqn:Ev;
    [|discriminate].
  destruct (collect T gm' wrt) as [r'|] eqn:Ec; [|discriminate].
  injection H as <- <-.
  unfold forwardDiffAnalysis in EF. unfold backwardDiffAnalysis in EB.
  destruct (forward_spec _ _ _ Ht EF) as [F1 [F2 F3]].
  destruct (backward_spec _ _ _ (topo_btopo _ Ht) EB) as [B1 [B2 B3]].
  destruct (visitAll_inv (inter F B) sorted [] gm (fun _ => None) _ gm' d' Ht
             (init_inv (inter F B) gl gm Hno Ei Hs) Ev) as [LM I].
  cbn [app] in I.
  destruct (collect_spec _ _ _ Ec) as [C1 C2]. split; [exact C1|].
  intros i w Hiw. destruct (C2 i w Hiw) as [g [l [Hg Hr]]].
  exists g. split; [exact Hr|].
  assert (Hwin : In w wrt) by (eapply nth_error_In; exact Hiw).
  assert (HwF : In w F) by (apply (proj1 (diffS_nil wrt F) E1); exact Hwin).
  assert (HwB : In w B) by (apply B1, fold_addSet; exact Hwin).
  destruct (i5 _ _ _ _ _ I w (Hw w Hwin)) as [t Hgt].
  { apply inter_In; split; assumption. }
  rewrite Hg in Hgt. injection Hgt as -> ->.
  (* forward/backward closure along paths *)
  assert (PF : forall a p b, Path nd a p b -> In a sorted -> In a F -> In b F /\ forall e, In e p -> In (fst e) F).
  { induction 1 as [a|a j c p b X1 X2 Hp IH]; intros Ha HaF.
    - split; [exact HaF|intros e []].
    - assert (Hc : In c sorted).
      { apply (topo_in_rest [] sorted a c Ht Ha). eapply nth_error_In; exact X1. }
      assert (HcF : In c F) by (eapply F3; [exact Ha|exact HaF|split; eauto]).
      destruct (IH Hc HcF) as [IH1 IH2]. split; [exact IH1|].
      intros e [<-|He]; [exact HaF|auto]. }
  assert (PB : forall a p b, Path nd a p b -> In a sorted -> In b B -> In a B /\ forall e, In e p -> In (fst e) B).
  { induction 1 as [a|a j c p b X1 X2 Hp IH]; intros Ha HbB.
    - split; [exact HbB|intros e []].
    - assert (Hc : In c sorted).
      { apply (topo_in_rest [] sorted a c Ht Ha). eapply nth_error_In; exact X1. }
      destruct (IH Hc HbB) as [IH1 IH2].
      assert (HaB : In a B).
      { eapply B3; [apply -> in_rev; exact Ha|exact IH1|split; eauto]. }
      split; [exact HaB|]. intros e [<-|He]; [exact HaB|auto]. }
  exists (LM w). split; [apply (i2 _ _ _ _ _ I)|]. split.
  - intros o p. split.
    + intro Hin. destruct (i3 _ _ _ _ _ I w o p Hin) as [X1 [X2 _]]. split; assumption.
    + intros [Hoin Hp]. apply (i4 _ _ _ _ _ I); [exact Hoin|exact Hp|].
      intros e He.
      assert (Hos : In o sorted) by auto.
      split.
      * destruct (path_in_rest [] sorted _ _ _ Ht Hos Hp) as [_ X]. apply X; exact He.
      * apply inter_In. split.
        -- apply (PF o p w Hp Hos); [|exact He]. apply F1, fold_addSet. exact Hoin.
        -- apply (PB o p w Hp Hos); [exact HwB|exact He].
  - transitivity (gs (map val (gm' w))).
    + rewrite Hg. simpl. symmetry. apply gadd_0_r.
    + apply (i1 _ _ _ _ _ I w).
Qed.

Lemma forward_path sorted F : forwardLoop nd sorted (fold_right addSet [] outputs) = Ok F ->
  forall m, In m F -> exists o p, In o outputs /\ Path nd o p m.
Proof.
  intros H. apply (forward_preserves (fun m => exists o p, In o outputs /\ Path nd o p m) sorted) with (3 := H).
  - intros n i c [o [p [H1 H2]]] He. exists o, (p ++ [(n, i)]). split; [exact H1|].
    apply path_snoc; assumption.
  - intros m Hm. rewrite fold_addSet in Hm. exists m, []. split; [exact Hm|constructor].
Qed.

Theorem backprop_rejects sorted deriv wrt gl w :
  (forall n, In n sorted -> sdop (nd n) = true \/ children (nd n) = []) ->
  In w wrt -> (forall o p, In o outputs -> ~ Path nd o p w) ->
  backpropagate nd nparents T addT symDiff sorted deriv outputs gl wrt = Fail ENonDiffWRT.
Proof.
  intros Hs Hw Hnp. unfold backpropagate, forwardDiffAnalysis, backwardDiffAnalysis.
  destruct (forward_total sorted Hs (fold_right addSet [] outputs)) as [F HF]. rewrite HF.
  destruct (backward_total (rev sorted)) with (ds := fold_right addSet [] wrt) as [B HB].
  { intros n Hn. apply Hs. apply in_rev; exact Hn. }
  rewrite HB. destruct (diffS wrt F) eqn:E; [|reflexivity].
  exfalso. pose proof (proj1 (diffS_nil wrt F) E w Hw) as HwF.
  destruct (forward_path _ _ HF w HwF) as [o [p [H1 H2]]]. exact (Hnp o p H1 H2).
Qed.

(* ---------- success ---------- *)
Hypothesis add_total : forall a b, exists c, addT a b = Some c.
Hypothesis sym_total : forall n g, sdop (nd n) = true -> exists l, symDiff n g = Some l.

Lemma reduceFrom_total l : forall acc, exists t, reduceFrom T addT acc l = Some t.
Proof.
  induction l as [|x l IH]; intro acc; simpl; [eauto|].
  destruct (add_total acc x) as [c ->]. apply IH.
Qed.

Lemma distribute_total cs : forall dfs gl gm,
  length dfs = length cs -> length gl = length cs ->
  (forall i, nth_error dfs i = Some true -> i < length cs -> exists t, nth_error gl i = Some (Some t)) ->
  exists gm', distribute T gm cs dfs gl = Some gm'.
Proof.
  induction cs as [|c cs IH]; intros dfs gl gm H1 H2 H3; simpl; [eauto|].
  destruct dfs as [|d dfs]; [discriminate|]. destruct gl as [|g gl]; [discriminate|].
  simpl in H1, H2.
  assert (H3' : forall i, nth_error dfs i = Some true -> i < length cs ->
     exists t, nth_error gl i = Some (Some t)).
  { intros i Hi Hlt. apply (H3 (S i)); [exact Hi|simpl; lia]. }
  destruct d; [|apply IH; auto].
  destruct (H3 0 eq_refl ltac:(simpl; lia)) as [t Ht]. simpl in Ht. injection Ht as ->.
  apply IH; auto.
Qed.

(* every active unvisited node already has a gradient when its turn comes *)
Lemma visit_total act rest : forall done gm deriv,
  topo nd (done ++ rest) ->
  (forall n, In n rest -> sdop (nd n) = true \/ children (nd n) = []) ->
  (forall n, In n act -> isInput (nd n) = true \/ sdop (nd n) = true) ->
  (forall m, In m rest -> In m act -> deriv m = None) ->
  (* gradient present, or an active parent still to come *)
  (forall m, In m rest -> In m act -> gm m <> [] \/
       exists n i, In n rest /\ In n act /\ Edge n i m) ->
  exists st, visitAll nd T addT symDiff act (gm, deriv) rest = Ok st /\
     forall m, (In m rest /\ In m act) \/ gm m <> [] -> fst st m <> [].
Proof.
  induction rest as [|n rest IH]; intros done gm deriv Ht Hs Ha Hd Hg.
  - exists (gm, deriv). split; [reflexivity|]. intros m [[[] _]|H]; exact H.
  - destruct (topo_children _ _ _ Ht) as [Tc [Td [Tr [Tdr _]]]].
    assert (Ht2 : topo nd ((done ++ [n]) ++ rest)) by (rewrite <- app_assoc; exact Ht).
    cbn [visitAll].
    destruct (mem n act) eqn:Ea.
    2:{ unfold visitNode. rewrite Ea. cbn [negb].
        apply mem_false in Ea.
        destruct (IH (done ++ [n]) gm deriv Ht2) as [st [S1 S2]].
        - intros m Hm; apply Hs; right; exact Hm.
        - exact Ha.
        - intros m Hm; apply Hd; right; exact Hm.
        - intros m Hm Hact. destruct (Hg m (or_intror Hm) Hact) as [H|[k [i [[<-|H1] [H2 H3]]]]];
            [auto|contradiction|right; exists k, i; auto].
        - exists st. split; [exact S1|]. intros m [[[<-|Hm] Hact]|H]; [contradiction|apply S2; auto|apply S2; auto]. }
    apply mem_In in Ea.
    unfold visitNode. rewrite (proj2 (mem_In _ _) Ea). cbn [negb].
    rewrite (Hd n (or_introl eq_refl) Ea).
    assert (Hgn : gm n <> []).
    { destruct (Hg n (or_introl eq_refl) Ea) as [H|[k [i [[<-|H1] [H2 H3]]]]]; [exact H| |].
      - exfalso. destruct (Tc n (edge_child _ _ _ H3)) as [_ X]. congruence.
      - exfalso. apply Tr. apply (topo_in_rest (done ++ [n]) rest k n Ht2 H1).
        eapply edge_child; exact H3. }
    destruct (gm n) as [|g0 more] eqn:Eg; [congruence|].
    destruct (reduceFrom_total more g0) as [t Er]. unfold reduceAdd. rewrite Er.
    set (gm1 := match more with [] => gm | _ => upd gm n [t] end).
    assert (Gn : gm1 n <> []).
    { unfold gm1. destruct more; [congruence|]. unfold upd. rewrite Nat.eqb_refl. discriminate. }
    assert (Gm : forall m, gm m <> [] -> gm1 m <> []).
    { intros m Hm. unfold gm1. destruct more; [exact Hm|]. unfold upd.
      destruct (Nat.eqb m n); [discriminate|exact Hm]. }
    assert (Dn : forall m, In m rest -> In m act -> upd deriv n (Some t) m = None).
    { intros m Hm Hact. unfold upd. destruct (Nat.eqb_spec m n) as [->|]; [contradiction|].
      apply Hd; [right; exact Hm|exact Hact]. }
    destruct (isInput (nd n)) eqn:Ei.
    { destruct (IH (done ++ [n]) gm1 (upd deriv n (Some t)) Ht2) as [st [S1 S2]].
      - intros m Hm; apply Hs; right; exact Hm.
      - exact Ha.
      - exact Dn.
      - intros m Hm Hact. destruct (Hg m (or_intror Hm) Hact) as [H|[k [i [[<-|H1] [H2 H3]]]]].
        + left; auto.
        + exfalso. rewrite (edge_noninput _ _ _ H3) in Ei. discriminate.
        + right; exists k, i; auto.
      - exists st. split; [exact S1|]. intros m [[[<-|Hm] Hact]|H]; apply S2; auto. }
    destruct (Ha n Ea) as [X|Es]; [congruence|]. rewrite Es. cbn [negb].
    destruct (sym_total n t Es) as [gl Esym]. rewrite Esym.
    destruct (rr_sym _ _ _ _ _ RR n t gl Esym) as [Hlen Hrule].
    assert (Hdl : length (diffWRT (nd n)) = length (children (nd n))) by (apply Hwf; assumption).
    destruct (distribute_total (children (nd n)) (diffWRT (nd n)) gl gm1 Hdl Hlen) as [gm2 Ed].
    { intros i Hi Hlt. destruct (Hrule i Hi Hlt) as [u [Hu _]]. eauto. }
    rewrite Ed. pose proof (distribute_contrib _ _ _ _ _ Ed) as Dist.
    assert (G2 : forall m, gm1 m <> [] -> gm2 m <> []).
    { intros m Hm E. rewrite Dist in E. apply app_eq_nil in E. destruct E; contradiction. }
    destruct (IH (done ++ [n]) gm2 (upd deriv n (Some t)) Ht2) as [st [S1 S2]].
    + intros m Hm; apply Hs; right; exact Hm.
    + exact Ha.
    + exact Dn.
    + intros m Hm Hact. destruct (Hg m (or_intror Hm) Hact) as [H|[k [i [[<-|H1] [H2 H3]]]]].
      * left; auto.
      * left. rewrite Dist. intro E. apply app_eq_nil in E. destruct E as [_ E].
        destruct H3 as [X1 X2].
        destruct (Hrule i X2) as [u [Hu _]].
        { apply nth_error_Some. rewrite X1. discriminate. }
        clear - X1 X2 Hu E. revert i X1 X2 Hu E. generalize (diffWRT (nd n)). revert gl.
        induction (children (nd n)) as [|c cs IHc]; intros gl dfs i X1 X2 Hu E; [destruct i; discriminate|].
        destruct dfs as [|d dfs]; [destruct i; discriminate|].
        destruct gl as [|g gl]; [destruct i; discriminate|].
        cbn [contrib] in E. destruct i as [|i]; simpl in X1, X2, Hu.
        -- injection X1 as ->. injection X2 as ->. injection Hu as ->.
           rewrite Nat.eqb_refl in E. discriminate.
        -- eapply (IHc gl dfs i X1 X2 Hu). destruct d, g; auto. destruct (Nat.eqb c m); [discriminate|exact E].
      * right; exists k, i; auto.
    + exists st. split; [exact S1|]. intros m [[[<-|Hm] Hact]|H]; apply S2; auto.
Qed.

Lemma initGrads_total os : forall gl gm, length gl = length os ->
  exists gm', initGrads T gm os gl = Some gm'.
Proof.
  induction os as [|o os IH]; intros [|g gl] gm H; try discriminate; simpl; eauto.
Qed.

Lemma collect_total gm wrt : (forall w, In w wrt -> gm w <> []) -> exists r, collect T gm wrt = Some r.
Proof.
  induction wrt as [|w wrt IH]; intro H; simpl; [eauto|].
  destruct IH as [r ->]; [intros; apply H; right; assumption|].
  destruct (gm w) eqn:E; [|eauto]. exfalso. apply (H w); [left; reflexivity|exact E].
Qed.

(* the last edge of a non-empty path *)
Lemma path_last a p b : Path nd a p b -> a <> b ->
  exists q n i, p = q ++ [(n, i)] /\ Path nd a q n /\ Edge n i b.
Proof.
  intros H Hne. destruct p as [|e p] using rev_ind.
  - inversion H; subst. congruence.
  - destruct e as [n i]. apply path_snoc_inv in H. destruct H as [H1 H2].
    exists p, n, i. auto.
Qed.

Theorem backprop_succeeds sorted wrt gl :
  topo nd sorted -> NoDup outputs ->
  (forall o, In o outputs -> In o sorted) -> (forall w, In w wrt -> In w sorted) ->
  (forall n, In n sorted -> sdop (nd n) = true \/ children (nd n) = []) ->
  (forall w, In w wrt -> isInput (nd w) = true \/ sdop (nd w) = true) ->
  length gl = length outputs ->
  (forall w, In w wrt -> exists o p, In o outputs /\ Path nd o p w) ->
  (forall o, In o outputs -> exists w p, In w wrt /\ Path nd o p w) ->
  exists r, backpropagate nd nparents T addT symDiff sorted (fun _ => None) outputs gl wrt = Ok r.
Proof.
  intros Ht Hno Ho Hw Hs' HwS Hl HW HO.
  unfold backpropagate, forwardDiffAnalysis, backwardDiffAnalysis.
  destruct (forward_total sorted Hs' (fold_right addSet [] outputs)) as [F HF]. rewrite HF.
  destruct (backward_total (rev sorted)) with (ds := fold_right addSet [] wrt) as [B HB].
  { intros n Hn. apply Hs'. apply in_rev; exact Hn. }
  rewrite HB.
  destruct (forward_spec _ _ _ Ht HF) as [F1 [F2 F3]].
  destruct (backward_spec _ _ _ (topo_btopo _ Ht) HB) as [B1 [B2 B3]].
  assert (PF : forall a p b, Path nd a p b -> In a sorted -> In a F -> In b F).
  { induction 1 as [a|a j c p b X1 X2 Hp IH]; intros Ha HaF; [exact HaF|].
    apply IH.
    - apply (topo_in_rest [] sorted a c Ht Ha). eapply nth_error_In; exact X1.
    - eapply F3; [exact Ha|exact HaF|split; eauto]. }
  assert (PB : forall a p b, Path nd a p b -> In a sorted -> In b B -> In a B).
  { induction 1 as [a|a j c p b X1 X2 Hp IH]; intros Ha HbB; [exact HbB|].
    eapply B3; [apply -> in_rev; exact Ha| |split; eauto].
    apply IH; [|exact HbB].
    apply (topo_in_rest [] sorted a c Ht Ha). eapply nth_error_In; exact X1. }
  assert (E1 : diffS wrt F = []).
  { apply diffS_nil. intros w Hwin. destruct (HW w Hwin) as [o [p [H1 H2]]].
    apply (PF o p w H2); [apply Ho; exact H1|]. apply F1, fold_addSet. exact H1. }
  rewrite E1.
  assert (E2 : diffS outputs B = []).
  { apply diffS_nil. intros o Hoin. destruct (HO o Hoin) as [w [p [H1 H2]]].
    apply (PB o p w H2); [apply Ho; exact Hoin|]. apply B1, fold_addSet. exact H1. }
  rewrite E2.
  destruct (initGrads_total outputs gl (fun _ => []) Hl) as [gm Ei]. rewrite Ei.
  destruct (initGrads_spec _ _ _ _ Hno Ei) as [S1 S2].
  destruct (visit_total (inter F B) sorted [] gm (fun _ => None)) as [[gm' d'] [V1 V2]].
  - exact Ht.
  - exact Hs'.
  - intros n Hn. apply inter_In in Hn. destruct Hn as [_ Hn].
    revert n Hn. apply (backward_preserves (fun n => isInput (nd n) = true \/ sdop (nd n) = true)
                          (rev sorted)) with (3 := HB).
    + intros n i c _ He. right. eapply edge_sdop; exact He.
    + intros m Hm. rewrite fold_addSet in Hm. auto.
  - reflexivity.
  - intros m Hm Hact. apply inter_In in Hact. destruct Hact as [HmF HmB].
    destruct (in_dec Nat.eq_dec m outputs) as [Hmo|Hmo].
    + left. destruct (In_nth_error _ _ Hmo) as [i Hi]. destruct (S2 i m Hi) as [t [_ ->]]. discriminate.
    + right. destruct (forward_path _ _ HF m HmF) as [o [p [Hoin Hp]]].
      destruct (path_last _ _ _ Hp) as [q [n [i [-> [Hq He]]]]].
      { intros ->. contradiction. }
      assert (Hns : In n sorted).
      { apply (path_in_rest [] sorted o q n Ht (Ho o Hoin) Hq). }
      exists n, i. split; [exact Hns|]. split; [|exact He].
      apply inter_In. split.
      * apply (PF o q n Hq); [apply Ho; exact Hoin|apply F1, fold_addSet; exact Hoin].
      * eapply B3; [apply -> in_rev; exact Hns|exact HmB|exact He].
  - rewrite V1.
    destruct (collect_total gm' wrt) as [r Hr].
    { intros w Hwin. apply (V2 w). left. split; [auto|]. apply inter_In. split.
      - apply (proj1 (diffS_nil wrt F) E1). exact Hwin.
      - apply B1, fold_addSet. exact Hwin. }
    rewrite Hr. eauto.
Qed.
End N.

(* ---------- nodes differentiated before ---------- *)
Section Stale.
Variable nd : nat -> nodeInfo.
Variable nparents : nat -> nat.
Context {T : Type}.
Variable addT : T -> T -> option T.
Variable symDiff : nat -> T -> option (list (option T)).

Lemma distribute_other cs : forall dfs gl (gm gm' : nat -> list T) w,
  (forall i, nth_error cs i = Some w -> nth_error dfs i <> Some true) ->
  distribute T gm cs dfs gl = Some gm' -> gm' w = gm w.
Proof.
  induction cs as [|c cs IH]; intros dfs gl gm gm' w Hn H; simpl in H.
  - injection H as <-. reflexivity.
  - destruct dfs as [|d dfs]; [discriminate|]. destruct gl as [|g gl]; [discriminate|].
    assert (Hn' : forall i, nth_error cs i = Some w -> nth_error dfs i <> Some true)
      by (intros i; apply (Hn (S i))).
    destruct d; [|eapply IH; eauto]. destruct g as [t|]; [|discriminate].
    rewrite (IH _ _ _ _ _ Hn' H). unfold upd. destruct (Nat.eqb_spec w c) as [->|]; [|reflexivity].
    exfalso. apply (Hn 0); reflexivity.
Qed.

Lemma visit_stale act w d rest : forall gm deriv gm' deriv',
  NoDup rest ->
  deriv w = Some d ->
  (forall n, In n rest -> n <> w -> (exists i, Edge nd n i w) -> In n act -> deriv n <> None) ->
  visitAll nd T addT symDiff act (gm, deriv) rest = Ok (gm', deriv') ->
  gm' w = gm w ++ (if mem w rest && mem w act then [d] else []).
Proof.
  induction rest as [|n rest IH]; intros gm deriv gm' deriv' Hnd Hw Hp H.
  - simpl in H. injection H as <- <-. simpl. symmetry. apply app_nil_r.
  - inversion Hnd as [|? ? Hn Hnd']; subst. cbn [visitAll] in H.
    destruct (visitNode nd T addT symDiff act (gm, deriv) n) as [[gm1 d1]|] eqn:E; [|discriminate].
    assert (Hp' : forall deriv0, (forall m, In m rest -> deriv0 m = deriv m) ->
       forall m, In m rest -> m <> w -> (exists i, Edge nd m i w) -> In m act -> deriv0 m <> None).
    { intros deriv0 Hd m Hm. rewrite (Hd m Hm). apply Hp. right; exact Hm. }
    unfold visitNode in E.
    destruct (Nat.eq_dec n w) as [->|Hne].
    + assert (Mw : mem w (w :: rest) = true) by (apply mem_In; left; reflexivity).
      assert (Mr : mem w rest = false) by (apply mem_false; exact Hn).
      rewrite Mw. cbn [andb].
      destruct (mem w act) eqn:Ea; cbn [negb] in E.
      * rewrite Hw in E. injection E as <- <-.
        rewrite (IH _ _ _ _ Hnd' Hw (Hp' deriv (fun _ _ => eq_refl)) H), Mr. cbn [andb].
        rewrite app_nil_r. unfold upd. rewrite Nat.eqb_refl. reflexivity.
      * injection E as <- <-.
        rewrite (IH _ _ _ _ Hnd' Hw (Hp' deriv (fun _ _ => eq_refl)) H), Mr. reflexivity.
    + assert (Mw : mem w (n :: rest) = mem w rest).
      { unfold mem. simpl. apply Nat.neq_sym, Nat.eqb_neq in Hne. rewrite Hne. reflexivity. }
      rewrite Mw.
      destruct (mem n act) eqn:Ea; cbn [negb] in E.
      2:{ injection E as <- <-. exact (IH _ _ _ _ Hnd' Hw (Hp' deriv (fun _ _ => eq_refl)) H). }
      destruct (deriv n) as [dn|] eqn:Edn.
      * injection E as <- <-.
        rewrite (IH _ _ _ _ Hnd' Hw (Hp' deriv (fun _ _ => eq_refl)) H). f_equal.
        unfold upd. apply Nat.neq_sym, Nat.eqb_neq in Hne. rewrite Hne. reflexivity.
      * destruct (gm n) as [|g0 more] eqn:Eg; [discriminate|].
        destruct (reduceAdd T addT (g0 :: more)) as [t|]; [|discriminate].
        assert (Hw1 : upd deriv n (Some t) w = Some d).
        { unfold upd. destruct (Nat.eqb_spec w n); [congruence|exact Hw]. }
        assert (Hr1 : forall m, In m rest -> upd deriv n (Some t) m = deriv m).
        { intros m Hm. unfold upd. destruct (Nat.eqb_spec m n) as [->|]; [contradiction|reflexivity]. }
        assert (G1 : (match more with [] => gm | _ => upd gm n [t] end) w = gm w).
        { destruct more; [reflexivity|]. unfold upd. destruct (Nat.eqb_spec w n); [congruence|reflexivity]. }
        destruct (isInput (nd n)).
        { injection E as <- <-. rewrite (IH _ _ _ _ Hnd' Hw1 (Hp' _ Hr1) H), G1. reflexivity. }
        destruct (sdop (nd n)); cbn [negb] in E; [|discriminate].
        destruct (symDiff n t) as [gl|]; [|discriminate].
        destruct (distribute T _ (children (nd n)) (diffWRT (nd n)) gl) as [gm2|] eqn:Ed; [|discriminate].
        injection E as <- <-.
        rewrite (IH _ _ _ _ Hnd' Hw1 (Hp' _ Hr1) H). f_equal.
        rewrite (distribute_other _ _ _ _ _ w) with (2 := Ed); [exact G1|].
        intros i X1 X2. apply (Hp n (or_introl eq_refl) Hne); [exists i; split; assumption| |exact Edn].
        apply mem_In; exact Ea.
Qed.

Lemma topo_NoDup l : topo nd l -> NoDup l.
Proof. induction l as [|n l IH]; simpl; [constructor|]. intros [H1 [_ H3]]. constructor; auto. Qed.

Theorem backprop_stale sorted deriv outputs gl wrt r deriv' i w d :
  topo nd sorted -> NoDup outputs ->
  backpropagate nd nparents T addT symDiff sorted deriv outputs gl wrt = Ok (r, deriv') ->
  nth_error wrt i = Some w -> In w sorted -> ~ In w outputs ->
  deriv w = Some d ->
  (forall n, (exists j, Edge nd n j w) -> deriv n <> None) ->
  nth_error r i = Some d.
Proof.
  intros Ht Hno H Hi Hws Hwo Hd Hp. unfold backpropagate in H.
  destruct (forwardDiffAnalysis nd outputs sorted) as [F|] eqn:EF; [|discriminate].
  destruct (backwardDiffAnalysis nd nparents wrt sorted) as [B|] eqn:EB; [|discriminate].
  destruct (diffS wrt F) eqn:E1; [|discriminate].
  destruct (diffS outputs B) eqn:E2; [|discriminate].
  destruct (initGrads T (fun _ => []) outputs gl) as [gm|] eqn:Ei; [|discriminate].
  destruct (visitAll nd T addT symDiff (inter F B) (gm, deriv) sorted) as [[gm' d']|] eqn:Ev;
    [|discriminate].
  destruct (collect T gm' wrt) as [r'|] eqn:Ec; [|discriminate].
  injection H as <- <-.
  destruct (collect_spec _ _ _ Ec) as [_ C2]. destruct (C2 i w Hi) as [g [l [Hg Hr]]].
  rewrite Hr. pose proof (visit_stale _ w d _ _ _ _ _ (topo_NoDup _ Ht) Hd
    (fun n _ _ He _ => Hp n He) Ev) as V.
  destruct (initGrads_spec _ _ _ _ Hno Ei) as [S1 _]. rewrite (S1 w Hwo) in V. simpl in V.
  rewrite Hg in V. destruct (mem w sorted && mem w (inter F B)); [|discriminate].
  injection V as -> _. reflexivity.
Qed.
End Stale.
