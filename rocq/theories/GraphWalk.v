(** Proofs about walking, subgraphs, clones and roots. *)
From Coq Require Import Arith List Bool String Ascii Lia.
From Verif Require Import GraphModel GraphSpec GraphProofs GraphHistory.
Import ListNotations.
Open Scope list_scope.

(** ** walkGraph *)
Definition hchild (h : list node) (p c : ptr) : Prop :=
  exists n, nth_error h p = Some n /\ In c (nchildren n).
Definition kids (h : list node) (p : ptr) : list ptr :=
  match nth_error h p with Some n => nchildren n | None => [] end.
Lemma kids_spec : forall h p c, In c (kids h p) <-> hchild h p c.
Proof.
  intros. unfold kids, hchild. destruct (nth_error h p) as [n|].
  - split; [eauto|]. intros [m [E I]]. injection E as <-. auto.
  - split; [contradiction|]. intros [m [E _]]. discriminate.
Qed.

Fixpoint walkList (f : nat) (h : list node) (cs : list ptr) (out w : list ptr) : list ptr * list ptr :=
  match cs with
  | [] => (out, w)
  | c :: r => let (o, w') := walkF f h c w in walkList f h r (out ++ o) w'
  end.
Lemma walkF_eq : forall f h s w, walkF (S f) h s w =
  if existsb (Nat.eqb s) w then ([], w)
  else let (out, w') := walkList f h (kids h s) [s] w in (out, s :: w').
Proof.
  intros. cbn [walkF]. unfold kids. destruct (existsb (Nat.eqb s) w); auto.
  set (cs := match nth_error h s with Some n => nchildren n | None => [] end). clearbody cs.
  generalize [s] as out. revert w. induction cs as [|c cs IH]; intros w out; auto.
  cbn [walkList]. destruct (walkF f h c w) as [o w']. apply IH.
Qed.

(** Every element is in [P] or has a parent among [pre] or the elements before it. *)
Inductive led (h : list node) (P : ptr -> Prop) : list ptr -> list ptr -> Prop :=
| led_nil : forall pre, led h P pre []
| led_cons : forall pre x l, (P x \/ exists y, In y pre /\ hchild h y x) ->
    led h P (pre ++ [x]) l -> led h P pre (x :: l).
Lemma led_app : forall h P a b pre, led h P pre a -> led h P (pre ++ a) b -> led h P pre (a ++ b).
Proof.
  induction a as [|x a IH]; cbn; intros b pre La Lb.
  - rewrite app_nil_r in Lb. auto.
  - inversion La; subst. constructor; auto. apply IH; auto. rewrite <- app_assoc. auto.
Qed.
Lemma led_mono : forall h (P Q : ptr -> Prop) l pre pre',
  led h P pre l -> (forall x, P x -> Q x \/ exists y, In y pre' /\ hchild h y x) ->
  (forall x, In x pre -> In x pre') -> led h Q pre' l.
Proof.
  induction l as [|x l IH]; intros pre pre' L HP Hpre; constructor; inversion L; subst.
  - destruct H2 as [Hx|[y [Iy C]]]; auto. right. eauto.
  - eapply IH; eauto.
    + intros z Pz. destruct (HP z Pz) as [?|[y [Iy C]]]; auto. right. exists y. rewrite in_app_iff. auto.
    + intros z Iz. apply in_app_iff in Iz as [Iz|Iz]; apply in_app_iff; auto.
Qed.
Lemma led_split : forall h P l pre, led h P pre l -> forall a x b, l = a ++ x :: b ->
  P x \/ exists y, In y (pre ++ a) /\ hchild h y x.
Proof.
  intros h P l pre L. induction L as [|pre x l Hx L IH]; intros a y b E.
  - destruct a; discriminate.
  - destruct a as [|z a]; cbn in E; injection E as -> ->.
    + rewrite app_nil_r. auto.
    + destruct (IH a y b eq_refl) as [?|[u [Iu C]]]; auto. right. exists u. rewrite <- app_assoc in Iu. auto.
Qed.

Definition closedW (h : list node) (w : list ptr) : Prop :=
  forall p c, In p w -> hchild h p c -> In c w.
Record walkSpec (h : list node) (cs : list ptr) (w o w' : list ptr) : Prop := mkWS {
  ws_closed : closedW h w';
  ws_set : forall x, In x w' <-> In x w \/ In x o;
  ws_nodup : NoDup o;
  ws_disj : forall x, In x o -> ~ In x w;
  ws_start : forall c, In c cs -> In c w';
  ws_below : forall x, In x o -> exists c, In c cs /\ below h c x;
  ws_led : led h (fun x => In x cs) [] o
}.

Lemma NoDup_app_intro : forall {X} (a b : list X), NoDup a -> NoDup b ->
  (forall x, In x a -> ~ In x b) -> NoDup (a ++ b).
Proof.
  induction a as [|x a IH]; cbn; intros b Na Nb D; auto. inversion Na; subst.
  constructor; [|apply IH; auto]. rewrite in_app_iff. intros [?|?]; [auto|]. eapply D; eauto.
Qed.

Lemma walk_spec : forall h, ordered_heap h -> forall f,
  (forall s w o w', s < f -> closedW h w -> walkF f h s w = (o, w') -> walkSpec h [s] w o w').
Proof.
  intros h O. induction f as [|f IH]; intros s w o w' L C E; [lia|].
  rewrite walkF_eq in E. destruct (existsb (Nat.eqb s) w) eqn:Ex.
  - injection E as <- <-. apply existsb_exists in Ex as [s' [Is Es]]. apply Nat.eqb_eq in Es. subst s'.
    constructor; auto using NoDup_nil, led_nil.
    + intros x. cbn. tauto.
    + intros c [<-|[]]. auto.
    + intros x [].
  - assert (Ns : ~ In s w).
    { intros Is. assert (T : existsb (Nat.eqb s) w = true); [|congruence].
      apply existsb_exists. exists s. split; auto. apply Nat.eqb_refl. }
    match type of E with context [walkList ?a ?b ?c ?d ?e] => destruct (walkList a b c d e) as [out wl] eqn:El end. injection E as <- <-.
    (* the loop over the children *)
    assert (Loop : forall cs acc w0 out0 wl0, (forall c, In c cs -> c < f /\ In c (kids h s)) -> closedW h w0 ->
              (forall x, In x w0 -> x <> s) ->
              walkList f h cs acc w0 = (out0, wl0) ->
              exists o0, out0 = acc ++ o0 /\ walkSpec h cs w0 o0 wl0 /\ (forall x, In x wl0 -> x <> s)).
    { induction cs as [|c cs IHc]; cbn [walkList]; intros acc w0 out0 wl0 Hcs C0 Nw E0.
      - injection E0 as <- <-. exists []. rewrite app_nil_r. split; auto. split; auto.
        constructor; auto using NoDup_nil, led_nil; try (intros x []).
        intros x. cbn. tauto.
      - destruct (walkF f h c w0) as [oc w1] eqn:Ec.
        destruct (Hcs c (or_introl eq_refl)) as [Lc Kc].
        pose proof (IH c w0 oc w1 Lc C0 Ec) as Sc.
        assert (Nw1 : forall x, In x w1 -> x <> s).
        { intros x Ix. apply (ws_set _ _ _ _ _ Sc) in Ix as [Ix|Ix]; auto.
          destruct (ws_below _ _ _ _ _ Sc x Ix) as [c' [[<-|[]] B]]. intros ->.
          assert (Bl : forall a b, below h a b -> b <= a).
          { intros a b Hb. induction Hb; auto. pose proof (O _ _ H) as Fo. rewrite Forall_forall in Fo.
            specialize (Fo _ H0). lia. }
          apply Bl in B. apply kids_spec in Kc as [n [En In]]. pose proof (O _ _ En) as Fo.
          rewrite Forall_forall in Fo. specialize (Fo _ In). lia. }
        destruct (IHc (acc ++ oc) w1 out0 wl0) as (o0 & -> & S0 & N0); auto.
        { intros c' Ic'. apply Hcs. right. auto. }
        { apply Sc. }
        exists (oc ++ o0). rewrite app_assoc. split; auto. split; auto.
        destruct Sc as [a1 a2 a3 a4 a5 a6 a7]. destruct S0 as [b1 b2 b3 b4 b5 b6 b7].
        constructor; auto.
        + intros x. rewrite b2, a2, in_app_iff. tauto.
        + apply NoDup_app_intro; auto. intros x Ix Iy. apply (b4 x Iy). apply a2. auto.
        + intros x Ix. apply in_app_iff in Ix as [Ix|Ix]; auto. intros Iw. apply (b4 x Ix). apply a2. auto.
        + intros d [<-|Id]; auto. apply b2. left. apply a5. left. auto.
        + intros x Ix. apply in_app_iff in Ix as [Ix|Ix].
          * destruct (a6 x Ix) as [c' [[<-|[]] B]]. exists c. split; [left|]; auto.
          * destruct (b6 x Ix) as [c' [Ic' B]]. exists c'. split; [right|]; auto.
        + apply led_app; cbn [app].
          * eapply led_mono; eauto. intros x [<-|[]]. left. left. auto.
          * eapply led_mono; eauto; [|intros x []]. intros x Ix. left. right. auto. }
    destruct (Loop (kids h s) [s] w out wl) as (o0 & -> & S0 & N0); auto.
    { intros c Ic. split; auto. apply kids_spec in Ic as [n [En In]]. pose proof (O _ _ En) as Fo.
      rewrite Forall_forall in Fo. specialize (Fo _ In). lia. }
    { intros x Ix ->. auto. }
    destruct S0 as [b1 b2 b3 b4 b5 b6 b7]. cbn [app].
    constructor.
    + intros p c [<-|Ip] Hc; [right; apply b5; apply kids_spec; auto|]. right. eapply b1; eauto.
    + intros x. cbn. rewrite b2. tauto.
    + constructor; auto. intros Is. apply (N0 s); auto. apply b2. auto.
    + intros x [<-|Ix]; auto.
    + intros c [<-|[]]. left. auto.
    + intros x [<-|Ix].
      * exists s. split; [left; auto|constructor].
      * destruct (b6 x Ix) as [c [Ic B]]. exists s. split; [left; auto|].
        apply kids_spec in Ic as [n [En In]]. econstructor; eauto.
    + constructor; [left; left; auto|]. cbn [app]. eapply led_mono; eauto; [|intros x []].
      intros x Ix. right. exists s. split; [left; auto|]. apply kids_spec. auto.
Qed.

Lemma closed_below : forall h w, closedW h w -> forall p q, below h p q -> In p w -> In q w.
Proof. intros h w C p q B. induction B; auto. intros I. apply IHB. eapply C; eauto. exists n. auto. Qed.

Lemma walkGraph_spec : forall h s o w, ordered_heap h -> walkGraph h s [] = (o, w) ->
  NoDup o /\ (forall x, In x o <-> below h s x) /\
  (forall a x b, o = a ++ x :: b -> x = s \/ exists y, In y a /\ hchild h y x).
Proof.
  intros h s o w O E. unfold walkGraph in E.
  assert (C0 : closedW h []) by (intros p c []).
  destruct (walk_spec h O (S s) s [] o w (Nat.lt_succ_diag_r s) C0 E) as [a1 a2 a3 a4 a5 a6 a7].
  split; [auto|]. split.
  - intros x. split.
    + intros Ix. destruct (a6 x Ix) as [c [[<-|[]] B]]. auto.
    + intros B. assert (Iw : In x w) by (eapply closed_below; eauto; apply a5; left; auto).
      apply a2 in Iw as [[]|]; auto.
  - intros a x b Eo. destruct (led_split _ _ _ _ a7 a x b Eo) as [[<-|[]]|[y [Iy Cy]]]; auto.
    right. exists y. auto.
Qed.

Lemma walks_spec : forall h, ordered_heap h -> forall rs w, closedW h w ->
  let o := walks h rs w in
  NoDup o /\ (forall x, In x o <-> ((exists r, In r rs /\ below h r x) /\ ~ In x w)).
Proof.
  intros h O. induction rs as [|r rs IH]; intros w C; cbn [walks].
  - split; [constructor|]. intros x. split; [intros []|]. intros [[r [[] _]] _].
  - destruct (walkGraph h r w) as [o w'] eqn:E. unfold walkGraph in E.
    destruct (walk_spec h O (S r) r w o w' (Nat.lt_succ_diag_r r) C E) as [a1 a2 a3 a4 a5 a6 a7].
    destruct (IH w' a1) as [N I]. cbn zeta in *. split.
    + apply NoDup_app_intro; auto. intros x Ix Iy. apply I in Iy as [_ Nw]. apply Nw. apply a2. auto.
    + intros x. rewrite in_app_iff, I, a2. split.
      * intros [Ix|[[r' [Ir B]] Nx]].
        -- split; [|auto]. destruct (a6 x Ix) as [c [[<-|[]] B]]. exists r. split; [left|]; auto.
        -- split; [|tauto]. exists r'. split; [right|]; auto.
      * intros [[r' [[<-|Ir] B]] Nx].
        -- left. assert (Iw : In x w') by (eapply closed_below; eauto; apply a5; left; auto).
           apply a2 in Iw. tauto.
        -- destruct (in_dec Nat.eq_dec x o) as [Io|No]; auto. right. split; [eauto|]. tauto.
Qed.

Section Rest.
Variable H : string -> word.
Variable fmtTS : ntype -> list nat -> string.

(** ** leaves and cached roots are nodes of the graph *)
Definition tidy (g : graph) : Prop :=
  (forall p, In p (leaves g) -> In p (all g)) /\
  (forall r p, roots g = Some r -> In p r -> In p (all g)).

Lemma addNode_leaves : forall g p g' m, addNode H fmtTS g p = (g', m) -> leaves g' = leaves g.
Proof.
  intros g p g' m E. unfold addNode in E.
  assert (En : forall g q, leaves (ensureTo g q) = leaves g).
  { intros. unfold ensureTo. destruct (to g0 q); reflexivity. }
  repeat match type of E with
  | context [match ?x with _ => _ end] => destruct x eqn:?
  end; injection E as <- <-; rewrite ?En; auto.
  unfold cloneConst in *. match goal with X : (_, _) = (_, _) |- _ => injection X as <- <- end. reflexivity.
Qed.
Lemma lookup_leaves : forall g id, leaves (fst (lookup g id)) = leaves g.
Proof.
  intros. unfold lookup. destruct (byID g id); auto.
  destruct (findID (idOf g) (all g) id 0) as [[]|]; auto.
Qed.
Lemma has_leaves : forall g p, leaves (fst (has g p)) = leaves g.
Proof.
  intros. unfold has. destruct (idOf g p); auto.
  pose proof (lookup_leaves g n). destruct (lookup g n). auto.
Qed.
Lemma setEdge_leaves : forall g a b g', setEdge H fmtTS g a b = Some g' -> leaves g' = leaves g.
Proof.
  intros g a b g' E. unfold setEdge in E. destruct (Nat.eqb a b); [discriminate|].
  pose proof (has_leaves g a) as L1. destruct (has g a) as [g1 hf]. cbn in L1.
  destruct (if hf then (g1, a) else addNode H fmtTS g1 a) as [g2 a'] eqn:E2.
  assert (L2 : leaves g2 = leaves g1).
  { destruct hf; [injection E2 as <- <-; auto|]. eapply addNode_leaves; eauto. }
  pose proof (has_leaves g2 b) as L3. destruct (has g2 b) as [g3 ht]. cbn in L3.
  destruct (if ht then (g3, b) else addNode H fmtTS g3 b) as [g4 b'] eqn:E4.
  assert (L4 : leaves g4 = leaves g3).
  { destruct ht; [injection E4 as <- <-; auto|]. eapply addNode_leaves; eauto. }
  injection E as <-. cbn. congruence.
Qed.
Lemma setEdges_leaves : forall cs g a g', setEdges H fmtTS g a cs = Some g' -> leaves g' = leaves g.
Proof.
  induction cs as [|c cs IH]; cbn; intros g a g' E; [injection E as <-; auto|].
  destruct (setEdge H fmtTS g a c) as [g1|] eqn:E1; [|discriminate].
  rewrite (IH _ _ _ E). eapply setEdge_leaves; eauto.
Qed.
Lemma fixChildren_leaves : forall cs g g' cs', fixChildren H fmtTS g cs = (g', cs') -> leaves g' = leaves g.
Proof.
  induction cs as [|c cs IH]; cbn; intros g g' cs' E; [injection E as <- <-; auto|].
  destruct (addNode H fmtTS g c) as [g1 c1] eqn:E1. destruct (fixChildren H fmtTS g1 cs) as [g2 r] eqn:E2.
  injection E as <- <-. rewrite (IH _ _ _ E2). eapply addNode_leaves; eauto.
Qed.
Lemma newUniqueNode_leaves : forall g l cs g' m, newUniqueNode H fmtTS g l cs = Some (g', m) ->
  leaves g' = leaves g \/ leaves g' = leaves g ++ [m].
Proof.
  intros g l cs g' m E. unfold newUniqueNode in E.
  destruct (fixChildren H fmtTS g cs) as [g1 cs'] eqn:E1. cbn [allocNode] in E.
  destruct (addNode H fmtTS _ _) as [g3 m3] eqn:E3.
  pose proof (fixChildren_leaves _ _ _ _ E1) as L1. pose proof (addNode_leaves _ _ _ _ E3) as L3.
  cbn [leaves] in L3.
  unfold fixEdges in E. destruct (getN g3 m3) as [n|]; [|discriminate].
  destruct (nchildren n) as [|c0 c1].
  - injection E as <- <-. right. cbn. congruence.
  - destruct (setEdges H fmtTS g3 m3 (c0 :: c1)) as [g4|] eqn:E4; [|discriminate].
    injection E as <- <-. left. rewrite (setEdges_leaves _ _ _ _ E4). congruence.
Qed.

Lemma rootsOf_in : forall g p, full H fmtTS g -> In p (rootsOf g) -> In p (all g).
Proof.
  intros g p [I T] Ip. unfold rootsOf in Ip. apply in_flat_map in Ip as [q [Iq Iq2]].
  destruct (to g q) as [tos|] eqn:Et; [|contradiction].
  apply in_app_iff in Iq2 as [Iq2|Iq2].
  - destruct tos; [destruct Iq2 as [<-|[]]; auto|contradiction].
  - unfold getN in Iq2. destruct (nth_error (heap g) q) as [n|] eqn:En; [|contradiction].
    destruct (stmt n); [|contradiction]. destruct (nchildren n) as [|c [|? ?]] eqn:Ec; try contradiction.
    destruct (to g c) as [[|? [|? ?]]|] eqn:Etc; try contradiction.
    destruct Iq2 as [<-|[]]. apply (i_tokey _ _ _ I). eauto.
Qed.

Lemma useStep_tidy : forall g u g' r, full H fmtTS g -> tidy g -> okUse g u ->
  useStep H fmtTS g u = Some (g', r) -> tidy g'.
Proof.
  intros g u g' r F [Tl Tr] Ok E.
  destruct (useStep_full _ _ _ _ _ _ F Ok E) as [F' G'].
  destruct u as [n|l cs|id| |id]; cbn [useStep] in E.
  - cbn in E. injection E as <- <-. split; auto.
  - destruct Ok as [U K].
    destruct (newUniqueNode_spec _ _ g l cs F U K) as (g1 & cs' & g3 & m & g4 & Sp).
    cbn zeta in Sp. destruct Sp as (_ & _ & _ & _ & _ & _ & _ & _ & _ & _ & _ & _ & En & _ & _ & _ & _ & Im & R).
    rewrite En in E. injection E as <- <-. split.
    + intros p Ip. destruct (newUniqueNode_leaves _ _ _ _ _ En) as [L|L]; rewrite L in Ip.
      * eauto using grows_in.
      * apply in_app_iff in Ip as [Ip|[<-|[]]]; eauto using grows_in.
    + intros r' p Er Ip. rewrite R in Er. eauto using grows_in.
  - destruct F as [I T]. destruct (lookup g id) as [g1 p] eqn:El. injection E as <- <-.
    destruct (lookup_spec _ _ _ _ _ _ I El) as (_ & b & -> & Hb). split; auto.
  - injection E as <- <-. unfold rootsCall in *. destruct (roots g) as [r|] eqn:Er; cbn [fst] in *.
    + split; auto. intros. eapply Tr; eauto. congruence.
    + split; [auto|]. red_g. intros r p E Ip. destruct (rootsOf g) as [|x y] eqn:Eo; [discriminate|].
      injection E as <-. apply rootsOf_in; auto. rewrite Eo. auto.
  - injection E as <- <-. unfold toCall in *. destruct F as [I T]. destruct (lookup g id) as [g1 q] eqn:El.
    destruct (lookup_spec _ _ _ _ _ _ I El) as (-> & b & -> & Hb).
    destruct (nth_error (all g) id); split; auto.
Qed.
Lemma built_tidy : forall g, built H fmtTS g -> tidy g.
Proof.
  intros g B. unfold built in B. remember (emptyGraph []) as e. induction B.
  - subst. split; [intros p []|intros r p E; discriminate].
  - eapply useStep_tidy; eauto. subst. eapply built_full. exact B.
Qed.

(** ** Clone *)
Lemma indexOf_spec : forall l p k, NoDup l -> forall i, nth_error l i = Some p -> indexOf l p k = Some (k + i).
Proof.
  induction l as [|q l IH]; intros p k N i E; [destruct i; discriminate|]. inversion N; subst.
  cbn. destruct i as [|i]; cbn in E.
  - injection E as ->. rewrite Nat.eqb_refl. f_equal. lia.
  - destruct (Nat.eqb q p) eqn:Eq.
    + apply Nat.eqb_eq in Eq. subst. apply nth_error_In in E. contradiction.
    + rewrite (IH p (S k) H3 i E). f_equal. lia.
Qed.
Lemma mapping_spec : forall g i p, Inv H fmtTS g -> nth_error (all g) i = Some p ->
  mapping g p = Some (List.length (heap g) + i).
Proof.
  intros g i p I E. unfold mapping. rewrite (indexOf_spec _ _ 0 (i_nodup _ _ g I) i E). reflexivity.
Qed.
Lemma mapO_total : forall {X Y} (f : X -> option Y) l, (forall x, In x l -> exists y, f x = Some y) ->
  exists ys, mapO f l = Some ys.
Proof.
  induction l as [|x l IH]; intros T; cbn; eauto.
  destruct (T x (or_introl eq_refl)) as [y ->]. destruct IH as [ys ->]; [intros; apply T; right; auto|eauto].
Qed.
Lemma mapO_nth : forall {X Y} (f : X -> option Y) l ys, mapO f l = Some ys ->
  List.length ys = List.length l /\
  forall i x, nth_error l i = Some x -> nth_error ys i = f x.
Proof.
  induction l as [|x l IH]; intros ys E; cbn in E.
  - injection E as <-. split; auto. intros [|i] x; discriminate.
  - destruct (f x) as [y|] eqn:Ef; [|discriminate]. destruct (mapO f l) as [zs|]; [|discriminate].
    injection E as <-. destruct (IH zs eq_refl) as [L N]. split; [cbn; lia|].
    intros [|i] z Ez; cbn in *; [congruence|auto].
Qed.
Lemma mapO_in : forall {X Y} (f : X -> option Y) l ys y, mapO f l = Some ys -> In y ys ->
  exists x, In x l /\ f x = Some y.
Proof.
  induction l as [|x l IH]; intros ys y E Iy; cbn in E.
  - injection E as <-. destruct Iy.
  - destruct (f x) as [z|] eqn:Ef; [|discriminate]. destruct (mapO f l) as [zs|]; [|discriminate].
    injection E as <-. destruct Iy as [<-|Iy]; [exists x; split; [left|]; auto|].
    destruct (IH zs y eq_refl Iy) as [u [Iu Eu]]. exists u. split; [right|]; auto.
Qed.
Lemma mapping_in : forall g p, Inv H fmtTS g -> In p (all g) -> exists q, mapping g p = Some q.
Proof. intros g p I Ip. apply In_nth_error in Ip as [i E]. eauto using mapping_spec. Qed.

Lemma clone_total : forall g, full H fmtTS g -> tidy g -> exists g', cloneGraph g = Some g'.
Proof.
  intros g F [Tl Tr]. pose proof F as [I T]. unfold cloneGraph.
  assert (M : forall l, (forall p, In p l -> In p (all g)) -> exists ys, mapO (mapping g) l = Some ys).
  { intros l Hl. apply mapO_total. intros x Ix. apply mapping_in; auto. }
  destruct (mapO_total (cloneNode g) (all g)) as [ns ->].
  { intros p Ip. unfold cloneNode, getN. pose proof (i_lt _ _ g I p Ip) as L.
    destruct (nth_error (heap g) p) as [n|] eqn:En; [|apply nth_error_None in En; lia].
    destruct (M (nchildren n)) as [cs ->]; eauto.
    intros c Ic. eapply before_in. apply (i_closed _ _ g I p); auto. exists n. auto. }
  destruct (M (all g)) as [ps ->]; auto. destruct (M (leaves g)) as [lv ->]; auto.
  destruct (M (constants g)) as [cs ->]; [intros p Ip; apply (i_const _ _ g I); auto|].
  destruct (M (match roots g with Some r => r | None => [] end)) as [rs ->]; eauto.
  intros p Ip. destruct (roots g) as [r|] eqn:Er; [eauto|destruct Ip].
Qed.

Lemma clone_spec : forall g g', full H fmtTS g -> cloneGraph g = Some g' ->
  List.length (all g') = List.length (all g) /\
  (forall i p, nth_error (all g) i = Some p ->
     let q := List.length (heap g) + i in
     nth_error (all g') i = Some q /\ idOf g' q = idOf g p /\ mapping g p = Some q /\
     exists n n', nth_error (heap g) p = Some n /\ nth_error (heap g') q = Some n' /\
       nkind n' = nkind n /\ nname n' = nname n /\ ntyp n' = ntyp n /\ nshape n' = nshape n /\
       nop n' = nop n /\ stmt n' = stmt n /\ mapO (mapping g) (nchildren n) = Some (nchildren n')) /\
  (forall p, p < List.length (heap g) -> nth_error (heap g') p = nth_error (heap g) p) /\
  (exists rs, mapO (mapping g) (match roots g with Some r => r | None => [] end) = Some rs /\ roots g' = Some rs).
Proof.
  intros g g' [I T] E. unfold cloneGraph in E.
  destruct (mapO (cloneNode g) (all g)) as [ns|] eqn:En; [|discriminate].
  destruct (mapO (mapping g) (all g)) as [ps|] eqn:Ep; [|discriminate].
  destruct (mapO (mapping g) (leaves g)) as [lv|] eqn:El; [|discriminate].
  destruct (mapO (mapping g) (constants g)) as [cs|] eqn:Ec; [|discriminate].
  destruct (mapO (mapping g) (match roots g with Some r => r | None => [] end)) as [rs|] eqn:Er; [|discriminate].
  injection E as <-. red_g.
  destruct (mapO_nth _ _ _ En) as [Ln Nn]. destruct (mapO_nth _ _ _ Ep) as [Lp Np].
  split; [auto|]. split; [|split; [|eauto]].
  - intros i p Ei. pose proof (mapping_spec g i p I Ei) as Mp.
    split; [rewrite (Np i p Ei); auto|]. split; [|split; [auto|]].
    + rewrite (proj2 (Nat.leb_le _ _)) by lia.
      replace (List.length (heap g) + i - List.length (heap g)) with i by lia. rewrite Ei. auto.
    + pose proof (Nn i p Ei) as Nni. unfold cloneNode, getN in Nni.
      pose proof (i_lt _ _ g I p (nth_error_In _ _ Ei)) as L.
      destruct (nth_error (heap g) p) as [n|] eqn:Enp; [|apply nth_error_None in Enp; lia].
      destruct (mapO (mapping g) (nchildren n)) as [c'|] eqn:Em.
      * exists n. eexists. split; [auto|]. split.
        -- rewrite nth_error_app2 by lia.
           replace (List.length (heap g) + i - List.length (heap g)) with i by lia. exact Nni.
        -- cbn. rewrite Em. repeat split.
      * apply nth_lt in Ei. apply nth_error_None in Nni. lia.
  - intros p L. apply nth_app_l. auto.
Qed.
End Rest.
