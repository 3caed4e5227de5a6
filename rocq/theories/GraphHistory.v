(** Proofs about histories of a graph, and about walking it. *)
From Coq Require Import Arith List Bool String Ascii Lia.
From Verif Require Import GraphModel GraphSpec GraphProofs.
Import ListNotations.
Open Scope list_scope.

Section Hist.
Variable H : string -> word.
Variable fmtTS : ntype -> list nat -> string.
Notation hashcode := (hashcode H fmtTS).
Notation full := (full H fmtTS).
Notation Inv := (Inv H fmtTS).

Lemma sameBut_hash : forall g g' p, sameBut g g' -> hashcode (heap g') p = hashcode (heap g) p.
Proof. intros g g' p (E & _). rewrite E. reflexivity. Qed.

Lemma rootsCall_full : forall g, full g -> full (fst (rootsCall g)) /\ grows g (fst (rootsCall g)) /\
  heap (fst (rootsCall g)) = heap g /\ all (fst (rootsCall g)) = all g.
Proof.
  intros g [I T]. unfold rootsCall. destruct (roots g) as [r|].
  - cbn. split; [split; auto|]. split; [apply grows_refl|]. auto.
  - cbn [fst]. split; [split|].
    + destruct I. constructor; auto.
    + exact T.
    + split; [|auto]. constructor; red_g; eauto; exists []; rewrite app_nil_r; auto.
Qed.

Lemma toCall_full : forall g id, full g -> full (fst (toCall g id)) /\ grows g (fst (toCall g id)) /\
  heap (fst (toCall g id)) = heap g /\ all (fst (toCall g id)) = all g.
Proof.
  intros g id [I T]. unfold toCall. destruct (lookup g id) as [g1 r] eqn:E.
  destruct (lookup_spec _ _ _ _ _ _ I E) as (-> & b & -> & Hb).
  destruct (withByID_inv _ _ g b _ I T Hb) as [I1 T1].
  destruct (nth_error (all g) id) as [p|] eqn:Ep; cbn [fst].
  - assert (Ip : In p (all g)) by eauto using nth_error_In.
    destruct (proj2 (i_tokey _ _ _ I p) Ip) as [l El].
    unfold parentsOf. cbn [to withByID]. rewrite El.
    split; [split|split; [|split]]; auto.
    + destruct I1 as [A1 A2 A3 A4 A5 A6 A7 A8 A9 A10 A11 A12 A13 A14 A15 A16].
      constructor; red_g; auto.
      * intros q. unfold updP. destruct (Nat.eqb q p) eqn:Eq; [|apply A9].
        apply Nat.eqb_eq in Eq. subst q. split; eauto.
      * intros q l' r. unfold updP. destruct (Nat.eqb q p) eqn:Eq; [|apply A10].
        apply Nat.eqb_eq in Eq. subst q. injection 1 as <-. unfold uniq. rewrite nodup_In.
        intros Ir. apply (A10 p l r); auto.
    + intros q c Iq _ C. red_g. destruct (T q c Iq Logic.I C) as [l' [El' Il']].
      unfold updP. destruct (Nat.eqb c p) eqn:Eq; [|eauto].
      apply Nat.eqb_eq in Eq. subst c. rewrite El in El'. injection El' as <-.
      eexists. split; [reflexivity|]. apply nodup_In. auto.
    + constructor; red_g; eauto; try (exists []; rewrite app_nil_r; auto).
      intros q l' El'. unfold updP. destruct (Nat.eqb q p) eqn:Eq; [|eauto].
      apply Nat.eqb_eq in Eq. subst q. rewrite El in El'. injection El' as <-.
      eexists. split; [reflexivity|]. intros r Ir. apply nodup_In. auto.
  - split; [split; auto|]. split; [|auto]. constructor; red_g; eauto; exists []; rewrite app_nil_r; auto.
Qed.

Lemma useStep_full : forall g u g' r, full g -> okUse g u -> useStep H fmtTS g u = Some (g', r) ->
  full g' /\ grows g g'.
Proof.
  intros g u g' r F Ok E. destruct u as [n|l cs|id| |id]; cbn [useStep] in E.
  - destruct Ok as [K C]. destruct (allocNode g n) as [g1 p] eqn:Ea. injection E as <- <-.
    assert (Fc : Forall (fun c => In c (all g)) (nchildren n)) by (rewrite C; constructor).
    destruct (allocNode_inv _ _ g n F Fc (fun _ => C)) as (F1 & G1 & _). rewrite Ea in F1, G1. auto.
  - destruct Ok as [U K].
    destruct (newUniqueNode_spec _ _ g l cs F U K) as (g1 & cs' & g3 & m & g4 & Sp).
    cbn zeta in Sp. destruct Sp as (_ & _ & _ & _ & _ & _ & _ & _ & _ & _ & _ & _ & En & F' & _ & _ & G' & _).
    rewrite En in E. injection E as <- <-. auto.
  - destruct (lookup g id) as [g1 p] eqn:El. injection E as <- <-. destruct F as [I T].
    destruct (lookup_spec _ _ _ _ _ _ I El) as (_ & b & -> & Hb).
    split; [apply withByID_inv; auto|]. constructor; red_g; eauto; exists []; rewrite app_nil_r; auto.
  - injection E as <- <-. destruct (rootsCall_full g F) as (? & ? & _). auto.
  - injection E as <- <-. destruct (toCall_full g id F) as (? & ? & _). auto.
Qed.

Lemma reaches_full : forall g g', reaches H fmtTS g g' -> full g -> full g' /\ grows g g'.
Proof.
  intros g g' R. induction R; intros F.
  - split; auto using grows_refl.
  - destruct (IHR F) as [F1 G1]. destruct (useStep_full _ _ _ _ F1 H0 H1) as [F2 G2].
    split; auto. eapply grows_trans; eauto.
Qed.
Lemma built_full : forall g, built H fmtTS g -> full g.
Proof. intros g B. eapply reaches_full; eauto. apply empty_inv. Qed.
Lemma reaches_trans : forall a b c, reaches H fmtTS a b -> reaches H fmtTS b c -> reaches H fmtTS a c.
Proof.
  intros a b c R1 R2. revert R1. induction R2; intros R1; auto.
  eapply reaches_step; [apply IHR2; exact R1|exact H0|exact H1].
Qed.

Lemma grows_hash : forall g g' p, Inv g -> grows g g' -> p < List.length (heap g) ->
  hashcode (heap g') p = hashcode (heap g) p.
Proof. intros g g' p I [[x E] _ _ _ _] L. rewrite E. apply hashcode_mono; auto. apply I. Qed.

Lemma uncollided_back : forall g g', grows g g' -> Inv g -> constantsUncollided g' -> constantsUncollided g.
Proof.
  intros g g' G I U p Ip C. assert (C' : In p (constants g')).
  { apply U; [eauto using grows_in|eauto using constantNode_grows]. }
  destruct (gr_const _ _ G) as [z [E D]]. rewrite E in C'.
  apply in_app_iff in C' as [?|Iz]; auto. exfalso. eapply D; eauto.
Qed.
Lemma settled_all : forall g cs, constantsUncollided g -> Forall (fun c => In c (all g)) cs ->
  Forall (settled g) cs.
Proof. intros g cs U F. eapply Forall_impl; [|exact F]. intros c Ic. split; auto. Qed.

(** ** What a non-constant addition returns *)
Definition keyBytes (h : list node) (l : label) (cs : list ptr) : string :=
  nodeBytes fmtTS (ofLabel l cs) (map (hashcode h) cs).

Lemma newUnique_result : forall g l cs g' m,
  full g -> Forall (settled g) cs -> (lkind l <> KOp -> cs = []) -> lkind l <> KConst ->
  newUniqueNode H fmtTS g l cs = Some (g', m) ->
  full g' /\ grows g g' /\ In m (all g') /\
  hashcode (heap g') m = H (keyBytes (heap g) l cs) /\
  (exists b, nth_error (heap g') m = Some b /\ nodeEqN H (ofLabel l cs) b = true) /\
  (exists p, nth_error (heap g') p = Some (ofLabel l cs) /\
             hashcode (heap g') p = H (keyBytes (heap g) l cs)) /\
  ((In m (all g) /\ all g' = all g) \/
   (all g' = all g ++ [m] /\ ~ In m (all g) /\ nth_error (heap g') m = Some (ofLabel l cs) /\
    forall q b, In q (all g) -> nth_error (heap g) q = Some b ->
      hashcode (heap g) q = H (keyBytes (heap g) l cs) -> nodeEqN H (ofLabel l cs) b = false)).
Proof.
  intros g l cs g' m F S K Nc E.
  assert (U : Forall (usable g) cs).
  { eapply Forall_impl; [|exact S]. intros c [Ic _]. left. auto. }
  destruct (newUniqueNode_spec _ _ g l cs F U K) as (g1 & cs' & g3 & m' & g4 & Sp).
  cbn zeta in Sp.
  destruct Sp as (Efc & F1 & G1 & A1 & L1 & F2 & G2 & En2 & Add & I3 & Im3 & G3 & En & F' & S4 & G4 & G' & Im & R').
  rewrite En in E. injection E as <- <-.
  rewrite (fixChildren_settled _ _ cs g F S) in Efc. injection Efc as <- <-.
  set (g2 := fst (allocNode g (ofLabel l cs))) in *. set (p := List.length (heap g)) in *.
  destruct F as [I T]. destruct F2 as [I2 T2].
  assert (Hcs : Forall (fun c => In c (all g)) cs).
  { eapply Forall_impl; [|exact S]. intros c []. auto. }
  assert (Hp : hashcode (heap g2) p = H (keyBytes (heap g) l cs)).
  { rewrite (hashcode_eq _ _ _ _ (ofLabel l cs)); [|apply I2|auto]. unfold keyBytes. cbn [nchildren ofLabel].
    f_equal. f_equal. apply map_ext_in. intros c Ic. rewrite Forall_forall in Hcs.
    apply hashcode_mono; [apply I|]. apply (i_lt _ _ g I). auto. }
  assert (Hg4 : forall q, hashcode (heap g4) q = hashcode (heap g3) q) by (intros; apply sameBut_hash; auto).
  destruct S4 as (S1 & S2 & _).
  assert (Lp : p < List.length (heap g2)) by (eapply nth_lt; eauto).
  assert (Lg : forall q, In q (all g) -> q < List.length (heap g)) by (apply (i_lt _ _ g I)).
  assert (Hg2 : forall q, In q (all g) -> hashcode (heap g2) q = hashcode (heap g) q).
  { intros q Iq. apply grows_hash; auto. }
  split; [auto|]. split; [auto|]. split; [auto|].
  assert (Ep4 : nth_error (heap g4) p = Some (ofLabel l cs)) by (rewrite S1; eauto using grows_nth).
  assert (Hp4 : hashcode (heap g4) p = H (keyBytes (heap g) l cs)).
  { rewrite Hg4, <- Hp. apply grows_hash; auto. }
  destruct Add as [k | E3 Imo Hh Heq|Nm A I' T' G En' Hh R Nall Hm].
  - cbn in k. contradiction.
  - subst g3. split; [rewrite Hg4, Hh; auto|].
    assert (Lm := i_lt _ _ g2 I2 m' Imo).
    destruct (nth_error (heap g2) m') as [b|] eqn:Eb; [|apply nth_error_None in Eb; lia].
    split; [exists b; rewrite S1; split; auto; rewrite <- Heq; symmetry; apply nodeEq_nodes; auto|].
    split; [exists p; auto|].
    left. split; [exact Imo|rewrite S2; reflexivity].
  - split; [rewrite Hg4, Hh; auto|].
    split; [exists (ofLabel l cs); rewrite S1; split; auto; apply nodeEqN_refl|].
    split; [exists p; auto|].
    right. split; [rewrite S2, A; reflexivity|]. split; [exact Nm|]. split; [rewrite S1; auto|].
    intros q b Iq Eb Hq.
    assert (X : nodeEq H (heap g2) p q = false).
    { apply Nall; [exact Iq|]. rewrite Hg2, Hq, Hp; auto. }
    rewrite <- X. symmetry. apply nodeEq_nodes; eauto using grows_nth.
Qed.

Lemma sameLabel_bytes : forall h l1 l2 cs, sameLabel l1 l2 -> keyBytes h l1 cs = keyBytes h l2 cs.
Proof.
  intros h l1 l2 cs (Et & Es & D). unfold keyBytes, nodeBytes, isInputN. cbn. rewrite Et, Es.
  destruct D as [(K1 & K2 & E)|(K1 & K2 & E)].
  - rewrite K1, K2, E. reflexivity.
  - destruct (lkind l1); try congruence; destruct (lkind l2); try congruence; rewrite E; reflexivity.
Qed.
Lemma sameLabel_nodeEqN : forall l1 l2 cs b, sameLabel l1 l2 ->
  nodeEqN H (ofLabel l1 cs) b = true -> nodeEqN H (ofLabel l2 cs) b = true.
Proof.
  intros l1 l2 cs b (Et & Es & D). rewrite !nodeEqN_spec. cbn.
  destruct D as [(K1 & K2 & E)|(K1 & K2 & E)]; intros [(A & B & C)|(A & B & C & L & Y & Z)];
    try congruence.
  - left. split; [congruence|]. split; congruence.
  - right. repeat split; try congruence.
Qed.

(** Adding again what was added before. *)
Lemma repeat_same : forall g l1 l2 cs g1 m g2, full g ->
  constantsUncollided g2 -> Forall (fun c => In c (all g)) cs ->
  (lkind l1 <> KOp -> cs = []) -> (lkind l2 <> KOp -> cs = []) ->
  lkind l1 <> KConst -> lkind l2 <> KConst -> sameLabel l1 l2 ->
  newUniqueNode H fmtTS g l1 cs = Some (g1, m) -> reaches H fmtTS g1 g2 ->
  exists g3, newUniqueNode H fmtTS g2 l2 cs = Some (g3, m) /\ all g3 = all g2.
Proof.
  intros g l1 l2 cs g1 m g2 F U Ics K1 K2 N1 N2 SL E R.
  assert (Ux : Forall (usable g) cs).
  { eapply Forall_impl; [|exact Ics]. intros c Ic. left. auto. }
  assert (X : full g1 /\ grows g g1).
  { destruct (newUniqueNode_spec _ _ g l1 cs F Ux K1) as (a1 & a2 & a3 & a4 & a5 & Sp). cbn zeta in Sp.
    destruct Sp as (_ & _ & _ & _ & _ & _ & _ & _ & _ & _ & _ & _ & En & F' & _ & _ & G' & _).
    rewrite En in E. injection E as <- <-. auto. }
  destruct X as [F1 G1].
  destruct (reaches_full _ _ R F1) as [F2 G2].
  assert (U0 : constantsUncollided g).
  { eapply uncollided_back; [eapply grows_trans; eauto|apply F|auto]. }
  destruct (newUnique_result g l1 cs g1 m F) as (_ & _ & Im & Hm & (b & Eb & Eq) & _ & _); auto using settled_all.
  assert (Ics2 : Forall (fun c => In c (all g2)) cs).
  { eapply Forall_impl; [|exact Ics]. intros c Ic. eauto using grows_in. }
  assert (S2 := settled_all g2 cs U Ics2).
  assert (Uy : Forall (usable g2) cs).
  { eapply Forall_impl; [|exact Ics2]. intros c Ic. left. auto. }
  destruct (newUniqueNode_spec _ _ g2 l2 cs F2 Uy K2) as (a1 & a2 & a3 & m2 & g3 & Sp). cbn zeta in Sp.
  destruct Sp as (_ & _ & _ & _ & _ & _ & _ & _ & _ & _ & _ & _ & En & _).
  exists g3. rewrite En.
  destruct (newUnique_result g2 l2 cs g3 m2 F2) as (F3 & G3 & Im2 & Hm2 & (b2 & Eb2 & Eq2) & _ & D); auto.
  assert (KB : keyBytes (heap g2) l2 cs = keyBytes (heap g) l1 cs).
  { rewrite <- (sameLabel_bytes _ l1 l2) by auto. unfold keyBytes. f_equal. apply map_ext_in.
    intros c Ic. rewrite Forall_forall in Ics. apply grows_hash; [apply F|eapply grows_trans; eauto|].
    apply (i_lt _ _ g (proj1 F)). auto. }
  assert (Im' : In m (all g2)) by eauto using grows_in.
  assert (Hm' : hashcode (heap g2) m = H (keyBytes (heap g2) l2 cs)).
  { rewrite KB, <- Hm. apply grows_hash; auto; [apply F1|]. apply (i_lt _ _ g1 (proj1 F1)). auto. }
  assert (Eb' : nth_error (heap g2) m = Some b) by eauto using grows_nth.
  assert (Eq' : nodeEqN H (ofLabel l2 cs) b = true) by (eapply sameLabel_nodeEqN; eauto).
  destruct D as [[Io Ea]|(Ea & No & _ & Nall)].
  - split; [|auto]. f_equal. f_equal. apply (table_unique H fmtTS g2); auto.
    + apply F2.
    + rewrite Hm', <- Hm2. symmetry. apply grows_hash; auto; [apply F2|]. apply (i_lt _ _ g2 (proj1 F2)). auto.
    + assert (Lm := i_lt _ _ g2 (proj1 F2) m2 Io).
      destruct (nth_error (heap g2) m2) as [b3|] eqn:Eb3; [|apply nth_error_None in Eb3; lia].
      rewrite (grows_nth _ _ _ _ G3 Eb3) in Eb2. injection Eb2 as ->.
      rewrite (nodeEq_nodes _ _ _ _ b2 b) by auto. apply nodeEqN_trans with (b := ofLabel l2 cs); auto using nodeEqN_sym.
  - rewrite (Nall m b Im' Eb' Hm') in Eq'. discriminate.
Qed.

(** Without collisions nodes of the graph with equal hash are the same. *)
Lemma noCollision_unique : forall g p q, Inv g -> noCollision H fmtTS g -> In p (all g) -> In q (all g) ->
  hashcode (heap g) p = hashcode (heap g) q -> p = q.
Proof.
  intros g p q I N Ip Iq E. apply (table_unique H fmtTS g); auto.
  assert (Lp := i_lt _ _ g I p Ip). assert (Lq := i_lt _ _ g I q Iq).
  destruct (nth_error (heap g) p) as [a|] eqn:Ea; [|apply nth_error_None in Ea; lia].
  destruct (nth_error (heap g) q) as [b|] eqn:Eb; [|apply nth_error_None in Eb; lia].
  rewrite (nodeEq_nodes _ _ _ _ a b) by auto.
  pose proof (N p q a b Ea Eb E) as W. unfold written in W. injection W as Wt Ws Wo Wc.
  apply nodeEqN_spec.
  assert (Lc : List.length (nchildren a) = List.length (nchildren b)).
  { apply (f_equal (@List.length word)) in Wc. rewrite !map_length in Wc. auto. }
  destruct (nkind a), (nkind b); try discriminate; injection Wo as Wo;
    solve [left; auto | right; repeat split; congruence].
Qed.
End Hist.
