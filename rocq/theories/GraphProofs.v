(** Proofs about the expression graph. *)
From Coq Require Import Arith List Bool String Ascii Lia.
From Verif Require Import GraphModel GraphSpec.
Import ListNotations.
Open Scope list_scope.

Lemma word_eqb_eq : forall a b, word_eqb a b = true <-> a = b.
Proof.
  intros [[[a0 a1] a2] a3] [[[b0 b1] b2] b3]. unfold word_eqb.
  rewrite !andb_true_iff, !Ascii.eqb_eq. split.
  - intros [[[? ?] ?] ?]. congruence.
  - intros E. injection E. auto.
Qed.
Lemma word_eqb_refl : forall a, word_eqb a a = true.
Proof. intros. apply word_eqb_eq. reflexivity. Qed.
Lemma word_eqb_neq : forall a b, word_eqb a b = false <-> a <> b.
Proof.
  intros. rewrite <- word_eqb_eq. destruct (word_eqb a b); split; congruence.
Qed.
Lemma le32_inj : forall a b, le32 a = le32 b -> a = b.
Proof.
  intros [[[a0 a1] a2] a3] [[[b0 b1] b2] b3] E. cbn in E. congruence.
Qed.
Lemma ntype_eqb_eq : forall a b, ntype_eqb a b = true <-> a = b.
Proof.
  intros [x|d x] [y|e y]; cbn; try (split; congruence).
  - rewrite Nat.eqb_eq. split; congruence.
  - rewrite andb_true_iff, !Nat.eqb_eq. split; [intros []|injection 1]; intros; subst; auto.
Qed.
Lemma shape_eqb_eq : forall a b, shape_eqb a b = true <-> a = b.
Proof.
  induction a as [|x a IH]; intros [|y b]; cbn; try (split; congruence).
  rewrite andb_true_iff, Nat.eqb_eq, IH. split; [intros []|injection 1]; intros; subst; auto.
Qed.

Lemma nth_app_l : forall {X} (l m : list X) i, i < List.length l -> nth_error (l ++ m) i = nth_error l i.
Proof. intros. apply nth_error_app1. auto. Qed.
Lemma nth_lt : forall {X} (l : list X) i x, nth_error l i = Some x -> i < List.length l.
Proof. intros. apply nth_error_Some. congruence. Qed.
Lemma nth_prefix : forall {X} (l m : list X) i x, nth_error l i = Some x -> nth_error (l ++ m) i = Some x.
Proof. intros. rewrite nth_app_l; eauto using nth_lt. Qed.

Ltac red_g := cbn [heap idOf all byID byHash evac to leaves constants roots counter fst snd] in *.

Section P.
Variable H : string -> word.
Variable fmtTS : ntype -> list nat -> string.
Notation hashF := (hashF H fmtTS).
Notation hashcode := (hashcode H fmtTS).
Notation addNode := (addNode H fmtTS).

(** ** Hash codes do not depend on later heap contents. *)
Lemma hashF_mono : forall h x, ordered_heap h ->
  forall p f1 f2, p < List.length h -> p < f1 -> p < f2 -> hashF f1 (h ++ x) p = hashF f2 h p.
Proof.
  intros h x O p. induction p as [p IH] using (well_founded_induction lt_wf).
  intros f1 f2 L F1 F2. destruct f1 as [|f1]; [lia|]. destruct f2 as [|f2]; [lia|].
  cbn [GraphModel.hashF]. rewrite nth_app_l by auto.
  destruct (nth_error h p) as [n|] eqn:E; [|reflexivity].
  f_equal. f_equal.
  apply map_ext_in. intros c Ic. specialize (O _ _ E). rewrite Forall_forall in O.
  specialize (O _ Ic). apply IH; lia.
Qed.
Lemma hashcode_mono : forall h x p, ordered_heap h -> p < List.length h ->
  hashcode (h ++ x) p = hashcode h p.
Proof. intros. apply hashF_mono; auto. Qed.
Lemma hashcode_eq : forall h p n, ordered_heap h -> nth_error h p = Some n ->
  hashcode h p = H (nodeBytes fmtTS n (map (hashcode h) (nchildren n))).
Proof.
  intros h p n O E. unfold GraphModel.hashcode. cbn [GraphModel.hashF]. rewrite E.
  f_equal. f_equal. apply map_ext_in. intros c Ic.
  pose proof (O _ _ E) as F. rewrite Forall_forall in F. specialize (F _ Ic).
  apply nth_lt in E.
  transitivity (hashF (S c) (h ++ []) c).
  - rewrite app_nil_r. rewrite <- (app_nil_r h) at 1. apply hashF_mono; auto; lia.
  - rewrite app_nil_r. reflexivity.
Qed.

(** ** nodeEq *)
Lemma nodeEqN_spec : forall a b, nodeEqN H a b = true <->
  (nkind a = KInput /\ nkind b = KInput /\ nname a = nname b) \/
  (nkind a <> KInput /\ nkind b <> KInput /\ H (nop a) = H (nop b) /\
   List.length (nchildren a) = List.length (nchildren b) /\
   ntyp a = ntyp b /\ nshape a = nshape b).
Proof.
  intros a b. unfold nodeEqN, isInputN.
  destruct (nkind a), (nkind b);
    try (rewrite String.eqb_eq; intuition congruence);
    try (split; [congruence|intuition congruence]).
  all: destruct (word_eqb (H (nop a)) (H (nop b))) eqn:E1; cbn [negb];
    [apply word_eqb_eq in E1|apply word_eqb_neq in E1; intuition congruence].
  all: destruct (Nat.eqb (List.length (nchildren a)) (List.length (nchildren b))) eqn:E2; cbn [negb];
    [apply Nat.eqb_eq in E2|apply Nat.eqb_neq in E2; intuition congruence].
  all: destruct (ntype_eqb (ntyp a) (ntyp b)) eqn:E3; cbn [negb];
    [apply ntype_eqb_eq in E3|
     split; [congruence|intros [?|(_&_&_&_&E&_)]; [intuition congruence|]; apply ntype_eqb_eq in E; congruence]].
  all: rewrite shape_eqb_eq; intuition congruence.
Qed.
Lemma nodeEqN_sym : forall a b, nodeEqN H a b = true -> nodeEqN H b a = true.
Proof. intros a b. rewrite !nodeEqN_spec. intuition congruence. Qed.
Lemma nodeEqN_trans : forall a b c, nodeEqN H a b = true -> nodeEqN H b c = true -> nodeEqN H a c = true.
Proof. intros a b c. rewrite !nodeEqN_spec. intuition congruence. Qed.
Lemma nodeEqN_refl : forall a, nodeEqN H a a = true.
Proof. intros a. rewrite nodeEqN_spec. destruct (nkind a) eqn:E; [left|right|right]; intuition congruence. Qed.
Lemma nodeEq_nodes : forall h p q a b, nth_error h p = Some a -> nth_error h q = Some b ->
  nodeEq H h p q = nodeEqN H a b.
Proof.
  intros. unfold nodeEq. destruct (Nat.eqb p q) eqn:E.
  - apply Nat.eqb_eq in E. subst. rewrite H0 in H1. injection H1 as <-. symmetry. apply nodeEqN_refl.
  - rewrite H0, H1. reflexivity.
Qed.
Lemma nodeEq_mono : forall h x p q, p < List.length h -> q < List.length h ->
  nodeEq H (h ++ x) p q = nodeEq H h p q.
Proof. intros. unfold nodeEq. rewrite !nth_app_l by auto. reflexivity. Qed.
Lemma nodeEq_refl : forall h p, nodeEq H h p p = true.
Proof. intros. unfold nodeEq. rewrite Nat.eqb_refl. reflexivity. Qed.

(** ** The invariant *)
Record Inv (g : graph) : Prop := mkInv {
  i_heap : ordered_heap (heap g);
  i_leaf : forall p n, nth_error (heap g) p = Some n -> nkind n <> KOp -> nchildren n = [];
  i_lt : forall p, In p (all g) -> p < List.length (heap g);
  i_nodup : NoDup (all g);
  i_id : forall p i, idOf g p = Some i <-> nth_error (all g) i = Some p;
  i_counter : counter g = List.length (all g);
  i_byid : forall i j, byID g i = Some j -> j = i /\ i < List.length (all g);
  i_closed : forall p c, In p (all g) -> child g p c -> before (all g) c p;
  i_tokey : forall p, (exists l, to g p = Some l) <-> In p (all g);
  i_to : forall p l q, to g p = Some l -> In q l -> In q (all g) /\ child g q p;
  i_table : forall p, In p (all g) ->
    byHash g (hashcode (heap g) p) = Some (Some p) \/
    (byHash g (hashcode (heap g) p) = Some None /\ In p (evac g (hashcode (heap g) p)));
  i_hash1 : forall w p, byHash g w = Some (Some p) -> In p (all g) /\ hashcode (heap g) p = w;
  i_evac : forall w p, byHash g w = Some None -> In p (evac g w) ->
    In p (all g) /\ hashcode (heap g) p = w;
  i_pairs : forall w, byHash g w = Some None ->
    ForallOrdPairs (fun a b => nodeEq H (heap g) b a = false) (evac g w);
  i_const : forall c, In c (constants g) -> In c (all g) /\ constantNode g c;
  i_names : forall c d a b, In c (constants g) -> In d (constants g) ->
    nth_error (heap g) c = Some a -> nth_error (heap g) d = Some b -> nname a = nname b -> c = d
}.
(** Every node's children know it, for the nodes in [P]. *)
Definition toComplete (g : graph) (P : ptr -> Prop) : Prop :=
  forall q c, In q (all g) -> P q -> child g q c -> exists l, to g c = Some l /\ In q l.
Definition full (g : graph) : Prop := Inv g /\ toComplete g (fun _ => True).

Lemma empty_inv : full (emptyGraph []).
Proof.
  split.
  - constructor; cbn; try (intros; contradiction); try discriminate; auto using NoDup_nil.
    + intros p n E. destruct p; discriminate.
    + intros p n E. destruct p; discriminate.
    + intros p i. split; [discriminate|destruct i; discriminate].
    + intros p. split; [intros [l E]; discriminate|contradiction].
  - intros q c [].
Qed.

(** How graphs grow. *)
Record grows (g g' : graph) : Prop := mkGrows {
  gr_heap : exists x, heap g' = heap g ++ x;
  gr_all : exists y, all g' = all g ++ y;
  gr_to : forall p l, to g p = Some l -> exists l', to g' p = Some l' /\ (forall q, In q l -> In q l');
  gr_const : exists z, constants g' = constants g ++ z /\ forall c, In c z -> ~ In c (all g);
  gr_mark : forall w, byHash g w = Some None -> byHash g' w = Some None
}.
Lemma grows_refl : forall g, grows g g.
Proof. intros. constructor; try (exists []; rewrite app_nil_r; split; auto); try (exists []; rewrite app_nil_r; auto); eauto. Qed.
Lemma grows_trans : forall a b c, grows a b -> grows b c -> grows a c.
Proof.
  intros a b c [[x1 H1] [y1 A1] T1 [z1 [C1 D1]] M1] [[x2 H2] [y2 A2] T2 [z2 [C2 D2]] M2]. constructor.
  - exists (x1 ++ x2). rewrite H2, H1, app_assoc. auto.
  - exists (y1 ++ y2). rewrite A2, A1, app_assoc. auto.
  - intros p l E. destruct (T1 _ _ E) as [l1 [E1 I1]]. destruct (T2 _ _ E1) as [l2 [E2 I2]]. eauto.
  - exists (z1 ++ z2). rewrite C2, C1, app_assoc. split; auto. intros q Iq.
    apply in_app_iff in Iq as [Iq|Iq]; auto. intros Ia. apply (D2 q Iq). rewrite A1. apply in_app_iff. auto.
  - auto.
Qed.
Lemma grows_nth : forall g g' p n, grows g g' -> nth_error (heap g) p = Some n -> nth_error (heap g') p = Some n.
Proof. intros g g' p n [[x E] _ _ _ _] Hn. rewrite E. auto using nth_prefix. Qed.
Lemma grows_in : forall g g' p, grows g g' -> In p (all g) -> In p (all g').
Proof. intros g g' p [_ [y E] _ _ _] Hn. rewrite E, in_app_iff. auto. Qed.
Lemma child_grows : forall g g' p c, grows g g' -> child g p c -> child g' p c.
Proof. intros g g' p c G [n [E I]]. exists n. eauto using grows_nth. Qed.
Lemma constantNode_grows : forall g g' p, grows g g' -> constantNode g p -> constantNode g' p.
Proof. intros g g' p G [n [E I]]. exists n. eauto using grows_nth. Qed.
Lemma usable_grows : forall g g' p, grows g g' -> usable g p -> usable g' p.
Proof. intros g g' p G [I|C]; [left|right]; eauto using grows_in, constantNode_grows. Qed.

Lemma child_app : forall g p c h' , p < List.length (heap g) ->
  (exists n, nth_error (heap g ++ h') p = Some n /\ In c (nchildren n)) <-> child g p c.
Proof. intros. unfold child. rewrite nth_app_l by auto. reflexivity. Qed.

Lemma before_app : forall l x p q, before l p q -> before (l ++ x) p q.
Proof. intros l x p q (i & j & L & A & B). exists i, j. eauto using nth_prefix. Qed.
Lemma before_last : forall l p q, In p l -> before (l ++ [q]) p q.
Proof.
  intros l p q I. apply In_nth_error in I as [i E]. exists i, (List.length l).
  split; [eauto using nth_lt|]. split; [auto using nth_prefix|].
  rewrite nth_error_app2, Nat.sub_diag by lia. reflexivity.
Qed.

(** The simple state changes keep the invariant. *)
Lemma allocNode_inv : forall g n, full g ->
  Forall (fun c => In c (all g)) (nchildren n) -> (nkind n <> KOp -> nchildren n = []) ->
  let g' := fst (allocNode g n) in
  full g' /\ grows g g' /\ nth_error (heap g') (List.length (heap g)) = Some n /\
  all g' = all g.
Proof.
  intros g n [I T] Hc Hl g'. subst g'. cbn [allocNode fst].
  rewrite Forall_forall in Hc.
  assert (O : ordered_heap (heap g ++ [n])).
  { intros p m E. destruct (lt_dec p (List.length (heap g))) as [L|L].
    - rewrite nth_app_l in E by auto. apply (i_heap g I _ _ E).
    - rewrite nth_error_app2 in E by lia. destruct (p - List.length (heap g)) as [|k] eqn:D.
      + injection E as <-. apply Forall_forall. intros c Ic. apply Hc in Ic.
        apply (i_lt g I) in Ic. lia.
      + destruct k; discriminate. }
  assert (HC : forall p, In p (all g) -> hashcode (heap g ++ [n]) p = hashcode (heap g) p).
  { intros p Ip. apply hashcode_mono; [apply I|apply (i_lt g I); auto]. }
  assert (CH : forall p c, In p (all g) ->
            ((exists m, nth_error (heap g ++ [n]) p = Some m /\ In c (nchildren m)) <-> child g p c)).
  { intros. apply child_app. apply (i_lt g I). auto. }
  assert (I' : Inv (mkGraph (heap g ++ [n]) (idOf g) (all g) (byID g) (byHash g) (evac g) (to g)
                     (leaves g) (constants g) (roots g) (counter g))).
  { constructor; red_g.
    - auto.
    - intros p m E Hk. destruct (lt_dec p (List.length (heap g))) as [L|L].
      + rewrite nth_app_l in E by auto. apply (i_leaf g I _ _ E Hk).
      + rewrite nth_error_app2 in E by lia. destruct (p - List.length (heap g)) as [|k] eqn:D.
        * injection E as <-. auto.
        * destruct k; discriminate.
    - intros p Ip. rewrite app_length. apply (i_lt g I) in Ip. lia.
    - apply I.
    - apply (i_id g I).
    - apply I.
    - apply (i_byid g I).
    - intros p c Ip C. apply (i_closed g I); auto. apply CH; auto.
    - apply (i_tokey g I).
    - intros p l q E Iq. destruct (i_to g I _ _ _ E Iq) as [A B]. split; auto. apply CH; auto.
    - intros p Ip. rewrite HC by auto. apply (i_table g I). auto.
    - intros w p E. destruct (i_hash1 g I _ _ E) as [A B]. rewrite HC; auto.
    - intros w p E Ip. destruct (i_evac g I _ _ E Ip) as [A B]. rewrite HC; auto.
    - intros w E. pose proof (i_pairs g I _ E) as F.
      pose proof (fun p => i_evac g I w p E) as EV.
      induction F as [|a l Fa F IH]; constructor.
      + apply Forall_forall. intros b Ib. rewrite Forall_forall in Fa. rewrite nodeEq_mono; auto.
        * apply (i_lt g I). apply EV. right. auto.
        * apply (i_lt g I). apply EV. left. auto.
      + apply IH. intros p Ip. apply EV. right. auto.
    - intros c Ic. destruct (i_const g I _ Ic) as [A [m [B C]]]. split; auto.
      exists m. cbn. split; auto using nth_prefix.
    - intros c d a b Ic Id Ea Eb En.
      destruct (i_const g I _ Ic) as [Ac _]. destruct (i_const g I _ Id) as [Ad _].
      rewrite nth_app_l in Ea by (apply (i_lt g I); auto).
      rewrite nth_app_l in Eb by (apply (i_lt g I); auto). eapply (i_names g I); eauto. }
  split; [split; [exact I'|]|split; [|split]].
  - intros q c Iq _ C. cbn in *. apply T; auto. apply CH; auto.
  - constructor; cbn; eauto; exists []; rewrite app_nil_r; auto.
  - cbn. rewrite nth_error_app2, Nat.sub_diag by lia. reflexivity.
  - reflexivity.
Qed.

Definition oldOnly (p : ptr) (q : ptr) : Prop := q <> p.

Lemma insert_inv : forall g p n bh ev cs,
  full g -> nth_error (heap g) p = Some n -> ~ In p (all g) ->
  Forall (fun c => In c (all g)) (nchildren n) ->
  let w := hashcode (heap g) p in
  (forall w', w' <> w -> bh w' = byHash g w' /\ ev w' = evac g w') ->
  ((byHash g w = None /\ bh w = Some (Some p)) \/
   (byHash g w <> None /\ bh w = Some None /\ In p (ev w) /\
    (forall q, In q (all g) -> hashcode (heap g) q = w -> In q (ev w)) /\
    (forall q, In q (ev w) -> q = p \/ (In q (all g) /\ hashcode (heap g) q = w)) /\
    ForallOrdPairs (fun a b => nodeEq H (heap g) b a = false) (ev w))) ->
  (cs = constants g \/
   (cs = constants g ++ [p] /\ nkind n = KConst /\
    forall c m, In c (constants g) -> nth_error (heap g) c = Some m -> nname m <> nname n)) ->
  let g' := mkGraph (heap g) (updP (idOf g) p (Some (counter g))) (all g ++ [p]) (byID g) bh ev
              (updP (to g) p (Some [])) (leaves g) cs (roots g) (S (counter g)) in
  Inv g' /\ toComplete g' (oldOnly p) /\ grows g g'.
Proof.
  intros g p n bh ev cs [I T] En Np Hc w Hother Hw Hcs g'.
  rewrite Forall_forall in Hc.
  assert (Nid : idOf g p = None).
  { destruct (idOf g p) as [i|] eqn:E; auto. apply (i_id g I) in E. apply nth_error_In in E. contradiction. }
  assert (Nto : to g p = None).
  { destruct (to g p) as [l|] eqn:E; auto. exfalso. apply Np. apply (i_tokey g I). eauto. }
  assert (Hself : ~ child g p p).
  { intros [m [E Im]]. rewrite En in E. injection E as <-. apply Np. auto. }
  assert (Ilast : nth_error (all g ++ [p]) (List.length (all g)) = Some p).
  { rewrite nth_error_app2, Nat.sub_diag by lia. reflexivity. }
  assert (tab : forall q, In q (all g) -> byHash g (hashcode (heap g) q) <> None).
  { intros q Iq. destruct (i_table g I q Iq) as [E|[E _]]; rewrite E; discriminate. }
  assert (I' : Inv g').
  { subst g'. constructor; red_g.
    - apply I.
    - apply (i_leaf g I).
    - intros q Iq. apply in_app_iff in Iq as [Iq|[<-|[]]]; [apply (i_lt g I); auto|eauto using nth_lt].
    - rewrite <- (rev_involutive (all g ++ [p])). apply NoDup_rev. rewrite rev_app_distr. cbn.
      constructor; [rewrite <- in_rev; auto|apply NoDup_rev, I].
    - intros q i. unfold updP. destruct (Nat.eqb q p) eqn:E.
      + apply Nat.eqb_eq in E. subst q. rewrite (i_counter g I). split.
        * injection 1 as <-. auto.
        * intros Ei. destruct (lt_dec i (List.length (all g))) as [L|L].
          -- rewrite nth_app_l in Ei by auto. apply nth_error_In in Ei. contradiction.
          -- apply nth_lt in Ei. rewrite app_length in Ei. cbn in Ei. f_equal. lia.
      + apply Nat.eqb_neq in E. rewrite (i_id g I). split; [auto using nth_prefix|].
        intros Ei. destruct (lt_dec i (List.length (all g))) as [L|L].
        * rewrite nth_app_l in Ei by auto. auto.
        * pose proof (nth_lt _ _ _ Ei) as L'. rewrite app_length in L'. cbn in L'.
          replace i with (List.length (all g)) in Ei by lia. congruence.
    - rewrite app_length. cbn. rewrite (i_counter g I). lia.
    - intros i j E. apply (i_byid g I) in E. rewrite app_length. lia.
    - intros q c Iq C. apply in_app_iff in Iq as [Iq|[<-|[]]].
      + apply before_app. apply (i_closed g I); auto.
      + apply before_last. destruct C as [m [E Im]]. red_g. rewrite En in E. injection E as <-. auto.
    - intros q. unfold updP. destruct (Nat.eqb q p) eqn:E.
      + apply Nat.eqb_eq in E. subst q. rewrite in_app_iff. cbn. split; eauto.
      + apply Nat.eqb_neq in E. rewrite (i_tokey g I), in_app_iff. cbn. split; auto.
        intros [?|[->|[]]]; auto; congruence.
    - intros q l r. unfold updP. destruct (Nat.eqb q p) eqn:E.
      + injection 1 as <-. intros [].
      + intros El Ir. destruct (i_to g I _ _ _ El Ir) as [A B]. split; [apply in_app_iff; auto|exact B].
    - intros q Iq. destruct (word_eqb (hashcode (heap g) q) w) eqn:E.
      + apply word_eqb_eq in E. rewrite E.
        apply in_app_iff in Iq as [Iq|[<-|[]]].
        * destruct Hw as [[B1 B2]|(B0 & B1 & B2 & B3 & B4 & B5)].
          -- exfalso. apply (tab q Iq). rewrite E. exact B1.
          -- right. auto.
        * destruct Hw as [[B1 B2]|(B0 & B1 & B2 & B3 & B4 & B5)]; auto.
      + apply word_eqb_neq in E. destruct (Hother _ E) as [-> ->].
        apply in_app_iff in Iq as [Iq|[<-|[]]]; [|exfalso; apply E; reflexivity]. apply (i_table g I). auto.
    - intros w' q E. destruct (word_eqb w' w) eqn:Ew.
      + apply word_eqb_eq in Ew. subst w'. destruct Hw as [[B1 B2]|(B0 & B1 & _)]; [|congruence].
        rewrite B2 in E. injection E as <-. split; [apply in_app_iff; cbn; auto|reflexivity].
      + apply word_eqb_neq in Ew. destruct (Hother _ Ew) as [E1 _]. rewrite E1 in E.
        apply (i_hash1 g I) in E as [A B]. split; auto. apply in_app_iff. auto.
    - intros w' q E Iq. destruct (word_eqb w' w) eqn:Ew.
      + apply word_eqb_eq in Ew. subst w'. destruct Hw as [[B1 B2]|(B0 & B1 & B2 & B3 & B4 & B5)]; [congruence|].
        destruct (B4 _ Iq) as [->|[A B]]; (split; [apply in_app_iff; cbn; auto|auto]).
      + apply word_eqb_neq in Ew. destruct (Hother _ Ew) as [E1 E2]. rewrite E1 in E. rewrite E2 in Iq.
        destruct (i_evac g I _ _ E Iq) as [A B]. split; auto. apply in_app_iff. auto.
    - intros w' E. destruct (word_eqb w' w) eqn:Ew.
      + apply word_eqb_eq in Ew. subst w'. destruct Hw as [[B1 B2]|(B0 & B1 & B2 & B3 & B4 & B5)]; [congruence|]. auto.
      + apply word_eqb_neq in Ew. destruct (Hother _ Ew) as [E1 E2]. rewrite E1 in E. rewrite E2.
        apply (i_pairs g I). auto.
    - intros c Ic. destruct Hcs as [->|(-> & K & F)].
      + destruct (i_const g I _ Ic). split; auto. apply in_app_iff. auto.
      + apply in_app_iff in Ic as [Ic|[<-|[]]].
        * destruct (i_const g I _ Ic). split; auto. apply in_app_iff. auto.
        * split; [apply in_app_iff; cbn; auto|]. exists n. auto.
    - intros c d a b Ic Id Ea Eb Enm. destruct Hcs as [->|(-> & K & F)].
      + eapply (i_names g I); eauto.
      + apply in_app_iff in Ic as [Ic|[<-|[]]]; apply in_app_iff in Id as [Id|[<-|[]]]; auto.
        * eapply (i_names g I); eauto.
        * rewrite En in Eb. injection Eb as <-. destruct (F c a); auto.
        * rewrite En in Ea. injection Ea as <-. destruct (F d b); auto. }
  split; [exact I'|]. split.
  - intros q c Iq Hq C. subst g'. red_g. unfold oldOnly in Hq.
    apply in_app_iff in Iq as [Iq|[<-|[]]]; [|congruence].
    destruct (T q c Iq Logic.I C) as [l [El Il]]. exists l. unfold updP.
    destruct (Nat.eqb c p) eqn:E; [|auto]. apply Nat.eqb_eq in E. subst c. congruence.
  - subst g'. constructor; red_g.
    + exists []. rewrite app_nil_r. auto.
    + eauto.
    + intros q l El. exists l. split; auto. unfold updP.
      destruct (Nat.eqb q p) eqn:E; [|auto]. apply Nat.eqb_eq in E. subst q. congruence.
    + destruct Hcs as [->|(-> & _)]; [exists []; rewrite app_nil_r; auto|].
      exists [p]. split; auto. intros c [<-|[]]. auto.
    + intros w' E. destruct (word_eqb w' w) eqn:Ew.
      * apply word_eqb_eq in Ew. subst w'. destruct Hw as [[B1 B2]|(B0 & B1 & _)]; congruence.
      * apply word_eqb_neq in Ew. destruct (Hother _ Ew) as [E1 _]. congruence.
Qed.

Lemma findConst_some : forall h cs nm c, findConst h cs nm = Some c ->
  In c cs /\ exists n, nth_error h c = Some n /\ nname n = nm.
Proof.
  induction cs as [|a cs IH]; cbn; intros nm c E; [discriminate|].
  destruct (nth_error h a) as [n|] eqn:En.
  - destruct (String.eqb (nname n) nm) eqn:Em.
    + injection E as <-. apply String.eqb_eq in Em. split; [auto|eauto].
    + apply IH in E as [? ?]; split; auto.
  - apply IH in E as [? ?]; split; auto.
Qed.
Lemma findConst_none : forall h cs nm, findConst h cs nm = None ->
  forall c m, In c cs -> nth_error h c = Some m -> nname m <> nm.
Proof.
  induction cs as [|a cs IH]; cbn; intros nm E c m Ic Em; [contradiction|].
  destruct Ic as [->|Ic].
  - rewrite Em in E. destruct (String.eqb (nname m) nm) eqn:Eq; [discriminate|].
    apply String.eqb_neq in Eq. auto.
  - destruct (nth_error h a) as [n|]; [destruct (String.eqb (nname n) nm); [discriminate|]|];
      eapply IH; eauto.
Qed.
Lemma findEvac_some : forall h es p e, findEvac H h es p = Some e -> In e es /\ nodeEq H h p e = true.
Proof.
  induction es as [|a es IH]; cbn; intros p e E; [discriminate|].
  destruct (nodeEq H h p a) eqn:En; [injection E as <-; auto|]. apply IH in E as []; auto.
Qed.
Lemma findEvac_none : forall h es p, findEvac H h es p = None ->
  forall e, In e es -> nodeEq H h p e = false.
Proof.
  induction es as [|a es IH]; cbn; intros p E e Ie; [contradiction|].
  destruct (nodeEq H h p a) eqn:En; [discriminate|]. destruct Ie as [<-|Ie]; auto.
Qed.
Lemma ensureTo_key : forall g p l, to g p = Some l -> ensureTo g p = g.
Proof. intros. unfold ensureTo. rewrite H0. reflexivity. Qed.

Lemma FOP_snoc : forall {X} (R : X -> X -> Prop) l x,
  ForallOrdPairs R l -> Forall (fun a => R a x) l -> ForallOrdPairs R (l ++ [x]).
Proof.
  intros X R l x F. induction F as [|a l Fa F IH]; intros G; cbn.
  - repeat constructor.
  - inversion G; subst. constructor; auto. apply Forall_app. split; auto.
Qed.

(** What AddNode may do. *)
Inductive added (g : graph) (p : ptr) (n : node) (g' : graph) (m : ptr) : Prop :=
| added_const : nkind n = KConst -> g' = g -> In m (constants g) ->
    (exists b, nth_error (heap g) m = Some b /\ nname b = nname n) -> added g p n g' m
| added_old : g' = g -> In m (all g) ->
    hashcode (heap g) m = hashcode (heap g) p -> nodeEq H (heap g) p m = true ->
    added g p n g' m
| added_new : ~ In m (all g) -> all g' = all g ++ [m] -> Inv g' -> toComplete g' (oldOnly m) ->
    grows g g' -> nth_error (heap g') m = Some n ->
    hashcode (heap g') m = hashcode (heap g) p -> roots g' = roots g ->
    (forall q, In q (all g) -> hashcode (heap g) q = hashcode (heap g) p ->
       nodeEq H (heap g) p q = false) ->
    (m = p /\ heap g' = heap g \/
     nkind n = KConst /\ m = List.length (heap g) /\ heap g' = heap g ++ [n] /\
     constants g' = constants g ++ [m] /\
     byHash g (hashcode (heap g) p) = None) ->
    added g p n g' m.

Lemma addNode_added : forall g p n g' m, full g -> nth_error (heap g) p = Some n ->
  Forall (fun c => In c (all g)) (nchildren n) ->
  addNode g p = (g', m) -> added g p n g' m.
Proof.
  intros g p n g' m F En Hc E. destruct F as [I T] eqn:EF. clear EF.
  unfold GraphModel.addNode in E. unfold getN in E. rewrite En in E.
  assert (K : forall c, In c (all g) -> ensureTo g c = g).
  { intros c Ic. apply (i_tokey g I) in Ic as [l El]. eauto using ensureTo_key. }
  destruct (if isConstN n then findConst (heap g) (constants g) (nname n) else None) as [c|] eqn:Ec.
  { injection E as <- <-. unfold isConstN in Ec. destruct (nkind n) eqn:Kn; try discriminate.
    apply findConst_some in Ec as (A & b & B1 & B2).
    apply added_const; eauto. apply K. apply (i_const g I). auto. }
  set (w := hashcode (heap g) p) in *.
  assert (hashin : forall q, In q (all g) -> hashcode (heap g) q = w -> byHash g w = Some (Some q) \/
            (byHash g w = Some None /\ In q (evac g w))).
  { intros q Iq Eq. rewrite <- Eq. apply (i_table g I). auto. }
  destruct (byHash g w) as [[e|]|] eqn:Eh.
  - destruct (i_hash1 g I _ _ Eh) as [Ie He].
    destruct (nodeEq H (heap g) p e) eqn:Eq.
    + injection E as <- <-. apply added_old; auto.
    + assert (Np : ~ In p (all g)).
      { intros Ip. destruct (hashin p Ip eq_refl) as [E1|[E1 _]]; [|congruence].
        injection E1 as ->. rewrite nodeEq_refl in Eq. discriminate. }
      assert (Nto : to g p = None).
      { destruct (to g p) as [l|] eqn:El; auto. exfalso. apply Np. apply (i_tokey g I). eauto. }
      injection E as <- <-. unfold ensureTo, addToAll, setHash, setEvac. red_g. rewrite Nto.
      destruct (insert_inv g p n (updW (byHash g) w (Some None)) (updW (evac g) w [e; p]) (constants g) F En Np Hc)
        as (I' & T' & G').
      * intros w' Nw. unfold updW. rewrite (proj2 (word_eqb_neq _ _)) by auto. auto.
      * right. unfold updW. fold w. rewrite word_eqb_refl. split; [congruence|]. split; [auto|].
        split; [cbn; auto|]. split; [|split].
        -- intros q Iq Hq. destruct (hashin q Iq Hq) as [E1|[E1 _]]; [|congruence].
           injection E1 as ->. cbn. auto.
        -- intros q [<-|[<-|[]]]; auto.
        -- constructor; [constructor; auto|]. constructor; constructor.
      * auto.
      * red_g. apply added_new; red_g; auto.
        intros q Iq Hq. destruct (hashin q Iq Hq) as [E1|[E1 _]]; [|congruence].
        injection E1 as ->. auto.
  - destruct (findEvac H (heap g) (evac g w) p) as [e|] eqn:Ee.
    + injection E as <- <-. apply findEvac_some in Ee as [Ie Eq].
      destruct (i_evac g I _ _ Eh Ie) as [Ie' He]. apply added_old; auto.
    + pose proof (findEvac_none _ _ _ Ee) as Fe.
      assert (Np : ~ In p (all g)).
      { intros Ip. destruct (hashin p Ip eq_refl) as [E1|[_ E1]]; [congruence|].
        apply Fe in E1. rewrite nodeEq_refl in E1. discriminate. }
      assert (Nto : to g p = None).
      { destruct (to g p) as [l|] eqn:El; auto. exfalso. apply Np. apply (i_tokey g I). eauto. }
      injection E as <- <-. unfold ensureTo, addToAll, setHash, setEvac. red_g. rewrite Nto.
      destruct (insert_inv g p n (byHash g) (updW (evac g) w (evac g w ++ [p])) (constants g) F En Np Hc)
        as (I' & T' & G').
      * intros w' Nw. unfold updW. rewrite (proj2 (word_eqb_neq _ _)) by auto. auto.
      * right. unfold updW. fold w. rewrite word_eqb_refl. split; [congruence|]. split; [auto|].
        split; [apply in_app_iff; cbn; auto|]. split; [|split].
        -- intros q Iq Hq. apply in_app_iff. left. destruct (hashin q Iq Hq) as [E1|[_ E1]]; [congruence|auto].
        -- intros q Iq. apply in_app_iff in Iq as [Iq|[<-|[]]]; auto. right. apply (i_evac g I); auto.
        -- apply FOP_snoc; [apply (i_pairs g I); auto|]. apply Forall_forall. auto.
      * auto.
      * red_g. apply added_new; red_g; auto.
        intros q Iq Hq. destruct (hashin q Iq Hq) as [E1|[_ E1]]; [congruence|auto].
  - assert (Nall : forall q, In q (all g) -> hashcode (heap g) q <> w).
    { intros q Iq Hq. destruct (hashin q Iq Hq) as [E1|[E1 _]]; congruence. }
    assert (Np : ~ In p (all g)). { intros Ip. apply (Nall p Ip). reflexivity. }
    assert (Nto : to g p = None).
    { destruct (to g p) as [l|] eqn:El; auto. exfalso. apply Np. apply (i_tokey g I). eauto. }
    unfold isConstN in Ec, E. destruct (nkind n) eqn:Kn.
    1, 3: injection E as <- <-; unfold ensureTo, addToAll, setHash, setEvac; red_g; rewrite Nto;
      destruct (insert_inv g p n (updW (byHash g) w (Some (Some p))) (evac g) (constants g) F En Np Hc)
        as (I' & T' & G');
      [intros w' Nw; unfold updW; rewrite (proj2 (word_eqb_neq _ _)) by auto; auto
      |left; unfold updW; fold w; rewrite word_eqb_refl; auto
      |auto
      |red_g; apply added_new; red_g; auto; intros q Iq Hq; exfalso; eapply Nall; eauto].
    (* a constant: a copy goes in *)
    assert (Hl : nkind n <> KOp -> nchildren n = []) by (intros; eapply (i_leaf g I); eauto).
    destruct (allocNode_inv g n F Hc Hl) as (F1 & G1 & En1 & A1).
    cbn [allocNode fst] in F1, G1, En1, A1. set (q := List.length (heap g)) in *.
    set (g1 := mkGraph (heap g ++ [n]) (idOf g) (all g) (byID g) (byHash g) (evac g) (to g)
                 (leaves g) (constants g) (roots g) (counter g)) in *.
    assert (Nq : ~ In q (all g1)). { intros Iq. apply (i_lt g I) in Iq. subst q. lia. }
    assert (Ntoq : to g q = None).
    { destruct (to g q) as [l|] eqn:El; auto. exfalso. apply Nq. apply (i_tokey g I). eauto. }
    assert (Hq : hashcode (heap g1) q = w).
    { rewrite (hashcode_eq _ _ n); [|apply F1|auto]. subst w. rewrite (hashcode_eq (heap g) p n); [|apply I|auto].
      rewrite Hl by congruence. reflexivity. }
    unfold cloneConst in E. fold q in E. injection E as <- <-.
    unfold ensureTo, addToAll, setHash, setEvac. red_g. rewrite Ntoq.
    destruct (insert_inv g1 q n (updW (byHash g) w (Some (Some q))) (evac g) (constants g ++ [q]) F1 En1 Nq Hc)
        as (I' & T' & G').
    + intros w' Nw. rewrite Hq in Nw. unfold updW. rewrite (proj2 (word_eqb_neq _ _)) by auto. auto.
    + left. rewrite Hq. unfold updW. rewrite word_eqb_refl. auto.
    + right. split; [reflexivity|]. split; [auto|]. intros c m Ic Em.
      assert (Lc : c < List.length (heap g)) by (apply (i_lt g I); apply (i_const g I); auto).
      unfold g1 in Em. red_g. rewrite nth_app_l in Em by auto. eapply findConst_none; eauto.
    + unfold g1 in *; red_g. apply added_new; red_g; auto.
      * eapply grows_trans; eauto.
      * intros r Ir Hr. exfalso. eapply Nall; eauto.
      * right. repeat split; auto.
Qed.

(** Nodes of a graph with the same hash and equal by nodeEq are the same. *)
Lemma FOP_in : forall {X} (R : X -> X -> Prop) l a b, ForallOrdPairs R l -> In a l -> In b l ->
  a = b \/ R a b \/ R b a.
Proof. intros. eapply ForallOrdPairs_In; eauto. Qed.
Lemma nodeEq_sym : forall h p q, nodeEq H h p q = true -> nodeEq H h q p = true.
Proof.
  intros h p q. unfold nodeEq. rewrite (Nat.eqb_sym q p). destruct (Nat.eqb p q); auto.
  destruct (nth_error h p), (nth_error h q); auto. apply nodeEqN_sym.
Qed.
Lemma table_unique : forall g p q, Inv g -> In p (all g) -> In q (all g) ->
  hashcode (heap g) p = hashcode (heap g) q -> nodeEq H (heap g) p q = true -> p = q.
Proof.
  intros g p q I Ip Iq E Eq.
  destruct (i_table g I p Ip) as [A|[A A']]; destruct (i_table g I q Iq) as [B|[B B']];
    rewrite E in *; try congruence.
  destruct (FOP_in _ _ p q (i_pairs g I _ A) A' B') as [?|[F|F]]; auto.
  - apply nodeEq_sym in Eq. congruence.
  - congruence.
Qed.

Lemma before_in : forall l p q, before l p q -> In p l.
Proof. intros l p q (i & j & _ & A & _). eauto using nth_error_In. Qed.
Lemma usable_children : forall g p n, Inv g -> usable g p -> nth_error (heap g) p = Some n ->
  Forall (fun c => In c (all g)) (nchildren n).
Proof.
  intros g p n I [Ip|[m [Em K]]] En.
  - apply Forall_forall. intros c Ic. eapply before_in. apply (i_closed g I p); auto. exists n. auto.
  - rewrite En in Em. injection Em as <-. rewrite (i_leaf g I _ _ En); [constructor|congruence].
Qed.
Lemma usable_node : forall g p, Inv g -> usable g p -> exists n, nth_error (heap g) p = Some n.
Proof.
  intros g p I [Ip|[m [Em _]]]; [|eauto]. apply (i_lt g I) in Ip.
  destruct (nth_error (heap g) p) eqn:E; eauto. apply nth_error_None in E. lia.
Qed.

(** What AddNode does with a node of the graph or a constant. *)
Lemma addNode_usable : forall g p g' m, full g -> usable g p -> addNode g p = (g', m) ->
  full g' /\ grows g g' /\ In m (all g') /\ roots g' = roots g /\
  (In p (all g) -> ~ constantNode g p -> g' = g /\ m = p) /\
  (In p (constants g) -> g' = g /\ m = p) /\
  (In p (all g) -> g' = g).
Proof.
  intros g p g' m F U E. pose proof F as [I T].
  destruct (usable_node g p I U) as [n En].
  pose proof (usable_children g p n I U En) as Hc.
  destruct (addNode_added _ _ _ _ _ F En Hc E) as [K -> Im (b & Eb & Nb)| -> Im Hh Heq|Nm A I' T' G En' Hh R Nall Hm].
  - split; [auto|]. split; [apply grows_refl|]. split; [apply (i_const g I); auto|]. split; [auto|].
    split; [|split]; auto.
    + intros _ Nk. destruct Nk. exists n. auto.
    + intros Ip. split; auto. eapply (i_names g I); eauto.
  - split; [auto|]. split; [apply grows_refl|]. split; [auto|]. split; [auto|].
    assert (Pm : In p (all g) -> m = p).
    { intros Ip. symmetry. apply (table_unique g); auto. }
    split; [|split]; auto.
    intros Ip. split; auto. apply Pm. apply (i_const g I). auto.
  - assert (Np : ~ In p (all g)).
    { intros Ip. specialize (Nall p Ip eq_refl). rewrite nodeEq_refl in Nall. discriminate. }
    assert (Kn : nkind n = KConst).
    { destruct U as [Ip|[n' [En2 K]]]; [contradiction|congruence]. }
    assert (Ln : nchildren n = []) by (eapply (i_leaf g I); eauto; congruence).
    split; [split; auto|].
    + intros q c Iq _ C. destruct (Nat.eq_dec q m) as [->|Nq].
      * destruct C as [n2 [E2 I2]]. rewrite En' in E2. injection E2 as <-. rewrite Ln in I2. destruct I2.
      * apply T'; auto.
    + split; [auto|]. split; [rewrite A; apply in_app_iff; cbn; auto|]. split; [auto|].
      split; [|split]; try (intros Ip; contradiction).
      intros Ip. apply (i_const g I) in Ip. tauto.
Qed.

Lemma fixChildren_spec : forall cs g g' cs', full g -> Forall (usable g) cs ->
  fixChildren H fmtTS g cs = (g', cs') ->
  full g' /\ grows g g' /\ Forall (fun c => In c (all g')) cs' /\
  List.length cs' = List.length cs /\ roots g' = roots g.
Proof.
  induction cs as [|c cs IH]; cbn [fixChildren]; intros g g' cs' F U E.
  - injection E as <- <-. auto using grows_refl.
  - destruct (addNode g c) as [g1 c'] eqn:E1.
    destruct (fixChildren H fmtTS g1 cs) as [g2 r'] eqn:E2.
    injection E as <- <-. inversion U as [|? ? U1 U2]; subst.
    destruct (addNode_usable _ _ _ _ F U1 E1) as (F1 & G1 & I1 & R1 & _).
    destruct (IH g1 g2 r' F1) as (F2 & G2 & I2 & L2 & R2); auto.
    { eapply Forall_impl; [|exact U2]. intros. eapply usable_grows; eauto. }
    split; [auto|]. split; [eapply grows_trans; eauto|]. split; [|split; [cbn; lia|congruence]].
    constructor; [eapply grows_in; eauto|auto].
Qed.

(** Children that are nodes of the graph stay as they are. *)
Definition settled (g : graph) (c : ptr) : Prop :=
  In c (all g) /\ (constantNode g c -> In c (constants g)).
Lemma fixChildren_settled : forall cs g, full g -> Forall (settled g) cs ->
  fixChildren H fmtTS g cs = (g, cs).
Proof.
  induction cs as [|c cs IH]; cbn [fixChildren]; intros g F S; auto.
  inversion S as [|? ? [Ic Sc] S']; subst. destruct (addNode g c) as [g1 c'] eqn:E1.
  assert (U : usable g c) by (left; auto).
  destruct (addNode_usable _ _ _ _ F U E1) as (_ & _ & _ & _ & N & C & _).
  assert (g1 = g /\ c' = c) as [-> ->].
  { destruct (nth_error (heap g) c) as [n|] eqn:En.
    - destruct (nkind n) eqn:K.
      + apply N; auto. intros [m [Em Km]]. congruence.
      + apply C. apply Sc. exists n. auto.
      + apply N; auto. intros [m [Em Km]]. congruence.
    - apply N; auto. intros [m [Em Km]]. congruence. }
  rewrite IH; auto.
Qed.

Lemma findID_spec : forall ids l id k i, (forall p j, In p l -> ids p = Some j -> True) ->
  (forall j p, nth_error l j = Some p -> ids p = Some (k + j)) ->
  id = k + i ->
  findID ids l id k = match nth_error l i with Some p => Some (id, p) | None => None end.
Proof.
  induction l as [|p l IH]; cbn; intros id k i T Hn E.
  - destruct i; reflexivity.
  - rewrite (Hn 0 p eq_refl). rewrite Nat.add_0_r. destruct (Nat.eqb k id) eqn:Ek.
    + apply Nat.eqb_eq in Ek. assert (i = 0) by lia. subst i. cbn. congruence.
    + apply Nat.eqb_neq in Ek. destruct i as [|i]; [lia|]. cbn. apply IH; [auto| |lia].
      intros j q Eq. rewrite (Hn (S j) q Eq). f_equal. lia.
Qed.
Lemma findID_small : forall ids l id k,
  (forall j p, nth_error l j = Some p -> ids p = Some (k + j)) -> id < k ->
  findID ids l id k = None.
Proof.
  induction l as [|p l IH]; cbn; intros id k Hn L; auto.
  rewrite (Hn 0 p eq_refl). destruct (Nat.eqb (k + 0) id) eqn:E; [apply Nat.eqb_eq in E; lia|].
  apply IH; [|lia]. intros j q Eq. rewrite (Hn (S j) q Eq). f_equal. lia.
Qed.

Definition withByID (g : graph) (b : nat -> option nat) : graph :=
  mkGraph (heap g) (idOf g) (all g) b (byHash g) (evac g) (to g) (leaves g) (constants g)
          (roots g) (counter g).
Lemma lookup_spec : forall g id g' r, Inv g -> lookup g id = (g', r) ->
  r = nth_error (all g) id /\
  exists b, g' = withByID g b /\ (forall i j, b i = Some j -> j = i /\ i < List.length (all g)).
Proof.
  intros g id g' r I E. unfold lookup in E. destruct (byID g id) as [j|] eqn:Eb.
  - injection E as <- <-. destruct (i_byid g I _ _ Eb) as [-> L]. split; auto.
    exists (byID g). split; [destruct g; reflexivity|apply (i_byid g I)].
  - rewrite (findID_spec (idOf g) (all g) id 0 id) in E; auto.
    + destruct (nth_error (all g) id) as [p|] eqn:Ep; injection E as <- <-.
      * split; auto. eexists. split; [reflexivity|]. unfold updP. intros i j.
        destruct (Nat.eqb i id) eqn:Ei; [|apply (i_byid g I)].
        apply Nat.eqb_eq in Ei. subst i. injection 1 as <-. eauto using nth_lt.
      * split; auto. exists (byID g). split; [destruct g; reflexivity|apply (i_byid g I)].
    + intros j p Ep. apply (i_id g I). auto.
Qed.
Lemma withByID_inv : forall g b P, Inv g -> toComplete g P ->
  (forall i j, b i = Some j -> j = i /\ i < List.length (all g)) ->
  Inv (withByID g b) /\ toComplete (withByID g b) P.
Proof.
  intros g b P I T Hb. split; [|exact T].
  destruct I. constructor; auto.
Qed.
Lemma has_spec : forall g p, Inv g -> In p (all g) ->
  exists b, has g p = (withByID g b, true) /\
    (forall i j, b i = Some j -> j = i /\ i < List.length (all g)).
Proof.
  intros g p I Ip. apply In_nth_error in Ip as [i Ei]. unfold has.
  rewrite (proj2 (i_id g I p i) Ei). destruct (lookup g i) as [g' r] eqn:E.
  destruct (lookup_spec _ _ _ _ I E) as (-> & b & -> & Hb). rewrite Ei. eauto.
Qed.

Lemma setEdge_spec : forall g P from c, Inv g -> toComplete g P ->
  In from (all g) -> child g from c ->
  exists b l, (forall i j, b i = Some j -> j = i /\ i < List.length (all g)) /\
    to g c = Some l /\
    let g' := mkGraph (heap g) (idOf g) (all g) b (byHash g) (evac g)
                (updP (to g) c (Some (l ++ [from]))) (leaves g) (constants g) (roots g) (counter g) in
    setEdge H fmtTS g from c = Some g' /\ Inv g' /\ toComplete g' P.
Proof.
  intros g P from c I T If C.
  assert (Ic : In c (all g)) by (eapply before_in; apply (i_closed g I from); auto).
  assert (Nf : from <> c).
  { intros ->. destruct C as [n [En In]]. pose proof (i_heap g I _ _ En) as Fn.
    rewrite Forall_forall in Fn. specialize (Fn _ In). lia. }
  unfold setEdge. rewrite (proj2 (Nat.eqb_neq _ _) Nf).
  destruct (has_spec g from I If) as (b1 & E1 & Hb1). rewrite E1.
  destruct (withByID_inv g b1 P I T Hb1) as [I1 T1].
  destruct (has_spec _ c I1 Ic) as (b2 & E2 & Hb2). rewrite E2.
  destruct (proj2 (i_tokey g I c) Ic) as [l El].
  exists b2, l. split; [exact Hb2|]. split; [auto|]. 
  split; [cbn; rewrite El; reflexivity|].
  split.
  - destruct I as [A1 A2 A3 A4 A5 A6 A7 A8 A9 A10 A11 A12 A13 A14 A15 A16].
    constructor; red_g; auto.
    + intros p. unfold updP. destruct (Nat.eqb p c) eqn:E; auto.
      apply Nat.eqb_eq in E. subst p. split; eauto.
    + intros p l' q. unfold updP. destruct (Nat.eqb p c) eqn:E; [|eauto].
      apply Nat.eqb_eq in E. subst p. injection 1 as <-. rewrite in_app_iff.
      intros [Iq|[<-|[]]]; [eapply A10; eauto|auto].
  - intros q d Iq Pq Cq. red_g. destruct (T q d Iq Pq Cq) as [l' [El' Il']].
    unfold updP. destruct (Nat.eqb d c) eqn:E; [|eauto].
    apply Nat.eqb_eq in E. subst d. exists (l ++ [from]). split; auto.
    rewrite El in El'. injection El' as <-. apply in_app_iff. auto.
Qed.

(** Graphs that differ only in lookup cache, parent lists and leaves. *)
Definition sameBut (g g' : graph) : Prop :=
  heap g' = heap g /\ all g' = all g /\ idOf g' = idOf g /\ byHash g' = byHash g /\
  evac g' = evac g /\ constants g' = constants g /\ roots g' = roots g /\ counter g' = counter g.
Lemma setEdges_spec : forall cs g P m, Inv g -> toComplete g P -> In m (all g) ->
  Forall (fun c => child g m c) cs ->
  exists g', setEdges H fmtTS g m cs = Some g' /\ Inv g' /\ toComplete g' P /\
    sameBut g g' /\
    (forall p l, to g p = Some l -> exists l', to g' p = Some (l ++ l')) /\
    (forall c, In c cs -> exists l, to g' c = Some l /\ In m l) /\
    (forall p, ~ In p cs -> to g' p = to g p).
Proof.
  induction cs as [|c cs IH]; cbn [setEdges]; intros g P m I T Im F.
  - exists g. split; [auto|]. split; [auto|]. split; [auto|]. split; [repeat split|].
    split; [intros p l El; exists []; rewrite app_nil_r; auto|]. split; [intros c []|auto].
  - inversion F as [|? ? C F']; subst.
    destruct (setEdge_spec g P m c I T Im C) as (b & l & Hb & El & E1 & I1 & T1).
    rewrite E1. set (g1 := mkGraph _ _ _ _ _ _ _ _ _ _ _) in *.
    destruct (IH g1 P m I1 T1 Im) as (g' & E2 & I2 & T2 & S2 & G2 & M2 & O2); auto.
    exists g'. split; [auto|]. split; [auto|]. split; [auto|]. split; [exact S2|]. split; [|split].
    + intros p lp Ep. destruct (Nat.eqb p c) eqn:Epc.
      * apply Nat.eqb_eq in Epc. subst p. rewrite El in Ep. injection Ep as <-.
        destruct (G2 c (l ++ [m])) as [l' El']; [cbn; unfold updP; rewrite Nat.eqb_refl; auto|].
        exists (m :: l'). rewrite El', <- app_assoc. reflexivity.
      * apply G2. cbn. unfold updP. rewrite Epc. auto.
    + intros d [<-|Id]; [|auto].
      destruct (G2 c (l ++ [m])) as [l' El']; [cbn; unfold updP; rewrite Nat.eqb_refl; auto|].
      eexists. split; [exact El'|]. rewrite !in_app_iff. cbn. auto.
    + intros p Np. rewrite O2 by (intros ?; apply Np; right; auto). cbn. unfold updP.
      destruct (Nat.eqb p c) eqn:Epc; auto. apply Nat.eqb_eq in Epc. destruct Np. left. auto.
Qed.

Lemma fixEdges_spec : forall g m, Inv g -> toComplete g (oldOnly m) -> In m (all g) ->
  exists g', fixEdges H fmtTS g m = Some g' /\ full g' /\ sameBut g g' /\ grows g g' /\
    (forall p l, to g p = Some l -> exists l', to g' p = Some (l ++ l')) /\
    (forall p, ~ child g m p -> to g' p = to g p).
Proof.
  intros g m I T Im. unfold fixEdges, getN.
  assert (Lm := i_lt g I m Im).
  destruct (nth_error (heap g) m) as [n|] eqn:En; [|apply nth_error_None in En; lia].
  destruct (nchildren n) as [|c0 cs0] eqn:Ec.
  - eexists. split; [reflexivity|]. split; [split|].
    + destruct I. constructor; auto.
    + intros q c Iq _ C. destruct (Nat.eq_dec q m) as [->|Nq]; [|apply T; auto].
      destruct C as [n' [En' Ic]]. red_g. rewrite En in En'. injection En' as <-. rewrite Ec in Ic. destruct Ic.
    + split; [repeat split|]. split.
      * constructor; red_g; eauto; exists []; rewrite app_nil_r; auto.
      * split; [intros p l El; exists []; rewrite app_nil_r; auto|auto].
  - rewrite <- Ec.
    assert (Fc : Forall (fun c => child g m c) (nchildren n)).
    { apply Forall_forall. intros c Ic. exists n. auto. }
    destruct (setEdges_spec (nchildren n) g (oldOnly m) m I T Im Fc)
      as (g' & E & I' & T' & S & G & M & O).
    exists g'. split; [rewrite Ec in *; exact E|].
    destruct S as (S1 & S2 & S3 & S4 & S5 & S6 & S7 & S8).
    split; [split; [auto|]|split; [repeat split; auto|split; [|split]]].
    + intros q c Iq _ C. destruct (Nat.eq_dec q m) as [->|Nq].
      * destruct C as [n' [En' Ic]]. rewrite S1, En in En'. injection En' as <-. auto.
      * apply T'; auto.
    + constructor.
      * exists []. rewrite app_nil_r. auto.
      * exists []. rewrite app_nil_r. auto.
      * intros p l El. destruct (G p l El) as [l' El']. exists (l ++ l'). split; auto.
        intros. apply in_app_iff. auto.
      * exists []. rewrite app_nil_r. auto.
      * intros w. rewrite S4. auto.
    + auto.
    + intros p Np. apply O. intros Ip. apply Np. exists n. auto.
Qed.

Lemma newUniqueNode_spec : forall g l cs, full g -> Forall (usable g) cs ->
  (lkind l <> KOp -> cs = []) ->
  exists g1 cs' g3 m g', 
    fixChildren H fmtTS g cs = (g1, cs') /\ full g1 /\ grows g g1 /\
    Forall (fun c => In c (all g1)) cs' /\ List.length cs' = List.length cs /\
    let g2 := fst (allocNode g1 (ofLabel l cs')) in
    let p := List.length (heap g1) in
    full g2 /\ grows g1 g2 /\ nth_error (heap g2) p = Some (ofLabel l cs') /\
    added g2 p (ofLabel l cs') g3 m /\ Inv g3 /\ In m (all g3) /\ grows g2 g3 /\
    newUniqueNode H fmtTS g l cs = Some (g', m) /\ full g' /\ sameBut g3 g' /\ grows g3 g' /\
    grows g g' /\ In m (all g') /\ roots g' = roots g.
Proof.
  intros g l cs F U K. unfold newUniqueNode.
  destruct (fixChildren H fmtTS g cs) as [g1 cs'] eqn:E1.
  destruct (fixChildren_spec cs g g1 cs' F U E1) as (F1 & G1 & I1 & L1 & R1).
  assert (K' : nkind (ofLabel l cs') <> KOp -> nchildren (ofLabel l cs') = []).
  { cbn. intros Nk. rewrite (K Nk) in L1. destruct cs'; [auto|discriminate]. }
  destruct (allocNode_inv g1 (ofLabel l cs') F1 I1 K') as (F2 & G2 & En2 & A2).
  cbn [allocNode] in *. cbn [fst] in *.
  set (g2 := mkGraph (heap g1 ++ [ofLabel l cs']) _ _ _ _ _ _ _ _ _ _) in *.
  destruct (addNode g2 (List.length (heap g1))) as [g3 m] eqn:E3.
  assert (C2 : Forall (fun c => In c (all g2)) (nchildren (ofLabel l cs'))) by exact I1.
  pose proof (addNode_added _ _ _ _ _ F2 En2 C2 E3) as Add.
  assert (X : Inv g3 /\ toComplete g3 (oldOnly m) /\ In m (all g3) /\ grows g2 g3 /\ roots g3 = roots g2).
  { destruct F2 as [J2 T2].
    assert (T2' : toComplete g2 (oldOnly m)) by (intros q c Iq _; apply T2; auto).
    destruct Add as [k -> Im _| -> Im _ _|Nm A I' T' G En' _ R _ _].
    - split; [auto|]. split; [auto|]. split; [apply (i_const g2 J2); auto|]. split; [apply grows_refl|auto].
    - split; [auto|]. split; [auto|]. split; [auto|]. split; [apply grows_refl|auto].
    - split; [auto|]. split; [auto|]. split; [rewrite A; apply in_app_iff; cbn; auto|]. auto. }
  destruct X as (I3 & T3 & Im3 & G3 & R3).
  destruct (fixEdges_spec g3 m I3 T3 Im3) as (g' & E4 & F4 & S4 & G4 & _).
  exists g1, cs', g3, m, g'. rewrite E4.
  split; [auto|]. split; [auto|]. split; [auto|]. split; [auto|]. split; [auto|]. cbn zeta.
  split; [auto|]. split; [auto|]. split; [auto|]. split; [auto|]. split; [auto|]. split; [auto|].
  split; [auto|]. split; [auto|]. split; [auto|]. split; [auto|]. split; [auto|].
  split; [eapply grows_trans; [exact G1|]; eapply grows_trans; [exact G2|]; eapply grows_trans; eauto|].
  split; [eapply grows_in; eauto|].
  destruct S4 as (_ & _ & _ & _ & _ & _ & S7 & _). rewrite S7, R3. exact R1.
Qed.
End P.
