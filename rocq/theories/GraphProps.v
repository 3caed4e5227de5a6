(** Property theorems C01, C03 - C08, C19 (graph part), C48, C49. *)
From Coq Require Import Arith NArith List Bool String Ascii Lia.
From Verif Require Import GraphModel GraphSpec GraphProofs GraphHistory GraphWalk.
Import ListNotations.
Open Scope list_scope.

(** ** A graph for the examples: inputs x, y (vectors of length 3), x + y, a
    constant 1, and (x + y) + 1 with Go's hash. *)
Definition exNew (g : graph) (l : label) (cs : list ptr) : graph :=
  match newUniqueNode fnv32a printTS g l cs with Some (g', _) => g' | None => g end.
Definition vec := TTensor 1 0.
Definition inputL (nm : string) : label := mkLabel KInput nm vec [3] "" false.
Definition addL : label := mkLabel KOp "" vec [3] "+" false.
Definition exG0 : graph := emptyGraph [].
Definition exG1 : graph := exNew exG0 (inputL "x") [].
Definition exG2 : graph := exNew exG1 (inputL "y") [].
Definition exG3 : graph := exNew exG2 addL [0; 1].
Definition oneC : node := mkNode KConst "1" (TScalar 0) [] "const 1: float64" [] false.
Definition exG4 : graph := fst (allocNode exG3 oneC).
Definition exG5 : graph := exNew exG4 addL [2; 3].

Lemma exNew_step : forall g0 g l cs, built fnv32a printTS g0 -> okUse g0 (UNew l cs) ->
  g = exNew g0 l cs -> newUniqueNode fnv32a printTS g0 l cs <> None -> built fnv32a printTS g.
Proof.
  intros g0 g l cs B Ok -> N. unfold exNew.
  destruct (newUniqueNode fnv32a printTS g0 l cs) as [[g' m]|] eqn:E; [|congruence].
  eapply reaches_step; [exact B|exact Ok|]. cbn [useStep]. rewrite E. reflexivity.
Qed.
Lemma exG1_built : built fnv32a printTS exG1.
Proof.
  apply (exNew_step exG0 _ (inputL "x") []); [apply reaches_refl|split; auto|reflexivity|vm_compute; discriminate].
Qed.
Lemma exG2_built : built fnv32a printTS exG2.
Proof.
  apply (exNew_step exG1 _ (inputL "y") []); [apply exG1_built|split; auto|reflexivity|vm_compute; discriminate].
Qed.
Lemma exG3_built : built fnv32a printTS exG3.
Proof.
  apply (exNew_step exG2 _ addL [0; 1]); [apply exG2_built| |reflexivity|vm_compute; discriminate].
  split; [|intros C; destruct (C eq_refl)]. repeat (constructor; [left; vm_compute; auto|]). constructor.
Qed.
Lemma exG4_built : built fnv32a printTS exG4.
Proof.
  eapply reaches_step with (u := UConst oneC); [apply exG3_built|split; reflexivity|reflexivity].
Qed.
Lemma exG5_built : built fnv32a printTS exG5.
Proof.
  apply (exNew_step exG4 _ addL [2; 3]); [apply exG4_built| |reflexivity|vm_compute; discriminate].
  split; [|intros C; destruct (C eq_refl)].
  constructor; [left; vm_compute; auto 6|]. constructor; [right|constructor].
  exists oneC. vm_compute. auto.
Qed.

(** ** C01 *)

(** Making the same node again, after anything else, gives the node made first
    and adds nothing: for every hash function. *)
Theorem C01_repeat :
  forall H fmtTS g l cs g1 m g2,
    built H fmtTS g -> lkind l <> KConst -> (lkind l = KInput -> cs = []) ->
    Forall (fun c => In c (all g)) cs ->
    newUniqueNode H fmtTS g l cs = Some (g1, m) ->
    reaches H fmtTS g1 g2 -> constantsUncollided g2 ->
    exists g3, newUniqueNode H fmtTS g2 l cs = Some (g3, m) /\ all g3 = all g2.
Proof.
  intros H fmtTS g l cs g1 m g2 B Nc Ki Ic E R U.
  assert (K : lkind l <> KOp -> cs = []) by (destruct (lkind l); auto; congruence).
  eapply repeat_same with (l1 := l); eauto using built_full.
  repeat split; auto. destruct (lkind l); [left|congruence|right]; repeat split; congruence.
Qed.
Print Assumptions C01_repeat.
Example C01_repeat_ex :
  option_map (fun r => (snd r, all (fst r))) (newUniqueNode fnv32a printTS exG5 addL [0; 1]) =
  Some (2, all exG5).
Proof. vm_compute. reflexivity. Qed.

(** Two additions at different times give the same node exactly when operator
    (or input name), type, shape and children are the same, as long as no two
    contents hash alike. *)
Theorem C01_same_node_iff :
  forall H fmtTS g l1 cs1 g1 m1 g2 l2 cs2 g3 m2,
    built H fmtTS g ->
    lkind l1 <> KConst -> (lkind l1 = KInput -> cs1 = []) ->
    lkind l2 <> KConst -> (lkind l2 = KInput -> cs2 = []) ->
    Forall (fun c => In c (all g)) cs1 -> newUniqueNode H fmtTS g l1 cs1 = Some (g1, m1) ->
    reaches H fmtTS g1 g2 -> constantsUncollided g2 ->
    Forall (fun c => In c (all g2)) cs2 -> newUniqueNode H fmtTS g2 l2 cs2 = Some (g3, m2) ->
    noCollision H fmtTS g3 ->
    (m1 = m2 <-> sameLabel l1 l2 /\ cs1 = cs2).
Proof.
  intros H fmtTS g l1 cs1 g1 m1 g2 l2 cs2 g3 m2 B N1 Ki1 N2 Ki2 I1 E1 R U I2 E2 NC.
  assert (F := built_full _ _ _ B).
  assert (K1 : lkind l1 <> KOp -> cs1 = []) by (destruct (lkind l1); auto; congruence).
  assert (K2 : lkind l2 <> KOp -> cs2 = []) by (destruct (lkind l2); auto; congruence).
  assert (F1G1 : full H fmtTS g1 /\ grows g g1).
  { eapply useStep_full with (u := UNew l1 cs1); eauto.
    - split; auto. eapply Forall_impl; [|exact I1]. intros c Ic. left. auto.
    - cbn [useStep]. rewrite E1. reflexivity. }
  destruct F1G1 as [F1 G1]. destruct (reaches_full _ _ _ _ R F1) as [F2 G2].
  split.
  - intros ->.
    assert (U0 : constantsUncollided g).
    { eapply uncollided_back; [eapply grows_trans; eauto|apply F|auto]. }
    destruct (newUnique_result H fmtTS g l1 cs1 g1 m2 F) as (_ & _ & Im1 & Hm1 & _ & (p1 & Ep1 & Hp1) & _);
      auto using settled_all.
    destruct (newUnique_result H fmtTS g2 l2 cs2 g3 m2 F2) as (F3 & G3 & Im2 & Hm2 & _ & (p2 & Ep2 & Hp2) & _);
      auto using settled_all.
    assert (G13 : grows g1 g3) by (eapply grows_trans; eauto).
    assert (Ep1' : nth_error (heap g3) p1 = Some (ofLabel l1 cs1)) by eauto using grows_nth.
    assert (Hp1' : hashcode H fmtTS (heap g3) p1 = hashcode H fmtTS (heap g3) p2).
    { rewrite Hp2, <- Hm2. rewrite (grows_hash H fmtTS g1 g3 p1 (proj1 F1) G13 (nth_lt _ _ _ Ep1)), Hp1, <- Hm1.
      symmetry. apply (grows_hash H fmtTS g1 g3 m2 (proj1 F1) G13). apply (i_lt _ _ g1 (proj1 F1)). auto. }
    pose proof (NC p1 p2 _ _ Ep1' Ep2 Hp1') as W. unfold written in W. cbn in W.
    injection W as Wt Ws Wo Wc. split.
    + split; auto. split; auto.
      destruct (lkind l1) eqn:A1; destruct (lkind l2) eqn:A2; try congruence; injection Wo as Wo;
        [left|right]; repeat split; congruence.
    + assert (J1 : Forall (fun c => In c (all g3)) cs1).
      { eapply Forall_impl; [|exact I1]. intros c Ic. exact (grows_in _ _ _ G13 (grows_in _ _ _ G1 Ic)). }
      assert (J2 : Forall (fun c => In c (all g3)) cs2).
      { eapply Forall_impl; [|exact I2]. intros c Ic. exact (grows_in _ _ _ G3 Ic). }
      clear - Wc J1 J2 F3 NC. revert cs2 Wc J2. induction J1 as [|c cs Hc Hcs IH]; intros [|d ds] E J2;
        cbn in E; try discriminate; auto.
      injection E as E Es. inversion J2; subst. f_equal; auto.
      eapply noCollision_unique; eauto. apply F3.
  - intros [SL <-].
    destruct (repeat_same H fmtTS g l1 l2 cs1 g1 m1 g2) as (g3' & E3 & _); auto. congruence.
Qed.
Print Assumptions C01_same_node_iff.

(** Only additions change a graph, and they leave nodes, ids and positions of
    what is there alone. *)
Theorem C01_nodes_never_change :
  forall H fmtTS g g' p n i,
    built H fmtTS g -> reaches H fmtTS g g' -> nth_error (all g) i = Some p -> isA g p n ->
    nth_error (all g') i = Some p /\ isA g' p n /\ idOf g p = Some i /\ idOf g' p = Some i.
Proof.
  intros H fmtTS g g' p n i B R Ei En. assert (F := built_full _ _ _ B).
  destruct (reaches_full _ _ _ _ R F) as [F' G']. destruct (gr_all _ _ G') as [y Ey].
  assert (Ei' : nth_error (all g') i = Some p) by (rewrite Ey; auto using nth_prefix).
  split; [auto|]. split; [eapply grows_nth; eauto|].
  split; [apply (i_id _ _ g (proj1 F))|apply (i_id _ _ g' (proj1 F'))]; auto.
Qed.
Print Assumptions C01_nodes_never_change.

(** Making a node from nodes of the graph (or constants) never panics. *)
Theorem C01_never_panics :
  forall H fmtTS g l cs, built H fmtTS g -> okUse g (UNew l cs) ->
    exists g' m, newUniqueNode H fmtTS g l cs = Some (g', m) /\ In m (all g').
Proof.
  intros H fmtTS g l cs B [U K]. assert (F := built_full _ _ _ B).
  destruct (newUniqueNode_spec _ _ g l cs F U K) as (g1 & cs' & g3 & m & g4 & Sp). cbn zeta in Sp.
  destruct Sp as (_ & _ & _ & _ & _ & _ & _ & _ & _ & _ & _ & _ & En & _ & _ & _ & _ & Im & _). eauto.
Qed.
Print Assumptions C01_never_panics.

(** A new node is exactly what was asked for. *)
Theorem C01_new_node_is_as_asked :
  forall H fmtTS g l cs g' m,
    built H fmtTS g -> constantsUncollided g -> lkind l <> KConst -> (lkind l = KInput -> cs = []) ->
    Forall (fun c => In c (all g)) cs -> newUniqueNode H fmtTS g l cs = Some (g', m) ->
    ~ In m (all g) ->
    isA g' m (mkNode (lkind l) (lname l) (ltyp l) (lshape l) (lop l) cs (lstmt l)) /\
    all g' = all g ++ [m].
Proof.
  intros H fmtTS g l cs g' m B U N Ki Ic E Nm. assert (F := built_full _ _ _ B).
  assert (K : lkind l <> KOp -> cs = []) by (destruct (lkind l); auto; congruence).
  destruct (newUnique_result H fmtTS g l cs g' m F) as (_ & _ & _ & _ & _ & _ & D); auto using settled_all.
  destruct D as [[? _]|(A & _ & En & _)]; [contradiction|auto].
Qed.
Print Assumptions C01_new_node_is_as_asked.

Example C01_ex : built fnv32a printTS exG5 /\ constantsUncollided exG5 /\
  all exG5 = [0; 1; 2; 4; 5] /\ isA exG5 5 (ofLabel addL [2; 4]).
Proof.
  split; [apply exG5_built|]. split; [|split; vm_compute; reflexivity].
  assert (Ea : all exG5 = [0; 1; 2; 4; 5]) by (vm_compute; reflexivity).
  assert (Ec : constants exG5 = [4]) by (vm_compute; reflexivity).
  assert (Eh : map nkind (heap exG5) = [KInput; KInput; KOp; KConst; KConst; KOp]) by (vm_compute; reflexivity).
  intros p Ip [n [En K]]. rewrite Ea in Ip. rewrite Ec.
  apply (map_nth_error nkind) in En. rewrite Eh in En.
  cbn in Ip. destruct Ip as [<-|[<-|[<-|[<-|[<-|[]]]]]]; cbn in En; injection En as En;
    try congruence. left. reflexivity.
Qed.

(** ** C03 *)
Theorem C03_bookkeeping :
  forall H fmtTS g, built H fmtTS g ->
    NoDup (all g) /\
    (forall p i, idOf g p = Some i <-> nth_error (all g) i = Some p) /\
    (forall p c, In p (all g) -> child g p c -> before (all g) c p) /\
    (forall id, snd (lookup g id) = nth_error (all g) id) /\
    (forall p, In p (all g) <-> snd (has g p) = true) /\
    (forall p q, In p (all g) -> (In q (toN g p) <-> In q (all g) /\ child g q p)).
Proof.
  intros H fmtTS g B. destruct (built_full _ _ _ B) as [I T].
  split; [apply I|]. split; [apply (i_id _ _ g I)|]. split; [apply (i_closed _ _ g I)|].
  assert (L : forall id, snd (lookup g id) = nth_error (all g) id).
  { intros id. destruct (lookup g id) as [g' r] eqn:E. apply (lookup_spec _ _ _ _ _ _ I E). }
  split; [auto|]. split.
  - intros p. split.
    + intros Ip. destruct (has_spec _ _ g p I Ip) as (b & E & _). rewrite E. reflexivity.
    + unfold has. destruct (idOf g p) as [i|] eqn:Ei; [|discriminate]. intros _.
      apply (i_id _ _ g I) in Ei. eauto using nth_error_In.
  - intros p q Ip. unfold toN. rewrite nodup_In.
    destruct (proj2 (i_tokey _ _ g I p) Ip) as [l El]. rewrite El. split.
    + intros Iq. eapply (i_to _ _ g I); eauto.
    + intros [Iq C]. destruct (T q p Iq Logic.I C) as [l' [El' Il]]. congruence.
Qed.
Print Assumptions C03_bookkeeping.

(** So following children never comes back. *)
Theorem C03_acyclic :
  forall H fmtTS g p q, built H fmtTS g -> below (heap g) p q -> q <> p -> ~ below (heap g) q p.
Proof.
  intros H fmtTS g p q B Hb Np Hb'. destruct (built_full _ _ _ B) as [I _].
  assert (Bl : forall a b, below (heap g) a b -> b <= a).
  { intros a b Hab. induction Hab as [|a c b n En Ic Hc IH]; auto. pose proof (i_heap _ _ g I _ _ En) as Fo.
    rewrite Forall_forall in Fo. specialize (Fo _ Ic). lia. }
  apply Bl in Hb. apply Bl in Hb'. lia.
Qed.
Print Assumptions C03_acyclic.
Example C03_ex : toN exG5 0 = [2] /\ toN exG5 2 = [5] /\ idOf exG5 5 = Some 4.
Proof. vm_compute. auto. Qed.

(** ** C04 *)
Theorem C04_lookup_without_removal :
  forall H fmtTS g id p, built H fmtTS g ->
    (snd (lookup g id) = Some p <-> In p (all g) /\ idOf g p = Some id).
Proof.
  intros H fmtTS g id p B. destruct (built_full _ _ _ B) as [I T].
  destruct (lookup g id) as [g' r] eqn:E. destruct (lookup_spec _ _ _ _ _ _ I E) as (-> & _).
  cbn [snd]. rewrite (i_id _ _ g I). split; [|tauto]. intros Ep. split; auto. eauto using nth_error_In.
Qed.
Print Assumptions C04_lookup_without_removal.

Lemma removeP_nth : forall l p i j, NoDup l -> nth_error l i = Some p -> i <= j ->
  nth_error (removeP l p) j = nth_error l (S j).
Proof.
  induction l as [|q l IH]; intros p i j N Ei L; [destruct i; discriminate|].
  inversion N; subst. cbn [removeP filter]. destruct (Nat.eqb q p) eqn:Eq; cbn [negb].
  - apply Nat.eqb_eq in Eq. subst q. fold (removeP l p). cbn [nth_error].
    assert (R : removeP l p = l).
    { clear - H1. induction l as [|x l IH]; auto. cbn. destruct (Nat.eqb x p) eqn:E; cbn.
      - apply Nat.eqb_eq in E. subst. destruct H1. left. auto.
      - f_equal. apply IH. intros ?. apply H1. right. auto. }
    rewrite R. reflexivity.
  - fold (removeP l p). apply Nat.eqb_neq in Eq. destruct i as [|i]; cbn in Ei; [congruence|].
    destruct j as [|j]; [lia|]. cbn [nth_error]. apply (IH p i j); auto. lia.
Qed.

(** Once id j has been looked up, removing a node with a smaller id makes a
    lookup of j give the node with id j+1, or nothing for the last. *)
Theorem C04_lookup_after_removal :
  forall H fmtTS g p i j, built H fmtTS g ->
    idOf g p = Some i -> i < j -> j < List.length (all g) ->
    let g1 := fst (lookup g j) in
    let g2 := removeNode H fmtTS g1 p in
    snd (lookup g2 j) = nth_error (all g) (S j) /\
    (forall q, nth_error (all g) j = Some q -> In q (all g2) /\ idOf g2 q = Some j /\
                                               snd (lookup g2 j) <> Some q).
Proof.
  intros H fmtTS g p i j B Ei L Lj. destruct (built_full _ _ _ B) as [I T].
  destruct (lookup g j) as [g1 r] eqn:E. cbn [fst]. cbn zeta.
  pose proof (lookup_spec _ _ _ _ _ _ I E) as (Er & b & E1 & Hb).
  assert (Hj : byID g1 j = Some j).
  { unfold lookup in E. destruct (byID g j) as [k|] eqn:Ek.
    - injection E as <- _. destruct (i_byid _ _ g I _ _ Ek) as [-> _]. auto.
    - rewrite (findID_spec (idOf g) (all g) j 0 j) in E; auto.
      + destruct (nth_error (all g) j) as [q|] eqn:Eq; [|apply nth_error_None in Eq; lia].
        injection E as <- _. cbn. unfold updP. rewrite Nat.eqb_refl. auto.
      + intros k q Eq. apply (i_id _ _ g I). auto. }
  assert (E2 : removeNode H fmtTS g1 p =
    mkGraph (heap g1) (idOf g1) (removeP (all g1) p) (byID g1)
              (fun w => if word_eqb w (hashcode H fmtTS (heap g1) p) then None else byHash g1 w)
              (updW (evac g1) (hashcode H fmtTS (heap g1) p) (removeP (evac g1 (hashcode H fmtTS (heap g1) p)) p))
              (fun q => if Nat.eqb q p then None else to g1 q)
              (leaves g1) (constants g1) (roots g1) (counter g1)).
  { unfold removeNode. subst g1. cbn [idOf withByID]. rewrite Ei. reflexivity. }
  rewrite E2. unfold lookup. red_g. rewrite Hj. cbn [snd].
  assert (Ei' : nth_error (all g) i = Some p) by (apply (i_id _ _ g I); auto).
  assert (X : nth_error (removeP (all g1) p) j = nth_error (all g) (S j)).
  { subst g1. cbn [all withByID]. apply removeP_nth with (i := i); [apply I|auto|lia]. }
  split; [exact X|]. intros q Eq. subst g1. cbn [all idOf withByID] in *.
  split; [|split].
  - unfold removeP. apply filter_In. split; [eauto using nth_error_In|].
    apply negb_true_iff, Nat.eqb_neq. intros ->.
    apply (i_id _ _ g I) in Ei'. apply (i_id _ _ g I) in Eq. rewrite Ei' in Eq. injection Eq. lia.
  - apply (i_id _ _ g I). auto.
  - rewrite X. intros Es. apply (i_id _ _ g I) in Es. apply (i_id _ _ g I) in Eq.
    rewrite Es in Eq. injection Eq. lia.
Qed.
Print Assumptions C04_lookup_after_removal.
(** Hence the plain claim "Node(id) finds the node with that id" is false. *)
Theorem C04_lookup_refuted :
  exists g p q, built fnv32a printTS g /\ In p (all g) /\ In q (all g) /\ p <> q /\
    let g2 := removeNode fnv32a printTS (fst (lookup g 2)) p in
    In q (all g2) /\ idOf g2 q = Some 2 /\ snd (lookup g2 2) <> Some q.
Proof.
  exists exG5, 1, 2. split; [apply exG5_built|]. vm_compute. repeat split; auto; discriminate.
Qed.
Print Assumptions C04_lookup_refuted.

(** ** C05 *)

(** The first call gives nodes nobody uses, all of them, and beyond those only
    the single children of statements. *)
Theorem C05_first_call :
  forall H fmtTS g p, built H fmtTS g -> roots g = None ->
    (In p (all g) -> (forall q, In q (all g) -> ~ child g q p) -> In p (snd (rootsCall g))) /\
    (In p (snd (rootsCall g)) -> In p (all g) /\
      ((forall q, In q (all g) -> ~ child g q p) \/
       (exists s n, In s (all g) /\ isA g s n /\ stmt n = true /\ nchildren n = [p] /\
          forall q, In q (all g) -> child g q p -> q = s))).
Proof.
  intros H fmtTS g p B R. assert (F := built_full _ _ _ B). pose proof F as [I T].
  unfold rootsCall. rewrite R. cbn [snd]. unfold rootsOf. split.
  - intros Ip Np. apply in_flat_map. exists p. split; auto.
    destruct (proj2 (i_tokey _ _ g I p) Ip) as [l El]. rewrite El. apply in_app_iff. left.
    destruct l as [|q l]; [left; auto|]. exfalso.
    destruct (i_to _ _ g I _ _ q El) as [Iq C]; [left; auto|]. eapply Np; eauto.
  - intros Ip. split; [apply (rootsOf_in H fmtTS); auto|].
    apply in_flat_map in Ip as [q [Iq Iq2]].
    destruct (to g q) as [tos|] eqn:Et; [|contradiction].
    apply in_app_iff in Iq2 as [Iq2|Iq2].
    + destruct tos; [|contradiction]. destruct Iq2 as [<-|[]]. left. intros r Ir C.
      destruct (T r q Ir Logic.I C) as [l [El Il]]. rewrite Et in El. injection El as <-. destruct Il.
    + unfold getN in Iq2. destruct (nth_error (heap g) q) as [n|] eqn:En; [|contradiction].
      destruct (stmt n) eqn:Es; [|contradiction].
      destruct (nchildren n) as [|c [|? ?]] eqn:Ec; try contradiction.
      destruct (to g c) as [[|s [|? ?]]|] eqn:Etc; try contradiction.
      destruct Iq2 as [<-|[]]. right. exists q, n. split; [auto|]. split; [auto|]. split; [auto|]. split; [auto|].
      assert (One : forall r, In r (all g) -> child g r c -> r = s).
      { intros r Ir C. destruct (T r c Ir Logic.I C) as [l [El Il]]. rewrite Etc in El. injection El as <-.
        destruct Il as [->|[]]; auto. }
      assert (q = s) by (apply One; auto; exists n; split; auto; rewrite Ec; left; auto).
      subst s. auto.
Qed.
Print Assumptions C05_first_call.

Lemma reaches_roots : forall H fmtTS g g' r, full H fmtTS g -> reaches H fmtTS g g' -> roots g = Some r ->
  roots g' = Some r.
Proof.
  intros H fmtTS g g' r F R. induction R as [|g g1 u g2 x R IH Ok E]; intros Er; auto.
  specialize (IH F Er). destruct (reaches_full _ _ _ _ R F) as [F1 _].
  destruct u as [n|l cs|id| |id]; cbn [useStep] in E.
  - cbn in E. injection E as <- <-. auto.
  - destruct Ok as [U K].
    destruct (newUniqueNode_spec _ _ g1 l cs F1 U K) as (a1 & a2 & a3 & m & g4 & Sp). cbn zeta in Sp.
    destruct Sp as (_ & _ & _ & _ & _ & _ & _ & _ & _ & _ & _ & _ & En & _ & _ & _ & _ & _ & R').
    rewrite En in E. injection E as <- <-. congruence.
  - destruct F1 as [I T]. destruct (lookup g1 id) as [g3 p] eqn:El. injection E as <- <-.
    destruct (lookup_spec _ _ _ _ _ _ I El) as (_ & b & -> & Hb). auto.
  - injection E as <- <-. unfold rootsCall. rewrite IH. auto.
  - injection E as <- <-. unfold toCall. destruct F1 as [I T]. destruct (lookup g1 id) as [g3 q] eqn:El.
    destruct (lookup_spec _ _ _ _ _ _ I El) as (-> & b & -> & Hb).
    destruct (nth_error (all g1) id); auto.
Qed.
(** Later calls repeat the first answer, whatever has been added. *)
Theorem C05_later_calls :
  forall H fmtTS g g1 r g2, built H fmtTS g -> rootsCall g = (g1, r) -> r <> [] ->
    reaches H fmtTS g1 g2 -> snd (rootsCall g2) = r.
Proof.
  intros H fmtTS g g1 r g2 B E Nr R.
  destruct (rootsCall_full H fmtTS g (built_full _ _ _ B)) as (F1 & _). rewrite E in F1. cbn [fst] in F1.
  assert (roots g1 = Some r).
  { unfold rootsCall in E. destruct (roots g) as [r0|] eqn:Er; injection E as <- <-; auto.
    cbn. destruct (rootsOf g); [congruence|auto]. }
  unfold rootsCall. rewrite (reaches_roots _ _ _ _ _ F1 R H0). reflexivity.
Qed.
Print Assumptions C05_later_calls.
(** "Roots are the nodes nobody uses" fails at the second call: here x is still
    reported although x + y uses it, and x + y is missing. *)
Definition exRooted : graph := exNew (fst (rootsCall exG2)) addL [0; 1].
Theorem C05_refuted :
  built fnv32a printTS exRooted /\ In 0 (snd (rootsCall exRooted)) /\ child exRooted 2 0 /\
  In 2 (all exRooted) /\ ~ In 2 (snd (rootsCall exRooted)).
Proof.
  split.
  { apply (exNew_step (fst (rootsCall exG2)) _ addL [0; 1]); [| |reflexivity|vm_compute; discriminate].
    - eapply reaches_step with (u := URoots); [apply exG2_built|exact Logic.I|reflexivity].
    - split; [|intros C; destruct (C eq_refl)]. solve [repeat (constructor; [left; vm_compute; auto|]); constructor]. }
  split; [vm_compute; auto|]. split; [exists (ofLabel addL [0; 1]); vm_compute; auto|].
  split; [vm_compute; auto|]. vm_compute. intros [?|[?|[]]]; discriminate.
Qed.
Print Assumptions C05_refuted.
(** A read statement made twice (the same node) hides the node it reads. *)
Definition readL : label := mkLabel KOp "read" (TScalar 0) [] "print 0xc0000" true.
Definition exRead1 : graph := exNew exG2 readL [0].
Definition exRead2 : graph := exNew exRead1 readL [0].
Theorem C05_repeated_read_refuted :
  all exRead1 = all exRead2 /\ In 0 (snd (rootsCall exRead1)) /\ ~ In 0 (snd (rootsCall exRead2)).
Proof. vm_compute. split; [auto|]. split; [auto|]. intuition discriminate. Qed.
Print Assumptions C05_repeated_read_refuted.

(** ** C06 *)
Theorem C06_directions :
  forall H fmtTS g u v a b, built H fmtTS g ->
    nth_error (all g) u = Some a -> nth_error (all g) v = Some b ->
    (snd (hasEdgeFromTo g u v) = true <-> child g a b) /\
    (In (a, b) (edgesOf g) <-> child g b a).
Proof.
  intros H fmtTS g u v a b B Eu Ev. destruct (built_full _ _ _ B) as [I T]. split.
  - unfold hasEdgeFromTo. destruct (lookup g u) as [g1 pu] eqn:E1.
    destruct (lookup_spec _ _ _ _ _ _ I E1) as (-> & b1 & -> & Hb1).
    destruct (withByID_inv _ _ g b1 _ I T Hb1) as [I1 _].
    destruct (lookup (withByID g b1) v) as [g2 pv] eqn:E2.
    destruct (lookup_spec _ _ _ _ _ _ I1 E2) as (-> & b2 & -> & Hb2).
    cbn [all withByID]. rewrite Eu, Ev. unfold getN, child. cbn [heap withByID snd].
    destruct (nth_error (heap g) a) as [n|].
    + rewrite existsb_exists. split.
      * intros [x [Ix Ex]]. apply Nat.eqb_eq in Ex. subst x. eauto.
      * intros [m [Em Im]]. injection Em as <-. exists b. split; auto. apply Nat.eqb_refl.
    + split; [discriminate|]. intros [m [Em _]]. discriminate.
  - unfold edgesOf. rewrite in_flat_map. split.
    + intros [p [Ip Ie]]. apply in_map_iff in Ie as [q [Eq Iq]]. injection Eq as <- <-.
      destruct (to g p) as [l|] eqn:El; [|contradiction]. eapply (i_to _ _ g I); eauto.
    + intros C. exists a. split; [eauto using nth_error_In|].
      destruct (T b a (nth_error_In _ _ Ev) Logic.I C) as [l [El Il]]. rewrite El. apply in_map. auto.
Qed.
Print Assumptions C06_directions.
(** Hence the two never agree on an edge. *)
Theorem C06_never_agree :
  forall H fmtTS g u v a b, built H fmtTS g ->
    nth_error (all g) u = Some a -> nth_error (all g) v = Some b ->
    In (a, b) (edgesOf g) -> snd (hasEdgeFromTo g u v) = false.
Proof.
  intros H fmtTS g u v a b B Eu Ev E. destruct (C06_directions H fmtTS g u v a b B Eu Ev) as [D1 D2].
  apply D2 in E. destruct (snd (hasEdgeFromTo g u v)); auto. exfalso.
  assert (C : child g a b) by (apply D1; auto).
  destruct (built_full _ _ _ B) as [I _]. destruct C as [n [En In1]]. destruct E as [m [Em In2]].
  pose proof (i_heap _ _ g I _ _ En) as F1. pose proof (i_heap _ _ g I _ _ Em) as F2.
  rewrite Forall_forall in F1, F2. specialize (F1 _ In1). specialize (F2 _ In2). lia.
Qed.
Print Assumptions C06_never_agree.
Example C06_ex : In (0, 2) (edgesOf exG5) /\ snd (hasEdgeFromTo exG5 2 0) = true.
Proof. vm_compute. auto. Qed.

(** ** C07 *)

(** A constant is answered by the graph's constant of that name, whatever type,
    shape or value either has. *)
Theorem C07_by_name_only :
  forall H fmtTS g c p a b, built H fmtTS g -> In c (constants g) ->
    isA g c a -> isA g p b -> nkind b = KConst -> nname a = nname b ->
    addNode H fmtTS g p = (g, c).
Proof.
  intros H fmtTS g c p a b B Ic Ea Eb Kb En. destruct (built_full _ _ _ B) as [I T].
  unfold addNode, getN. unfold isA in *. rewrite Eb. unfold isConstN. rewrite Kb.
  destruct (findConst (heap g) (constants g) (nname b)) as [d|] eqn:Ed.
  - apply findConst_some in Ed as (Id & n & En' & Nn).
    assert (d = c) by (eapply (i_names _ _ g I); eauto; congruence). subst d.
    destruct (proj2 (i_tokey _ _ g I c) (proj1 (i_const _ _ g I c Ic))) as [l El].
    rewrite (ensureTo_key _ _ _ El). reflexivity.
  - exfalso. eapply findConst_none; eauto.
Qed.
Print Assumptions C07_by_name_only.
(** A 1 of another type becomes the old 1: the new node has a child of the wrong
    type. *)
Definition one32 : node := mkNode KConst "1" (TScalar 1) [] "const 1: float32" [] false.
Definition exC1 : graph := fst (allocNode exG5 one32).
Definition mulL : label := mkLabel KOp "" vec [3] "*" false.
Definition madeNode (r : option (graph * ptr)) : option ptr := match r with Some (_, m) => Some m | None => None end.
Theorem C07_wrong_type_refuted :
  let g' := exNew exC1 mulL [2; 6] in
  built fnv32a printTS exC1 /\ isA exC1 6 one32 /\
  exists m n c cn, madeNode (newUniqueNode fnv32a printTS exC1 mulL [2; 6]) = Some m /\
    isA g' m n /\ nchildren n = [2; c] /\ isA g' c cn /\ nkind cn = KConst /\
    ntyp cn <> ntyp one32 /\ nop cn <> nop one32.
Proof.
  cbn zeta. split.
  { eapply reaches_step with (u := UConst one32); [apply exG5_built|split; reflexivity|reflexivity]. }
  split; [vm_compute; reflexivity|].
  exists 7, (ofLabel mulL [2; 4]), 4, oneC. split; [vm_compute; reflexivity|].
  split; [vm_compute; reflexivity|]. split; [reflexivity|]. split; [vm_compute; reflexivity|].
  split; [reflexivity|]. split; discriminate.
Qed.
Print Assumptions C07_wrong_type_refuted.
(** The same constant used twice can become two different values: 1 named "b" is
    first merged with a 1 named "a"; after a 2 named "b" came in, it is the 2. *)
Definition cA : node := mkNode KConst "a" (TScalar 0) [] "const 1: float64" [] false.
Definition cB : node := mkNode KConst "b" (TScalar 0) [] "const 1: float64" [] false.
Definition cB2 : node := mkNode KConst "b" (TScalar 0) [] "const 2: float64" [] false.
Definition exK0 : graph := fst (allocNode (fst (allocNode (fst (allocNode exG2 cA)) cB)) cB2).
Definition exK1 : graph := exNew exK0 addL [0; 2].
Definition exK2 : graph := exNew exK1 addL [0; 3].
Definition exK3 : graph := exNew exK2 addL [0; 4].
Definition exK4 : graph := exNew exK3 addL [0; 3].
Definition valueOfConst (g : graph) (p : ptr) : option string :=
  match getN g p with Some n => Some (nop n) | None => None end.
Theorem C07_constant_changes_value_refuted :
  built fnv32a printTS exK3 /\ isA exK1 3 cB /\ isA exK3 3 cB /\
  (exists m n c, madeNode (newUniqueNode fnv32a printTS exK1 addL [0; 3]) = Some m /\
     isA exK2 m n /\ nchildren n = [0; c] /\ valueOfConst exK2 c = Some "const 1: float64"%string) /\
  (exists m n c, madeNode (newUniqueNode fnv32a printTS exK3 addL [0; 3]) = Some m /\
     isA exK4 m n /\ nchildren n = [0; c] /\ valueOfConst exK4 c = Some "const 2: float64"%string).
Proof.
  split; [|split; [vm_compute; reflexivity|split; [vm_compute; reflexivity|split]]].
  - assert (B0 : built fnv32a printTS exK0).
    { eapply reaches_step with (u := UConst cB2); [|split; reflexivity|reflexivity].
      eapply reaches_step with (u := UConst cB); [|split; reflexivity|reflexivity].
      eapply reaches_step with (u := UConst cA); [apply exG2_built|split; reflexivity|reflexivity]. }
    assert (B1 : built fnv32a printTS exK1).
    { apply (exNew_step exK0 _ addL [0; 2]); [exact B0| |reflexivity|vm_compute; discriminate].
      split; [|intros C; destruct (C eq_refl)].
      constructor; [left; vm_compute; auto|]. constructor; [right; exists cA; vm_compute; auto|constructor]. }
    assert (B2 : built fnv32a printTS exK2).
    { apply (exNew_step exK1 _ addL [0; 3]); [exact B1| |reflexivity|vm_compute; discriminate].
      split; [|intros C; destruct (C eq_refl)].
      constructor; [left; vm_compute; auto|]. constructor; [right; exists cB; vm_compute; auto|constructor]. }
    apply (exNew_step exK2 _ addL [0; 4]); [exact B2| |reflexivity|vm_compute; discriminate].
    split; [|intros C; destruct (C eq_refl)].
    constructor; [left; vm_compute; auto|]. constructor; [right; exists cB2; vm_compute; auto|constructor].
  - exists 6, (ofLabel addL [0; 5]), 5. repeat split; vm_compute; reflexivity.
  - exists 9, (ofLabel addL [0; 8]), 8. repeat split; vm_compute; reflexivity.
Qed.
Print Assumptions C07_constant_changes_value_refuted.

(** ** C08 *)

(** Walking from a node gives what is reachable from it, once each, every node
    after one of its parents. *)
Theorem C08_walk :
  forall h s, ordered_heap h ->
    let o := fst (walkGraph h s []) in
    NoDup o /\ (forall x, In x o <-> below h s x) /\
    (forall a x b, o = a ++ x :: b ->
       x = s \/ exists y n, In y a /\ nth_error h y = Some n /\ In x (nchildren n)).
Proof.
  intros h s O. destruct (walkGraph h s []) as [o w] eqn:E. cbn [fst].
  destruct (walkGraph_spec h s o w O E) as (A & B & C). split; [auto|]. split; [auto|].
  intros a x b Eo. destruct (C a x b Eo) as [?|[y [Iy [n [En In]]]]]; eauto 8.
Qed.
Print Assumptions C08_walk.
(** Several roots: the union, once each. *)
Theorem C08_walk_roots :
  forall h rs, ordered_heap h ->
    NoDup (walks h rs []) /\
    (forall x, In x (walks h rs []) <-> exists r, In r rs /\ below h r x).
Proof.
  intros h rs O. assert (C : closedW h []) by (intros p c []).
  destruct (walks_spec h O rs [] C) as [N I]. cbn zeta in *. split; auto.
  intros x. rewrite I. cbn. tauto.
Qed.
Print Assumptions C08_walk_roots.
(** Every graph built by additions has such a heap. *)
Theorem C08_graphs_are_walkable :
  forall H fmtTS g, built H fmtTS g -> ordered_heap (heap g).
Proof. intros H fmtTS g B. apply (i_heap _ _ g (proj1 (built_full _ _ _ B))). Qed.
Print Assumptions C08_graphs_are_walkable.
Example C08_ex : fst (walkGraph (heap exG5) 5 []) = [5; 2; 0; 1; 4].
Proof. vm_compute. reflexivity. Qed.

(** ** C19, the graph part: log(1+x) *)
Lemma addNode_prefix : forall H fmtTS g p g' m, addNode H fmtTS g p = (g', m) ->
  (exists x, heap g' = heap g ++ x) /\ (exists y, all g' = all g ++ y) /\ (forall q i, idOf g q = Some i -> idOf g' q <> None).
Proof.
  intros H fmtTS g p g' m E. unfold addNode in E.
  assert (Eh : forall g q, heap (ensureTo g q) = heap g) by (intros; unfold ensureTo; destruct (to g0 q); auto).
  assert (Ea : forall g q, all (ensureTo g q) = all g) by (intros; unfold ensureTo; destruct (to g0 q); auto).
  assert (Ei : forall g q, idOf (ensureTo g q) = idOf g) by (intros; unfold ensureTo; destruct (to g0 q); auto).
  assert (Up : forall (f : ptr -> option nat) k v q i, f q = Some i -> updP f k (Some v) q <> None).
  { intros. unfold updP. destruct (Nat.eqb q k); congruence. }
  repeat match type of E with
  | context [match ?x with _ => _ end] => destruct x eqn:?
  end; injection E as <- <-; rewrite ?Eh, ?Ea, ?Ei; cbn;
  try (unfold cloneConst in *; match goal with X : (_, _) = (_, _) |- _ => injection X as <- <- end; cbn);
  (split; [first [exists []; rewrite app_nil_r; reflexivity|eexists; reflexivity]|]);
  (split; [first [exists []; rewrite app_nil_r; reflexivity|eexists; reflexivity]|]);
  intros; solve [congruence|eauto].
Qed.
Definition extends (g g' : graph) : Prop :=
  (exists x, heap g' = heap g ++ x) /\ (exists y, all g' = all g ++ y) /\
  (forall q i, idOf g q = Some i -> idOf g' q <> None).
Lemma extends_refl : forall g, extends g g.
Proof. intros g. split; [exists []; rewrite app_nil_r; auto|]. split; [exists []; rewrite app_nil_r; auto|congruence]. Qed.
Lemma extends_trans : forall a b c, extends a b -> extends b c -> extends a c.
Proof.
  intros a b c ([x1 X1] & [y1 Y1] & I1) ([x2 X2] & [y2 Y2] & I2).
  split; [exists (x1 ++ x2); rewrite X2, X1, app_assoc; auto|].
  split; [exists (y1 ++ y2); rewrite Y2, Y1, app_assoc; auto|].
  intros q i E. specialize (I1 q i E). destruct (idOf b q) as [j|] eqn:Ej; [|congruence]. eapply I2; eauto.
Qed.
Lemma lookup_extends : forall g id, extends g (fst (lookup g id)).
Proof.
  intros. unfold lookup. destruct (byID g id); [apply extends_refl|].
  destruct (findID (idOf g) (all g) id 0) as [[]|]; [|apply extends_refl].
  split; [exists []; rewrite app_nil_r; auto|]. split; [exists []; rewrite app_nil_r; auto|cbn; congruence].
Qed.
Lemma has_extends : forall g p, extends g (fst (has g p)).
Proof.
  intros. unfold has. destruct (idOf g p); [|apply extends_refl].
  pose proof (lookup_extends g n). destruct (lookup g n). auto.
Qed.
Lemma setEdge_extends : forall H fmtTS g a b g', setEdge H fmtTS g a b = Some g' -> extends g g'.
Proof.
  intros H fmtTS g a b g' E. unfold setEdge in E. destruct (Nat.eqb a b); [discriminate|].
  pose proof (has_extends g a) as L1. destruct (has g a) as [g1 hf]. cbn [fst] in L1.
  destruct (if hf then (g1, a) else addNode H fmtTS g1 a) as [g2 a'] eqn:E2.
  assert (L2 : extends g1 g2).
  { destruct hf; [injection E2 as <- <-; apply extends_refl|]. eapply addNode_prefix; eauto. }
  pose proof (has_extends g2 b) as L3. destruct (has g2 b) as [g3 ht]. cbn [fst] in L3.
  destruct (if ht then (g3, b) else addNode H fmtTS g3 b) as [g4 b'] eqn:E4.
  assert (L4 : extends g3 g4).
  { destruct ht; [injection E4 as <- <-; apply extends_refl|]. eapply addNode_prefix; eauto. }
  injection E as <-.
  assert (L : extends g g4) by (eapply extends_trans; [exact L1|]; eapply extends_trans; [exact L2|]; eapply extends_trans; eauto).
  exact L.
Qed.
Lemma setEdges_extends : forall H fmtTS cs g a g', setEdges H fmtTS g a cs = Some g' -> extends g g'.
Proof.
  induction cs as [|c cs IH]; cbn; intros g a g' E; [injection E as <-; apply extends_refl|].
  destruct (setEdge H fmtTS g a c) as [g1|] eqn:E1; [|discriminate].
  eapply extends_trans; [eapply setEdge_extends; eauto|eauto].
Qed.
Lemma fixChildren_extends : forall H fmtTS cs g g' cs', fixChildren H fmtTS g cs = (g', cs') -> extends g g'.
Proof.
  induction cs as [|c cs IH]; cbn; intros g g' cs' E; [injection E as <- <-; apply extends_refl|].
  destruct (addNode H fmtTS g c) as [g1 c1] eqn:E1. destruct (fixChildren H fmtTS g1 cs) as [g2 r] eqn:E2.
  injection E as <- <-. eapply extends_trans; [eapply addNode_prefix; eauto|eauto].
Qed.
Lemma newUniqueNode_extends : forall H fmtTS g l cs g' m, newUniqueNode H fmtTS g l cs = Some (g', m) ->
  extends g g'.
Proof.
  intros H fmtTS g l cs g' m E. unfold newUniqueNode in E.
  destruct (fixChildren H fmtTS g cs) as [g1 cs'] eqn:E1. cbn [allocNode] in E.
  destruct (addNode H fmtTS _ _) as [g3 m3] eqn:E3.
  eapply extends_trans; [eapply fixChildren_extends; eauto|].
  assert (X : extends g1 g3).
  { eapply extends_trans; [|eapply addNode_prefix; eauto].
    split; [eexists; reflexivity|]. split; [exists []; rewrite app_nil_r; auto|cbn; congruence]. }
  eapply extends_trans; [exact X|].
  unfold fixEdges in E. destruct (getN g3 m3) as [n|]; [|discriminate].
  destruct (nchildren n) as [|c0 c1].
  - injection E as <- <-. split; [exists []; rewrite app_nil_r; auto|]. split; [exists []; rewrite app_nil_r; auto|cbn; congruence].
  - destruct (setEdges H fmtTS g3 m3 (c0 :: c1)) as [g4|] eqn:E4; [|discriminate].
    injection E as <- <-. eapply setEdges_extends; eauto.
Qed.
Lemma setNth_same : forall {X} (l : list X) i x, i < List.length l -> nth_error (setNth l i x) i = Some x.
Proof. induction l as [|y l IH]; intros [|i] x L; cbn in *; try lia; auto. apply IH. lia. Qed.
Lemma setNth_other : forall {X} (l : list X) i j x, i <> j -> nth_error (setNth l i x) j = nth_error l j.
Proof. induction l as [|y l IH]; intros [|i] [|j] x N; cbn in *; try lia; auto. Qed.

(** Taking the log of a = 1 + x while another node q uses a: a leaves the graph
    and becomes an input without name, type or children, and q stays in the graph
    with that as its child. *)
Theorem C19_log_of_one_plus_x :
  forall H fmtTS g a q l x g' m,
    built H fmtTS g -> In a (all g) -> In q (all g) -> child g q a ->
    logStabilize H fmtTS g a l x = Some (g', m) ->
    ~ In a (all g') /\ In q (all g') /\ child g' q a /\
    exists b, isA g' a b /\ nkind b = KInput /\ nchildren b = [] /\ nname b = EmptyString.
Proof.
  intros H fmtTS g a q l x g' m B Ia Iq C E. destruct (built_full _ _ _ B) as [I T].
  unfold logStabilize in E.
  destruct (newUniqueNode H fmtTS (dropArgument H fmtTS g a) l [x]) as [[g1 m1]|] eqn:En; [|discriminate].
  injection E as <- <-. apply newUniqueNode_extends in En as ([hx Hx] & [ay Ay] & Ids).
  apply In_nth_error in Ia as Ia'. destruct Ia' as [i Ei].
  assert (Ida : idOf g a = Some i) by (apply (i_id _ _ g I); auto).
  assert (Drop : heap (dropArgument H fmtTS g a) = heap g /\ all (dropArgument H fmtTS g a) = removeP (all g) a
                 /\ idOf (dropArgument H fmtTS g a) = idOf g).
  { unfold dropArgument, removeNode, removeAllEdgesFrom. cbn [idOf]. rewrite Ida. auto. }
  destruct Drop as (D1 & D2 & D3). rewrite D1 in Hx. rewrite D2 in Ay. rewrite D3 in Ids.
  assert (Nqa : q <> a).
  { intros ->. destruct C as [n [Ex In1]]. pose proof (i_heap _ _ g I _ _ Ex) as F1.
    rewrite Forall_forall in F1. specialize (F1 _ In1). lia. }
  specialize (Ids a i Ida). destruct (idOf g1 a) as [k|] eqn:Ek; [|congruence].
  unfold returnNode, removeNode. rewrite Ek. cbn [all heap].
  assert (La : a < List.length (heap g1)).
  { rewrite Hx, app_length. pose proof (i_lt _ _ g I a Ia). lia. }
  split; [|split; [|split]].
  - unfold removeP. rewrite filter_In. intros [_ X]. rewrite Nat.eqb_refl in X. discriminate.
  - unfold removeP. apply filter_In. split.
    + rewrite Ay. apply in_app_iff. left. apply filter_In. split; auto.
      apply negb_true_iff, Nat.eqb_neq. auto.
    + apply negb_true_iff, Nat.eqb_neq. auto.
  - destruct C as [n [Ex In1]]. exists n. cbn [heap]. rewrite setNth_other by auto.
    split; auto. rewrite Hx. auto using nth_prefix.
  - exists blankNode. unfold isA. cbn [heap]. split; [apply setNth_same; auto|]. auto.
Qed.
Print Assumptions C19_log_of_one_plus_x.
Definition log1pL : label := mkLabel KOp "" vec [3] "log1p" false.
Definition exLog : graph :=
  match logStabilize fnv32a printTS exG5 2 log1pL 0 with Some (g', _) => g' | None => exG5 end.
Example C19_ex : child exG5 5 2 /\ all exLog = [0; 1; 4; 5; 6] /\ child exLog 5 2 /\
  isA exLog 2 blankNode.
Proof.
  split; [exists (ofLabel addL [2; 4]); vm_compute; auto|]. split; [vm_compute; reflexivity|].
  split; [exists (ofLabel addL [2; 4]); vm_compute; auto|]. vm_compute. reflexivity.
Qed.

(** ** C48 *)

(** Subgraph of a single node holds that node and statements using it, nothing
    else: none of the nodes it is computed from. *)
Theorem C48_subgraph_of_one :
  forall H fmtTS g n g', built H fmtTS g -> In n (all g) -> subgraph g [n] = Some g' ->
    forall p, In p (all g') <->
      p = n \/ (In p (all g) /\ child g p n /\ exists x, isA g p x /\ stmt x = true).
Proof.
  intros H fmtTS g n g' B In' E p. destruct (built_full _ _ _ B) as [I T].
  unfold subgraph, subgraphGen in E. cbn zeta in E.
  destruct (mapO _ _) as [ls|]; [|discriminate].
  assert (Ea : all g' = uniq ([n] ++ flat_map (fun n => filter (isStmtP g) (parentsOf g n)) [n]))
    by (injection E as <-; reflexivity).
  rewrite Ea. unfold uniq. rewrite nodup_In. cbn [flat_map app]. rewrite app_nil_r. cbn [In].
  rewrite filter_In. unfold isStmtP, getN, parentsOf, isA.
  destruct (proj2 (i_tokey _ _ g I n) In') as [l El]. rewrite El. split.
  - intros [->|[Ip S]]; auto. right. destruct (i_to _ _ g I _ _ _ El Ip) as [A C].
    split; auto. split; auto. destruct (nth_error (heap g) p) as [x|]; [eauto|discriminate].
  - intros [->|(A & C & x & Ex & S)]; auto. right.
    destruct (T p n A Logic.I C) as [l' [El' Il]]. rewrite El in El'. injection El' as <-.
    rewrite Ex. auto.
Qed.
Print Assumptions C48_subgraph_of_one.
(** SubgraphRoots is what Subgraph's comment promises: all that is reachable (and
    statements using it); ExactSubgraphRoots without the statements. *)
Theorem C48_subgraphRoots :
  forall H fmtTS g rs g' p, built H fmtTS g -> (forall r, In r rs -> In r (all g)) ->
    subgraphRoots g rs = Some g' ->
    (In p (all g') <->
      (exists r, In r rs /\ below (heap g) r p) \/
      (In p (all g) /\ (exists x, isA g p x /\ stmt x = true) /\
       exists r c, In r rs /\ below (heap g) r c /\ child g p c)).
Proof.
  intros H fmtTS g rs g' p B Hrs E. destruct (built_full _ _ _ B) as [I T].
  unfold subgraphRoots, subgraphGen in E. cbn zeta in E.
  destruct (mapO (rootOf g) rs) as [ls|]; [|discriminate]. injection E as <-. cbn [all].
  unfold uniq. rewrite nodup_In, in_app_iff, in_flat_map.
  assert (W : forall x, In x (walkFromRoots (heap g) rs) <-> exists r, In r rs /\ below (heap g) r x).
  { intros x. unfold walkFromRoots. rewrite in_app_iff.
    rewrite (proj2 (C08_walk_roots (heap g) rs (i_heap _ _ g I)) x). split; auto.
    intros [Ix|?]; auto. exists x. split; auto. constructor. }
  assert (Below_all : forall r x, In r (all g) -> below (heap g) r x -> In x (all g)).
  { intros r x Ir Hb. induction Hb as [|r c x n En Ic Hc IH]; auto. apply IH. eapply before_in.
    apply (i_closed _ _ g I r); auto. exists n. auto. }
  split.
  - intros [Ip|[c [Ic Ip]]]; [left; apply W; auto|]. right.
    apply filter_In in Ip as [Ip S]. apply W in Ic as [r [Ir Hb]].
    unfold parentsOf in Ip. destruct (to g c) as [l|] eqn:El; [|contradiction].
    destruct (i_to _ _ g I _ _ _ El Ip) as [A C]. split; auto. split.
    + unfold isStmtP, getN in S. destruct (nth_error (heap g) p) as [x|] eqn:Ex; [|discriminate]. exists x. auto.
    + exists r, c. auto.
  - intros [Ex|(A & (x & Ex & S) & r & c & Ir & Hb & C)]; [left; apply W; auto|]. right.
    exists c. split; [apply W; eauto|]. apply filter_In. split.
    + unfold parentsOf. destruct (T p c A Logic.I C) as [l [El Il]]. rewrite El. auto.
    + unfold isStmtP, getN. unfold isA in Ex. rewrite Ex. auto.
Qed.
Print Assumptions C48_subgraphRoots.
Theorem C48_exactSubgraphRoots :
  forall H fmtTS g rs g' p, built H fmtTS g -> (forall r, In r rs -> In r (all g)) ->
    exactSubgraphRoots g rs = Some g' ->
    (In p (all g') <-> exists r, In r rs /\ below (heap g) r p).
Proof.
  intros H fmtTS g rs g' p B Hrs E. destruct (built_full _ _ _ B) as [I T].
  unfold exactSubgraphRoots, subgraphGen in E. cbn zeta in E.
  destruct (mapO (rootOf g) rs) as [ls|]; [|discriminate]. injection E as <-. cbn [all].
  rewrite app_nil_r. unfold uniq. rewrite nodup_In. unfold walkFromRoots. rewrite in_app_iff.
  rewrite (proj2 (C08_walk_roots (heap g) rs (i_heap _ _ g I)) p). split; auto.
  intros [Ix|?]; auto. exists p. split; auto. constructor.
Qed.
Print Assumptions C48_exactSubgraphRoots.
(** The documented meaning of Subgraph with one node fails. *)
Theorem C48_subgraph_refuted :
  option_map all (subgraph exG5 [5]) = Some [5] /\
  option_map all (subgraphRoots exG5 [5]) = Some [5; 2; 0; 1; 4].
Proof. split; vm_compute; reflexivity. Qed.
Print Assumptions C48_subgraph_refuted.

(** ** C49 *)

(** A clone has as many nodes, at the same positions with the same ids and
    contents, children corresponding, and shares no node with the original,
    whose nodes stay as they are. *)
Theorem C49_clone_is_a_copy :
  forall H fmtTS g, built H fmtTS g ->
    exists g', cloneGraph g = Some g' /\
      List.length (all g') = List.length (all g) /\
      (forall p, In p (all g') -> ~ In p (all g)) /\
      (forall p n, In p (all g) -> isA g p n -> isA g' p n) /\
      (forall i p n, nth_error (all g) i = Some p -> isA g p n ->
         exists q n', nth_error (all g') i = Some q /\ isA g' q n' /\ idOf g' q = idOf g p /\
           nkind n' = nkind n /\ nname n' = nname n /\ ntyp n' = ntyp n /\ nshape n' = nshape n /\
           nop n' = nop n /\ stmt n' = stmt n /\
           List.length (nchildren n') = List.length (nchildren n) /\
           forall k c, nth_error (nchildren n) k = Some c ->
             exists j c', nth_error (all g) j = Some c /\ nth_error (all g') j = Some c' /\
                          nth_error (nchildren n') k = Some c').
Proof.
  intros H fmtTS g B. assert (F := built_full _ _ _ B). pose proof F as [I T].
  destruct (clone_total H fmtTS g F (built_tidy _ _ _ B)) as [g' E]. exists g'. split; [auto|].
  destruct (clone_spec H fmtTS g g' F E) as (L & Sp & Old & _). split; [auto|]. split; [|split].
  - intros p Ip Ip'. apply In_nth_error in Ip as [i Ei]. pose proof (nth_lt _ _ _ Ei) as Li. rewrite L in Li.
    destruct (nth_error (all g) i) as [q|] eqn:Eq; [|apply nth_error_None in Eq; lia].
    destruct (Sp i q Eq) as [E1 _]. rewrite Ei in E1. injection E1 as ->.
    apply (i_lt _ _ g I) in Ip'. lia.
  - intros p n Ip En. unfold isA in *. rewrite Old; auto. apply (i_lt _ _ g I). auto.
  - intros i p n Ei En. destruct (Sp i p Ei) as (E1 & Ed & M & n0 & n' & En0 & En' & A1 & A2 & A3 & A4 & A5 & A6 & Am).
    unfold isA in En. rewrite En in En0. injection En0 as <-.
    eexists. exists n'. split; [exact E1|]. split; [exact En'|]. split; [auto|].
    split; [auto|]. split; [auto|]. split; [auto|]. split; [auto|]. split; [auto|]. split; [auto|].
    destruct (mapO_nth _ _ _ Am) as [Lc Nc]. split; [auto|].
    intros k c Ek. pose proof (Nc k c Ek) as Hk.
    assert (Ic : In c (all g)).
    { eapply before_in. apply (i_closed _ _ g I p); [eauto using nth_error_In|].
      exists n. split; auto. eauto using nth_error_In. }
    apply In_nth_error in Ic as [j Ej]. exists j. eexists. split; [exact Ej|].
    destruct (Sp j c Ej) as (Ej' & _ & Mc & _). split; [exact Ej'|]. rewrite Hk. exact Mc.
Qed.
Print Assumptions C49_clone_is_a_copy.
(** A node added to the clone gets an id that none of its nodes has. *)
Theorem C49_next_id_of_the_clone_is_new :
  forall H fmtTS g g', built H fmtTS g -> cloneGraph g = Some g' ->
    forall p, In p (all g') -> exists i, idOf g' p = Some i /\ i <> counter g'.
Proof.
  intros H fmtTS g g' B E p Ip. assert (F := built_full _ _ _ B). pose proof F as [I T].
  destruct (clone_spec H fmtTS g g' F E) as (L & Sp & _).
  apply In_nth_error in Ip as [i Ei]. pose proof (nth_lt _ _ _ Ei) as Li. rewrite L in Li.
  destruct (nth_error (all g) i) as [q|] eqn:Eq; [|apply nth_error_None in Eq; lia].
  destruct (Sp i q Eq) as (E1 & Ed & _). rewrite Ei in E1. injection E1 as ->.
  rewrite Ed, (proj2 (i_id _ _ g I q i) Eq). exists i. split; [reflexivity|].
  assert (C : counter g' = counter g).
  { unfold cloneGraph in E. repeat destruct (mapO _ _) in E; try discriminate. injection E as <-. reflexivity. }
  rewrite C, (i_counter _ _ g I). lia.
Qed.
Print Assumptions C49_next_id_of_the_clone_is_new.
(** But the clone's Roots are the answer remembered by the original: none at all
    if the original was never asked. *)
Theorem C49_clone_roots :
  forall H fmtTS g g', built H fmtTS g -> cloneGraph g = Some g' -> roots g = None ->
    snd (rootsCall g') = [].
Proof.
  intros H fmtTS g g' B E R. destruct (clone_spec H fmtTS g g' (built_full _ _ _ B) E) as (_ & _ & _ & rs & M & Er).
  rewrite R in M. cbn in M. injection M as <-. unfold rootsCall. rewrite Er. reflexivity.
Qed.
Print Assumptions C49_clone_roots.
Theorem C49_clone_roots_refuted :
  snd (rootsCall exG5) = [5] /\
  option_map (fun g' => snd (rootsCall g')) (cloneGraph exG5) = Some [].
Proof. split; vm_compute; reflexivity. Qed.
Print Assumptions C49_clone_roots_refuted.
