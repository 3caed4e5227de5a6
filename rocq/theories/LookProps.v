(** C107: queries on a graph, and ExprGraph.Constant. *)
From Coq Require Import Arith List Bool String Lia.
From Verif Require Import GraphModel GraphSpec GraphProofs GraphHistory GraphProps
  LookModel LookSpec.
Import ListNotations.
Open Scope list_scope.

(** ** Listings *)
Lemma filter_before : forall (f : ptr -> bool) l p q, NoDup l ->
  before (filter f l) p q -> before l p q.
Proof.
  induction l as [|a l IH]; intros p q N (i & j & L & Ei & Ej); [destruct i; discriminate|].
  inversion N as [|? ? Na Nl]; subst. cbn [filter] in Ei, Ej. destruct (f a) eqn:Ef.
  - destruct j as [|j]; [lia|]. cbn [nth_error] in Ej. destruct i as [|i].
    + cbn in Ei. injection Ei as <-. apply nth_error_In in Ej. apply filter_In in Ej as [Ej _].
      apply In_nth_error in Ej as [k Ek]. exists 0, (S k). repeat split; auto. lia.
    + cbn [nth_error] in Ei. destruct (IH p q Nl) as (i' & j' & L' & Ei' & Ej').
      { exists i, j. repeat split; auto. lia. }
      exists (S i'), (S j'). repeat split; auto. lia.
  - destruct (IH p q Nl) as (i' & j' & L' & Ei' & Ej'); [exists i, j; auto|].
    exists (S i'), (S j'). repeat split; auto. lia.
Qed.

Lemma listing_filter : forall H fmtTS g (f : node -> bool), built H fmtTS g ->
  listing g (fun n => f n = true)
    (filter (fun p => match getN g p with Some n => f n | None => false end) (all g)).
Proof.
  intros H fmtTS g f B. destruct (built_full _ _ _ B) as [I T].
  split; [apply NoDup_filter, (i_nodup _ _ g I)|]. split.
  - intros p. rewrite filter_In. unfold getN, isA. split; intros [A P]; (split; [exact A|]).
    + destruct (nth_error (heap g) p) as [n|]; [|discriminate]. eauto.
    + destruct P as (n & -> & Fn). exact Fn.
  - intros p q. apply filter_before, (i_nodup _ _ g I).
Qed.

Lemma listing_ext : forall g P Q l, (forall n, P n <-> Q n) -> listing g P l -> listing g Q l.
Proof.
  intros g P Q l E (N & L & O). split; [exact N|]. split; [|exact O].
  intros p. rewrite L. split; intros (A & n & B & C); (split; [exact A|]); exists n;
    (split; [exact B|]); apply E; exact C.
Qed.

(** Inputs gives the inputs. *)
Theorem C107_inputs : forall H fmtTS g, built H fmtTS g ->
  listing g (fun n => nkind n = KInput) (inputsOf g).
Proof.
  intros H fmtTS g B. eapply listing_ext; [|exact (listing_filter _ _ g isInputN B)].
  intros n. unfold isInputN. destruct (nkind n); split; congruence.
Qed.
Print Assumptions C107_inputs.

(** ByName gives the nodes with that internal name; the empty name gives all the
    nodes nobody named. *)
Theorem C107_by_name : forall H fmtTS g name, built H fmtTS g ->
  listing g (fun n => nname n = name) (byName g name).
Proof.
  intros H fmtTS g name B.
  eapply listing_ext; [|exact (listing_filter _ _ g (fun n => String.eqb (nname n) name) B)].
  intros n. apply String.eqb_eq.
Qed.
Print Assumptions C107_by_name.

Example C107_inputs_ex : built fnv32a printTS exG5 /\ inputsOf exG5 = [0; 1] /\
  byName exG5 "y" = [1] /\ byName exG5 "" = [2; 5].
Proof. split; [apply exG5_built|]. vm_compute. auto. Qed.

(** ** Lookups *)
Lemma lookup2 : forall H fmtTS g u v, built H fmtTS g ->
  exists b1 b2, lookup g u = (withByID g b1, nth_error (all g) u) /\
    lookup (withByID g b1) v = (withByID (withByID g b1) b2, nth_error (all g) v).
Proof.
  intros H fmtTS g u v B. destruct (built_full _ _ _ B) as [I T].
  destruct (lookup g u) as [g1 pu] eqn:E1.
  destruct (lookup_spec _ _ _ _ _ _ I E1) as (-> & b1 & -> & Hb1).
  destruct (withByID_inv _ _ g b1 _ I T Hb1) as [I1 _].
  destruct (lookup (withByID g b1) v) as [g2 pv] eqn:E2.
  destruct (lookup_spec _ _ _ _ _ _ I1 E2) as (-> & b2 & -> & Hb2).
  exists b1, b2. auto.
Qed.

Lemma contains_in : forall l p, contains l p = true <-> In p l.
Proof.
  intros l p. unfold contains. rewrite existsb_exists. split.
  - intros (x & Ix & E). apply Nat.eqb_eq in E. subst. exact Ix.
  - intros Ip. exists p. split; [exact Ip|apply Nat.eqb_refl].
Qed.

Lemma contains_child : forall g a b, contains (childrenOf g a) b = true <-> child g a b.
Proof.
  intros g a b. rewrite contains_in. unfold childrenOf, getN, child.
  destruct (nth_error (heap g) a) as [n|]; split.
  - eauto.
  - intros (m & E & Im). injection E as <-. exact Im.
  - intros [].
  - intros (m & E & _). discriminate.
Qed.

(** Edge on ids: the edge from a node to its child and nothing else. *)
Theorem C107_edge : forall H fmtTS g u v a b, built H fmtTS g ->
  (snd (edgeCall g u v) = Some (a, b) <->
   nth_error (all g) u = Some a /\ nth_error (all g) v = Some b /\ child g a b).
Proof.
  intros H fmtTS g u v a b B. destruct (lookup2 _ _ g u v B) as (b1 & b2 & E1 & E2).
  unfold edgeCall. rewrite E1, E2. cbn [snd].
  destruct (nth_error (all g) u) as [x|]; [|split; [discriminate|intros (E & _); discriminate]].
  destruct (nth_error (all g) v) as [y|]; [|split; [discriminate|intros (_ & E & _); discriminate]].
  change (childrenOf (withByID (withByID g b1) b2) x) with (childrenOf g x).
  destruct (contains (childrenOf g x) y) eqn:C.
  - apply contains_child in C. split.
    + intros E. injection E as <- <-. auto.
    + intros (E & F & _). congruence.
  - split; [discriminate|]. intros (E & F & D). injection E as ->. injection F as ->.
    apply contains_child in D. congruence.
Qed.
Print Assumptions C107_edge.

(** HasEdgeBetween looks both ways. *)
Theorem C107_between : forall H fmtTS g u v, built H fmtTS g ->
  (snd (hasEdgeBetween g u v) = true <->
   exists a b, nth_error (all g) u = Some a /\ nth_error (all g) v = Some b /\
               (child g a b \/ child g b a)).
Proof.
  intros H fmtTS g u v B. destruct (lookup2 _ _ g u v B) as (b1 & b2 & E1 & E2).
  unfold hasEdgeBetween. rewrite E1, E2. cbn [snd].
  destruct (nth_error (all g) u) as [x|];
    [|split; [discriminate|intros (? & ? & E & _); discriminate]].
  destruct (nth_error (all g) v) as [y|];
    [|split; [discriminate|intros (? & ? & _ & E & _); discriminate]].
  change (childrenOf (withByID (withByID g b1) b2)) with (childrenOf g).
  rewrite orb_true_iff, !contains_child. split.
  - intros C. exists x, y. auto.
  - intros (p & q & E & F & C). injection E as <-. injection F as <-. exact C.
Qed.
Print Assumptions C107_between.

(** The three ways to ask agree among themselves and never with Edges: what
    Edges lists as (a, b) is not an edge for Edge, though its reverse is. *)
Theorem C107_edges_reversed : forall H fmtTS g u v a b, built H fmtTS g ->
  nth_error (all g) u = Some a -> nth_error (all g) v = Some b ->
  (snd (edgeCall g u v) = Some (a, b) <-> snd (hasEdgeFromTo g u v) = true) /\
  (In (a, b) (edgesOf g) ->
   snd (edgeCall g u v) = None /\ snd (edgeCall g v u) = Some (b, a) /\
   snd (hasEdgeBetween g u v) = true).
Proof.
  intros H fmtTS g u v a b B Eu Ev.
  destruct (C06_directions H fmtTS g u v a b B Eu Ev) as [D1 D2]. split.
  - rewrite (C107_edge H fmtTS g u v a b B), D1. tauto.
  - intros E. pose proof (C06_never_agree H fmtTS g u v a b B Eu Ev E) as F.
    apply D2 in E. split; [|split].
    + destruct (snd (edgeCall g u v)) as [[x y]|] eqn:Ec; [|reflexivity]. exfalso.
      apply (C107_edge H fmtTS g u v x y B) in Ec as (Ex & Ey & Cxy).
      assert (x = a) by congruence. assert (y = b) by congruence. subst.
      apply D1 in Cxy. congruence.
    + apply (C107_edge H fmtTS g v u b a B). auto.
    + apply (C107_between H fmtTS g u v B). exists a, b. auto.
Qed.
Print Assumptions C107_edges_reversed.

(** HasEdgeFromTo with an id no node has: false. *)
Theorem C107_has_edge_unknown : forall H fmtTS g u v, built H fmtTS g ->
  nth_error (all g) u = None \/ nth_error (all g) v = None -> snd (hasEdgeFromTo g u v) = false.
Proof.
  intros H fmtTS g u v B N. destruct (lookup2 _ _ g u v B) as (b1 & b2 & E1 & E2). unfold hasEdgeFromTo. rewrite E1, E2. cbn [snd].
  destruct N as [N|N]; rewrite N; [reflexivity|]. destruct (nth_error (all g) u); reflexivity.
Qed.
Print Assumptions C107_has_edge_unknown.
Example C107_ex_unknown : snd (hasEdgeFromTo exG5 2 99) = false /\ snd (hasEdgeFromTo exG5 2 0) = true.
Proof. split; reflexivity. Qed.

(** From gives the children, as often as they are operands; Nodes gives every
    node once. *)
Theorem C107_from : forall H fmtTS g u a n, built H fmtTS g ->
  nth_error (all g) u = Some a -> isA g a n ->
  snd (fromCall g u) = Some (nchildren n) /\ NoDup (nodesCall g) /\ In a (nodesCall g).
Proof.
  intros H fmtTS g u a n B Eu En. destruct (lookup2 _ _ g u u B) as (b1 & b2 & E1 & _).
  unfold fromCall. rewrite E1. cbn [snd]. rewrite Eu. split.
  - f_equal. unfold childrenOf, getN. cbn [heap withByID]. unfold isA in En. rewrite En. reflexivity.
  - destruct (built_full _ _ _ B) as [I T]. split; [apply (i_nodup _ _ g I)|].
    eapply nth_error_In; eauto.
Qed.
Print Assumptions C107_from.

(** For an id the graph does not have, From gives a nil iterator, and Node gives
    an interface that is not nil: it holds a nil pointer. *)
Theorem C107_unknown : forall H fmtTS g u, built H fmtTS g ->
  List.length (all g) <= u ->
  snd (fromCall g u) = None /\ snd (nodeCall g u) = Some None /\
  (forall v, snd (edgeCall g u v) = None /\ snd (edgeCall g v u) = None).
Proof.
  intros H fmtTS g u B L.
  assert (N : nth_error (all g) u = None) by (apply nth_error_None; exact L).
  destruct (lookup2 _ _ g u u B) as (b1 & b2 & E1 & _).
  unfold fromCall, nodeCall. rewrite E1. cbn [snd]. rewrite N. repeat split.
  - destruct (snd (edgeCall g u v)) as [[x y]|] eqn:E; [|reflexivity].
    apply (C107_edge H fmtTS g u v x y B) in E as (E & _). congruence.
  - destruct (snd (edgeCall g v u)) as [[x y]|] eqn:E; [|reflexivity].
    apply (C107_edge H fmtTS g v u x y B) in E as (_ & E & _). congruence.
Qed.
Print Assumptions C107_unknown.

(** Refuted: Node gives nil for ids that are not in the graph (the contract of
    gonum's graph.Graph). *)
Theorem C107_node_nil_refuted : exists g u, built fnv32a printTS g /\
  (forall p, In p (all g) -> idOf g p <> Some u) /\ snd (nodeCall g u) <> None.
Proof.
  exists exG5, 7. split; [apply exG5_built|]. split; [|vm_compute; discriminate].
  intros p Ip. assert (E : all exG5 = [0; 1; 2; 4; 5]) by (vm_compute; reflexivity).
  rewrite E in Ip. clear E.
  destruct Ip as [<-|[<-|[<-|[<-|[<-|[]]]]]]; vm_compute; discriminate.
Qed.
Print Assumptions C107_node_nil_refuted.

(** ** Constant *)
Section Constant.
Variables (H : string -> word) (fmtTS : ntype -> list nat -> string).
Variables (V : Type) (valOf : node -> V) (valueEq : V -> V -> bool) (mk : V -> node).

Lemma findValue_spec : forall g cs v,
  match findValue V valOf valueEq g cs v with
  | Some c => exists l1 l2 n, cs = l1 ++ c :: l2 /\ isA g c n /\ valueEq (valOf n) v = true /\
      forall d m, In d l1 -> isA g d m -> valueEq (valOf m) v = false
  | None => forall d m, In d cs -> isA g d m -> valueEq (valOf m) v = false
  end.
Proof.
  intros g cs v. induction cs as [|c cs IH]; cbn [findValue]; [intros d m []|].
  unfold isA in *. unfold getN.
  destruct (nth_error (heap g) c) as [n|] eqn:En.
  - destruct (valueEq (valOf n) v) eqn:Ev.
    + exists [], cs, n. repeat split; auto. intros d m [].
    + destruct (findValue V valOf valueEq g cs v) as [d|].
      * destruct IH as (l1 & l2 & m & -> & Em & Vm & F). exists (c :: l1), l2, m.
        repeat split; auto. intros d' m' [<-|I'] E'; [congruence|eauto].
      * intros d m [<-|I'] E'; [congruence|eauto].
  - destruct (findValue V valOf valueEq g cs v) as [d|].
    + destruct IH as (l1 & l2 & m & -> & Em & Vm & F). exists (c :: l1), l2, m.
      repeat split; auto. intros d' m' [<-|I'] E'; [congruence|eauto].
    + intros d m [<-|I'] E'; [congruence|eauto].
Qed.

Lemma isA_alloc : forall g n p a, p < List.length (heap g) ->
  (isA (fst (allocNode g n)) p a <-> isA g p a).
Proof.
  intros g n p a L. unfold isA. cbn [allocNode fst heap].
  rewrite nth_error_app1 by exact L. reflexivity.
Qed.
End Constant.

(** A recorded constant with an equal value is given as it is; the graph does not
    change. *)
Theorem C107_constant_found : forall H fmtTS V valOf valueEq mk g (v : V) c,
  built H fmtTS g ->
  recorded g (fun n => valueEq (valOf n) v = true) c ->
  exists m, constantCall H fmtTS V valOf valueEq mk g v = (g, m) /\
    recorded g (fun n => valueEq (valOf n) v = true) m.
Proof.
  intros H fmtTS V valOf valueEq mk g v c B (Ic & n & En & Vn).
  unfold constantCall. pose proof (findValue_spec V valOf valueEq g (constants g) v) as F.
  destruct (findValue V valOf valueEq g (constants g) v) as [m|].
  - destruct F as (l1 & l2 & k & E & Ek & Vk & _). exists m. split; [reflexivity|].
    split; [rewrite E; apply in_or_app; right; left; reflexivity|]. exists k. auto.
  - rewrite (F c n Ic En) in Vn. discriminate.
Qed.
Print Assumptions C107_constant_found.

(** Otherwise a recorded constant that only has the name (the printed value) is
    given: of whatever value, type and shape it is. *)
Theorem C107_constant_by_name : forall H fmtTS V valOf valueEq mk g (v : V) c,
  built H fmtTS g -> lawfulConst valOf mk ->
  (forall d, ~ recorded g (fun n => valueEq (valOf n) v = true) d) ->
  recorded g (fun n => nname n = nname (mk v)) c ->
  exists g', constantCall H fmtTS V valOf valueEq mk g v = (g', c) /\ all g' = all g /\
    (forall n, isA g c n -> isA g' c n /\ valueEq (valOf n) v = false).
Proof.
  intros H fmtTS V valOf valueEq mk g v c B Law Nv (Ic & n & En & Nn).
  destruct (built_full _ _ _ B) as [I T].
  unfold constantCall. pose proof (findValue_spec V valOf valueEq g (constants g) v) as F.
  destruct (findValue V valOf valueEq g (constants g) v) as [m|].
  { destruct F as (l1 & l2 & k & E & Ek & Vk & _). exfalso. apply (Nv m).
    split; [rewrite E; apply in_or_app; right; left; reflexivity|]. exists k. auto. }
  destruct (Law v) as (K & Ch & _).
  assert (L : c < List.length (heap g)) by (apply nth_error_Some; unfold isA in En; congruence).
  set (g1 := fst (allocNode g (mk v))).
  assert (B1 : built H fmtTS g1).
  { eapply reaches_step with (u := UConst (mk v)); [exact B|split; [exact K|exact Ch]|reflexivity]. }
  pose proof (C07_by_name_only H fmtTS g1 c (List.length (heap g)) n (mk v) B1) as A.
  exists g1. cbn [allocNode]. split; [|split].
  - apply A; [exact Ic| |unfold isA; cbn [g1 allocNode fst heap]; rewrite nth_error_app2, Nat.sub_diag by lia; reflexivity|exact K|exact Nn].
    apply isA_alloc; assumption.
  - reflexivity.
  - intros n' En'. split; [apply isA_alloc; assumption|]. exact (F c n' Ic En').
Qed.
Print Assumptions C107_constant_by_name.

(** And if there is none of the name either, the result has the contents of the
    new constant — as a new node of the graph — or is a node of the graph that
    cannot be told from it by hash code, type and shape. *)
Theorem C107_constant_new : forall H fmtTS V valOf valueEq mk g (v : V) g' m,
  built H fmtTS g -> lawfulConst valOf mk ->
  (forall d, ~ recorded g (fun n => valueEq (valOf n) v = true) d) ->
  (forall d, ~ recorded g (fun n => nname n = nname (mk v)) d) ->
  constantCall H fmtTS V valOf valueEq mk g v = (g', m) ->
  (~ In m (all g) /\ all g' = all g ++ [m] /\ isA g' m (mk v)) \/
  (In m (all g) /\ all g' = all g /\
   exists n, isA g m n /\ ntyp n = ntyp (mk v) /\ nshape n = nshape (mk v) /\
             H (nop n) = H (nop (mk v)) /\ nkind n <> KInput).
Proof.
  intros H fmtTS V valOf valueEq mk g v g' m B Law Nv Nn E.
  destruct (built_full _ _ _ B) as [I T].
  unfold constantCall in E. pose proof (findValue_spec V valOf valueEq g (constants g) v) as F.
  destruct (findValue V valOf valueEq g (constants g) v) as [d|].
  { destruct F as (l1 & l2 & k & Ek & Ik & Vk & _). exfalso. apply (Nv d).
    split; [rewrite Ek; apply in_or_app; right; left; reflexivity|]. exists k. auto. }
  destruct (Law v) as (K & Ch & _).
  set (g1 := fst (allocNode g (mk v))) in *.
  assert (B1 : built H fmtTS g1).
  { eapply reaches_step with (u := UConst (mk v)); [exact B|split; [exact K|exact Ch]|reflexivity]. }
  assert (Enew : isA g1 (List.length (heap g)) (mk v)).
  { unfold isA, g1. cbn [allocNode fst heap]. rewrite nth_error_app2, Nat.sub_diag by lia. reflexivity. }
  change (addNode H fmtTS g1 (List.length (heap g)) = (g', m)) in E.
  assert (Old : forall p, In p (all g) -> p < List.length (heap g)) by (apply (i_lt _ _ g I)).
  destruct (addNode_added H fmtTS g1 _ _ g' m (built_full _ _ _ B1) Enew) as
    [_ -> Im (b & Eb & Nb)| -> Im Hh Heq|Nm A I' T' G En' Hh R Nall Hm].
  - rewrite Ch. constructor.
  - exact E.
  - exfalso. apply (Nn m). split; [exact Im|]. exists b. split; [|exact Nb].
    apply (isA_alloc g (mk v)); [|exact Eb]. apply Old. apply (i_const _ _ g I). exact Im.
  - right. split; [exact Im|]. split; [reflexivity|].
    assert (L : m < List.length (heap g)) by (apply Old; exact Im).
    destruct (nth_error (heap g) m) as [n|] eqn:Em; [|apply nth_error_None in Em; lia].
    exists n. split; [exact Em|].
    assert (Em1 : nth_error (heap g1) m = Some n) by (apply (isA_alloc g (mk v)); [exact L|exact Em]).
    rewrite (nodeEq_nodes H _ _ _ _ _ Enew Em1) in Heq. apply nodeEqN_spec in Heq.
    destruct Heq as [(Kx & _)|(_ & K2 & Hop & _ & Ht & Hs)]; [congruence|]. auto.
  - left. split; [exact Nm|]. split; [exact A|exact En'].
Qed.
Print Assumptions C107_constant_new.

(** Refuted: Constant gives a constant with the value asked for.  In a graph with
    the float64 constant 1, asking for the float32 1 gives the float64 one. *)
Definition constOf (v : string) : node :=
  mkNode KConst (String.substring 6 1 v) (if String.eqb (String.substring 14 2 v) "32" then TScalar 1 else TScalar 0)
    [] v [] false.
Theorem C107_constant_refuted :
  built fnv32a printTS exG5 /\ lawfulConst nop constOf /\
  exists g' m n, constantCall fnv32a printTS string nop String.eqb constOf exG5 "const 1: float32"%string = (g', m) /\
    isA g' m n /\ nop n = "const 1: float64"%string /\ ntyp n <> ntyp (constOf "const 1: float32"%string).
Proof.
  split; [apply exG5_built|]. split; [intros v; repeat split; reflexivity|].
  exists (fst (constantCall fnv32a printTS string nop String.eqb constOf exG5 "const 1: float32"%string)), 4, oneC.
  split; [|split; [vm_compute; reflexivity|split; [reflexivity|discriminate]]].
  rewrite (surjective_pairing (constantCall _ _ _ _ _ _ _ _)) at 1. f_equal.
Qed.
Print Assumptions C107_constant_refuted.

(** A case with a new constant, and a case where it is found. *)
Example C107_constant_ex :
  all (fst (constantCall fnv32a printTS string nop String.eqb constOf exG5 "const 2: float64"%string)) = all exG5 ++ [7] /\
  constantCall fnv32a printTS string nop String.eqb constOf exG5 "const 1: float64"%string = (exG5, 4).
Proof. split; vm_compute; reflexivity. Qed.
