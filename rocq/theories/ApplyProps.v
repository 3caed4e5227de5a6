(** Properties C82 (the graph ApplyOp makes a node in) and C83 (the slice of
    children a node keeps). *)
From Coq Require Import Arith List Bool String Ascii Lia.
From Verif Require Import GraphModel GraphSpec GraphProofs GraphHistory GraphProps ApplyModel.
Import ListNotations.
Open Scope list_scope.

(** ** Spec *)

(** All the arguments that are no constants are in graph [g] (constants may be
    anywhere). *)
Definition belongs (cs : list argument) (g : option nat) : Prop :=
  forall c, In c cs -> aconst c = false -> agraph c = g.
(** The first argument that has a graph has graph [g]. *)
Definition leads (cs : list argument) (g : nat) : Prop :=
  exists before c after, cs = before ++ c :: after /\ agraph c = Some g /\
    Forall (fun b => agraph b = None) before.

Lemma graph_eqb_eq : forall a b, graph_eqb a b = true <-> a = b.
Proof.
  intros [x|] [y|]; cbn; try (split; congruence).
  rewrite Nat.eqb_eq. split; congruence.
Qed.
Lemma firstGraph_some : forall cs g, firstGraph cs = Some g <-> leads cs g.
Proof.
  induction cs as [|c r IH]; intro g; cbn [firstGraph].
  - split; [discriminate|]. intros (b & x & a & E & _). destruct b; discriminate.
  - destruct (agraph c) as [h|] eqn:Ec.
    + split.
      * intro E. exists [], c, r. rewrite Ec. auto.
      * intros (b & x & a & E & Ex & F). destruct b as [|y b].
        -- injection E as <- <-. congruence.
        -- injection E as <- E. inversion F; congruence.
    + rewrite IH. split.
      * intros (b & x & a & -> & Ex & F). exists (c :: b), x, a. auto.
      * intros (b & x & a & E & Ex & F). destruct b as [|y b].
        -- injection E as <- <-. congruence.
        -- injection E as <- E. inversion F; subst. exists b, x, a. auto.
Qed.
Lemma firstGraph_none : forall cs, firstGraph cs = None <-> forall c, In c cs -> agraph c = None.
Proof.
  induction cs as [|c r IH]; cbn [firstGraph].
  - split; [intros _ x []|auto].
  - destruct (agraph c) eqn:Ec.
    + split; [discriminate|]. intro F. rewrite <- Ec. apply F. left. auto.
    + rewrite IH. split; intro F; [intros x [<-|I]; auto|intros; apply F; right; auto].
Qed.
Lemma firstOther_first : forall cs, (forall c, In c cs -> aconst c = true) \/
  exists c, In c cs /\ aconst c = false /\ firstOther cs = agraph c.
Proof.
  induction cs as [|c r IH]; [left; intros c []|]. cbn [firstOther].
  destruct (aconst c) eqn:Ec.
  - destruct IH as [A|(x & I & E & F)]; [left; intros x [<-|I]; auto|right; exists x; cbn; auto].
  - right. exists c. cbn. auto.
Qed.
Lemma allSame_iff : forall cs, allSameGraph cs = true <-> cs <> [] /\ exists g, belongs cs g.
Proof.
  intros [|c0 r0].
  - cbn. split; [discriminate|intros [E _]; congruence].
  - unfold allSameGraph. set (cs := c0 :: r0) in *. rewrite forallb_forall. split.
    + intro F. split; [discriminate|]. exists (firstOther cs). intros c I E.
      specialize (F c I). rewrite E in F. destruct (graph_eqb (agraph c) (firstOther cs)) eqn:G.
      * apply graph_eqb_eq. exact G.
      * discriminate F.
    + intros [_ [g B]] c I. destruct (aconst c) eqn:E; [rewrite andb_comm; reflexivity|].
      destruct (firstOther_first cs) as [A|(x & Ix & Ex & ->)]; [rewrite A in E; auto; discriminate|].
      rewrite (B x Ix Ex), (B c I E). destruct (graph_eqb g g) eqn:G; [reflexivity|].
      assert (graph_eqb g g = true) by (apply graph_eqb_eq; reflexivity). congruence.
Qed.

(** ** C82 *)

(** ApplyOp makes the node in graph [g] exactly when the first argument with a graph
    is in [g] and the arguments that are no constants agree on a graph; it reports
    the absence of a graph exactly when no argument has one; else it reports the
    disagreement. *)
Theorem C82_graph_chosen :
  forall cs,
    (forall g, applyGraph cs = InGraph g <-> leads cs g /\ exists h, belongs cs h) /\
    (applyGraph cs = NoGraphSupplied <-> forall c, In c cs -> agraph c = None) /\
    (applyGraph cs = NotSameGraph <->
       (exists c, In c cs /\ agraph c <> None) /\
       exists c d, In c cs /\ In d cs /\ aconst c = false /\ aconst d = false /\ agraph c <> agraph d).
Proof.
  intro cs. unfold applyGraph. destruct (firstGraph cs) as [g0|] eqn:E.
  - assert (L := proj1 (firstGraph_some _ _) E).
    assert (Ne : cs <> []) by (intros ->; discriminate E).
    assert (Hg : exists c, In c cs /\ agraph c <> None).
    { destruct L as (b & c & a & -> & Ec & _). exists c. split; [apply in_or_app; right; left; auto|congruence]. }
    destruct (allSameGraph cs) eqn:A.
    + apply allSame_iff in A. destruct A as [_ [h B]]. split; [|split].
      * intro g. split.
        -- intro X. injection X as <-. eauto.
        -- intros [L' _]. apply firstGraph_some in L'. congruence.
      * split; [discriminate|]. intro F. rewrite <- firstGraph_none in F. congruence.
      * split; [discriminate|]. intros [_ (c & d & Ic & Id & Kc & Kd & N)].
        destruct N. rewrite (B c), (B d); auto.
    + assert (A' : ~ exists h, belongs cs h).
      { intro B. assert (allSameGraph cs = true) by (apply allSame_iff; auto). congruence. }
      split; [|split].
      * intro g. split; [discriminate|]. intros [_ B]. destruct (A' B).
      * split; [discriminate|]. intro F. rewrite <- firstGraph_none in F. congruence.
      * split; [|auto]. intros _. split; [auto|].
        destruct (firstOther_first cs) as [K|(c & Ic & Kc & _)].
        -- destruct A'. exists None. intros c Ic Kc. rewrite K in Kc; auto. discriminate.
        -- destruct (existsb (fun d => negb (aconst d) && negb (graph_eqb (agraph c) (agraph d))) cs) eqn:X.
           ++ apply existsb_exists in X. destruct X as (d & Id & X). apply andb_prop in X.
              destruct X as [X1 X2]. exists c, d. repeat split; auto.
              ** destruct (aconst d); [discriminate|auto].
              ** intro Q. rewrite (proj2 (graph_eqb_eq _ _) Q) in X2. discriminate.
           ++ destruct A'. exists (agraph c). intros d Id Kd.
              destruct (graph_eqb (agraph c) (agraph d)) eqn:G; [symmetry; apply graph_eqb_eq; auto|].
              assert (existsb (fun d => negb (aconst d) && negb (graph_eqb (agraph c) (agraph d))) cs = true).
              { apply existsb_exists. exists d. rewrite Kd, G. auto. }
              congruence.
  - assert (F := proj1 (firstGraph_none _) E). split; [|split].
    + intro g. split; [discriminate|]. intros [L _]. apply firstGraph_some in L. congruence.
    + split; auto.
    + split; [discriminate|]. intros [(c & Ic & N) _]. destruct (N (F c Ic)).
Qed.
Print Assumptions C82_graph_chosen.

(** So the node is in the graph of the other arguments when constants have no graph
    or theirs: what NewConstant without In gives. *)
Theorem C82_right_graph :
  forall cs g x, applyGraph cs = InGraph g -> In x cs -> aconst x = false ->
    (forall c h, In c cs -> aconst c = true -> agraph c = Some h -> agraph x = Some h) ->
    agraph x = Some g.
Proof.
  intros cs g x A Ix Kx C. apply C82_graph_chosen in A. destruct A as [L [h B]].
  destruct L as (b & c & a & -> & Ec & _).
  assert (Ic : In c (b ++ c :: a)) by (apply in_or_app; right; left; auto).
  destruct (aconst c) eqn:Kc; [eapply C; eauto|]. rewrite (B x Ix Kx), <- (B c Ic Kc). auto.
Qed.
Print Assumptions C82_right_graph.
Example C82_right_graph_ex :
  applyGraph [mkArg None true; mkArg (Some 2) false; mkArg (Some 2) true] = InGraph 2 /\
  applyGraph [mkArg (Some 2) false; mkArg (Some 1) false] = NotSameGraph /\
  applyGraph [mkArg None true] = NoGraphSupplied.
Proof. repeat split; reflexivity. Qed.

(** Without that it need not be: a constant of another graph in front of the other
    arguments decides, and no error is given. *)
Theorem C82_right_graph_refuted :
  ~ (forall cs g x, applyGraph cs = InGraph g -> In x cs -> aconst x = false -> agraph x = Some g).
Proof.
  intro C. assert (X := C [mkArg (Some 1) true; mkArg (Some 2) false] 1 (mkArg (Some 2) false) eq_refl).
  cbn in X. specialize (X (or_intror (or_introl eq_refl)) eq_refl). discriminate.
Qed.
Print Assumptions C82_right_graph_refuted.

(** What then happens to the other graph: the argument is entered in the wrong graph
    and gets a new id there, whatever id it had. *)
Theorem C82_id_overwritten :
  forall H fmtTS g p n,
    getN g p = Some n -> nkind n <> KConst -> byHash g (hashcode H fmtTS (heap g) p) = None ->
    idOf (fst (addNode H fmtTS g p)) p = Some (counter g) /\
    In p (all (fst (addNode H fmtTS g p))).
Proof.
  intros H ft g p n En K Eh. unfold addNode. rewrite En.
  assert (Kc : isConstN n = false) by (unfold isConstN; destruct (nkind n); congruence).
  rewrite Kc, Eh. cbn [fst]. unfold ensureTo. 
  destruct (to (setHash (addToAll g p) (hashcode H ft (heap g) p) (Some p)) p); cbn [idOf all setHash addToAll];
    unfold updP; rewrite Nat.eqb_refl; (split; [reflexivity|apply in_or_app; right; left; auto]).
Qed.
Print Assumptions C82_id_overwritten.

(** Graph 2 has inputs x and y with ids 0 and 1; graph 1 has a constant.  Adding the
    constant and x in graph 1 gives x the id 1; graph 2 then finds x under y's id
    and nothing under x's. *)
Definition twoG1 : graph := fst (addNode fnv32a printTS
  (seenFrom (fst (allocNode exG2 oneC)) exG0) (List.length (heap exG2))).
Definition afterApply : graph := exNew twoG1 addL [List.length (heap exG2); 0].
Theorem C82_other_graph_broken_refuted :
  ~ (forall g2 g1 l cs g1' m,
       built fnv32a printTS g2 -> heap g1 = heap g2 ++ skipn (List.length (heap g2)) (heap g1) ->
       (forall p, p < List.length (heap g2) -> idOf g1 p = idOf g2 p) ->
       newUniqueNode fnv32a printTS g1 l cs = Some (g1', m) ->
       forall id p, snd (lookup g2 id) = Some p ->
                    snd (lookup (seenFrom g1' g2) id) = Some p).
Proof.
  intro C.
  assert (X := C exG2 twoG1 addL [List.length (heap exG2); 0] afterApply).
  destruct (newUniqueNode fnv32a printTS twoG1 addL [List.length (heap exG2); 0]) as [[g' m]|] eqn:E.
  - specialize (X m exG2_built). 
    assert (Eg : afterApply = g') by (unfold afterApply, exNew; rewrite E; reflexivity).
    specialize (X eq_refl). 
    assert (Hid : forall p, p < List.length (heap exG2) -> idOf twoG1 p = idOf exG2 p).
    { intros p Lp. assert (Lp' : p < 2) by exact Lp. destruct p as [|[|p]]; [reflexivity|reflexivity|lia]. }
    specialize (X Hid). rewrite Eg in X. specialize (X eq_refl 1 1 eq_refl).
    rewrite <- Eg in X. vm_compute in X. discriminate X.
  - vm_compute in E. discriminate E.
Qed.
Print Assumptions C82_other_graph_broken_refuted.
Example C82_broken_ex :
  snd (lookup exG2 0) = Some 0 /\ snd (lookup exG2 1) = Some 1 /\
  snd (lookup (seenFrom afterApply exG2) 0) = None /\
  snd (lookup (seenFrom afterApply exG2) 1) = Some 0.
Proof. vm_compute. auto. Qed.

(** ** C83 *)

(** What a program did with array [a] after action number [k]: it never wrote to it. *)
Definition neverWritten (xs : list act) (a : array) : Prop :=
  forall i p, ~ In (Write a i p) xs.

Section Slices.
Variable canon : ptr -> ptr.
Hypothesis canon_idem : forall p, canon (canon p) = canon p.
Local Notation step := (act1 canon).

Lemma nth_setNth : forall {X} (l : list X) i j x, nth_error (setNth l i x) j =
  if Nat.eqb i j then (if i <? List.length l then Some x else None) else nth_error l j.
Proof.
  induction l as [|y l IH]; intros i j x.
  - destruct i, j; cbn; try reflexivity. destruct (Nat.eqb i j); reflexivity.
  - destruct i, j; cbn; auto. rewrite IH. reflexivity.
Qed.
Lemma setNth_length : forall {X} (l : list X) i x, List.length (setNth l i x) = List.length l.
Proof. induction l; intros [|i] x; cbn; auto. Qed.
Lemma sameChildren_eq : forall a b, sameChildren a b = true <-> a = b.
Proof.
  induction a as [|x a IH]; intros [|y b]; cbn; try (split; congruence).
  rewrite andb_true_iff, Nat.eqb_eq, IH. split; [intros [-> ->]; auto|intro E; injection E; auto].
Qed.
Lemma findConcat_some : forall l ns i k, findConcat ns l i = Some k ->
  exists n, i <= k /\ nth_error ns (k - i) = Some n /\ chashed n = l.
Proof.
  induction ns as [|n ns IH]; intros i k E; cbn in E; [discriminate|].
  destruct (sameChildren (chashed n) l) eqn:S1.
  - injection E as <-. exists n. rewrite Nat.sub_diag. apply sameChildren_eq in S1. auto.
  - destruct (IH _ _ E) as (m & L & En & Ec). exists m. split; [lia|].
    replace (k - i) with (S (k - S i)) by lia. auto.
Qed.
Lemma findConcat_none : forall l ns i, findConcat ns l i = None ->
  forall n, In n ns -> chashed n <> l.
Proof.
  induction ns as [|n ns IH]; intros i E m I; cbn in E; [destruct I|].
  destruct (sameChildren (chashed n) l) eqn:S1; [discriminate|].
  destruct I as [<-|I]; [|eauto]. intro Q. apply sameChildren_eq in Q. congruence.
Qed.

(** The arrays of nodes: each is in memory; the content hashed was already
    rewritten. *)
Definition sane (s : state) : Prop :=
  forall n, In n (nodes s) -> carr n < List.length (arrays s) /\
    cedges n = chashed n /\ map canon (chashed n) = chashed n.
Lemma map_canon : forall l, map canon (map canon l) = map canon l.
Proof. intro l. rewrite map_map. apply map_ext. auto. Qed.

Lemma concat_sane : forall s a, sane s -> a < List.length (arrays s) -> sane (fst (concat canon s a)).
Proof.
  intros s a Hs L. unfold concat.
  destruct (findConcat (nodes s) (map canon (nth a (arrays s) [])) 0) as [k|]; intros n I; cbn in *;
    rewrite setNth_length.
  - auto.
  - apply in_app_or in I. destruct I as [I|[<-|[]]]; [auto|]. cbn. auto using map_canon.
Qed.
Definition okAct (s : state) (x : act) : Prop :=
  match x with
  | Write a _ _ | ConcatSlice a => a < List.length (arrays s)
  | _ => True
  end.
Lemma step_sane : forall s x, sane s -> okAct s x -> sane (step s x).
Proof.
  intros s x Hs O. destruct x as [l|a i p|a|l]; cbn [act1 okAct] in *.
  - intros n I. cbn in *. rewrite app_length. cbn. destruct (Hs n I) as (A & B & D). repeat split; auto; lia.
  - intros n I. cbn in *. rewrite setNth_length. auto.
  - auto using concat_sane.
  - apply concat_sane; [|cbn; rewrite app_length; cbn; lia].
    intros n I. cbn in *. rewrite app_length. cbn. destruct (Hs n I) as (A & B & D). repeat split; auto; lia.
Qed.

(** The states of a program that only uses slices it has made. *)
Inductive runs : state -> list act -> state -> Prop :=
| runs_nil : forall s, runs s [] s
| runs_cons : forall s x xs s', okAct s x -> runs (step s x) xs s' -> runs s (x :: xs) s'.

(** Array [a] holds [l], already rewritten; it keeps it if nobody writes. *)
Lemma keeps1 : forall s x a l, nth_error (arrays s) a = Some l -> map canon l = l ->
  (forall i p, x <> Write a i p) -> nth_error (arrays (step s x)) a = Some l.
Proof.
  intros s x a l E Ml Nw.
  assert (La : a < List.length (arrays s)) by (apply nth_error_Some; congruence).
  assert (Kc : forall s' b, nth_error (arrays s') a = Some l ->
            nth_error (arrays (fst (concat canon s' b))) a = Some l).
  { intros s' b E'. assert (La' : a < List.length (arrays s')) by (apply nth_error_Some; congruence).
    unfold concat.
    assert (Q : nth_error (setNth (arrays s') b (map canon (nth b (arrays s') []))) a = Some l).
    { rewrite nth_setNth. destruct (Nat.eqb_spec b a) as [->|]; [|exact E'].
      apply Nat.ltb_lt in La'. rewrite La'. erewrite nth_error_nth by exact E'. rewrite Ml. reflexivity. }
    destruct (findConcat (nodes s') (map canon (nth b (arrays s') [])) 0); exact Q. }
  destruct x as [l'|b i p|b|l']; cbn [act1].
  - cbn. rewrite nth_error_app1; auto.
  - cbn. rewrite nth_setNth. destruct (Nat.eqb_spec b a) as [->|]; [|exact E]. destruct (Nw i p eq_refl).
  - auto.
  - apply Kc. cbn. rewrite nth_error_app1; auto.
Qed.
Lemma nodes_grow : forall s x k n, nth_error (nodes s) k = Some n -> nth_error (nodes (step s x)) k = Some n.
Proof.
  assert (Kc : forall s' b k n, nth_error (nodes s') k = Some n ->
            nth_error (nodes (fst (concat canon s' b))) k = Some n).
  { intros s' b k n E. unfold concat.
    destruct (findConcat (nodes s') (map canon (nth b (arrays s') [])) 0); cbn; [exact E|].
    rewrite nth_error_app1; auto. apply nth_error_Some. congruence. }
  intros s [l|a i p|a|l] k n E; cbn [act1]; cbn; auto.
Qed.

(** A node's children are what they were when it was made, and its edges match, as
    long as the program does not write to the slice it passed. *)
Lemma runs_app : forall s xs s' ys s'', runs s xs s' -> runs s' ys s'' -> runs s (xs ++ ys) s''.
Proof. intros s xs s' ys s'' R. induction R; cbn; intros; auto. apply runs_cons; auto. Qed.
Lemma runs_sane : forall s xs s', runs s xs s' -> sane s -> sane s'.
Proof. intros s xs s' R. induction R; auto using step_sane. Qed.
Lemma unwritten_children : forall s xs s' k n, runs s xs s' -> sane s ->
  nth_error (nodes s) k = Some n -> nth_error (arrays s) (carr n) = Some (chashed n) ->
  neverWritten xs (carr n) ->
  childrenNow s' k = Some (chashed n) /\ nth_error (nodes s') k = Some n.
Proof.
  intros s xs s' k n R. induction R as [s|s x xs s' O R IH]; intros Hs En Ea Nw.
  - unfold childrenNow. rewrite En. auto.
  - apply IH; auto using step_sane, nodes_grow.
    + apply keeps1; auto.
      * apply (Hs n). eapply nth_error_In; eauto.
      * intros i p ->. apply (Nw i p). left. auto.
    + intros i p I. apply (Nw i p). right. auto.
Qed.
End Slices.

(** Concat(axis, ns...) with slice [ns]: the node made keeps its children for as
    long as the program does not write to [ns] again, whatever else it does. *)
Theorem C83_unwritten_slice :
  forall canon ys s0 a l xs s,
    (forall p, canon (canon p) = canon p) -> runs canon (mkState [] []) ys s0 ->
    nth_error (arrays s0) a = Some l ->
    (forall n, In n (nodes s0) -> chashed n <> map canon l) ->
    runs canon (act1 canon s0 (ConcatSlice a)) xs s -> neverWritten xs a ->
    let k := List.length (nodes s0) in
    childrenNow s k = Some (map canon l) /\
    option_map cedges (nth_error (nodes s) k) = Some (map canon l).
Proof.
  intros canon ys s0 a l xs s I H0 Ea Nn R Nw k.
  assert (Hs : sane canon s0) by (eapply runs_sane; [exact I|exact H0|intros n []]).
  assert (La : a < List.length (arrays s0)) by (apply nth_error_Some; congruence).
  assert (En : nth_error (nodes (act1 canon s0 (ConcatSlice a))) k =
                 Some (mkCnode a (map canon l) (map canon l)) /\
               nth_error (arrays (act1 canon s0 (ConcatSlice a))) a = Some (map canon l)).
  { cbn [act1]. unfold concat. rewrite (nth_error_nth _ _ _ Ea).
    destruct (findConcat (nodes s0) (map canon l) 0) as [q|] eqn:F.
    - destruct (findConcat_some _ _ _ _ F) as (n & _ & E & Ec). destruct (Nn n); auto.
      eapply nth_error_In; eauto.
    - cbn. split.
      + rewrite nth_error_app2 by (unfold k; lia). unfold k. rewrite Nat.sub_diag. reflexivity.
      + rewrite nth_setNth, Nat.eqb_refl. apply Nat.ltb_lt in La. rewrite La. reflexivity. }
  destruct En as [En Em].
  assert (Hs1 : sane canon (act1 canon s0 (ConcatSlice a))) by (apply step_sane; auto).
  destruct (unwritten_children canon I _ xs s k _ R Hs1 En Em Nw) as [A B].
  split; [exact A|]. rewrite B. reflexivity.
Qed.
Print Assumptions C83_unwritten_slice.

(** With listed arguments nobody else has the slice, so the children never change. *)
Theorem C83_listed_arguments :
  forall canon ys s0 l xs s,
    (forall p, canon (canon p) = canon p) -> runs canon (mkState [] []) ys s0 ->
    (forall n, In n (nodes s0) -> chashed n <> map canon l) ->
    runs canon (act1 canon s0 (ConcatListed l)) xs s -> neverWritten xs (List.length (arrays s0)) ->
    let k := List.length (nodes s0) in
    childrenNow s k = Some (map canon l) /\
    option_map cedges (nth_error (nodes s) k) = Some (map canon l).
Proof.
  intros canon ys s0 l xs s I H0 Nn R Nw.
  apply (C83_unwritten_slice canon (ys ++ [Make l]) (mkState (arrays s0 ++ [l]) (nodes s0)) (List.length (arrays s0)) l xs s);
    auto.
  - eapply runs_app; [exact H0|]. apply runs_cons; [exact Logic.I|]. apply runs_nil.
  - cbn. rewrite nth_error_app2, Nat.sub_diag by lia. reflexivity.
Qed.
Print Assumptions C83_listed_arguments.

(** A program that uses one slice for two Concats: the first node's children become
    the second's, its edges stay, and the two nodes are different nodes. *)
Theorem C83_children_stay_refuted :
  ~ (forall canon l xs s,
       (forall p, canon (canon p) = canon p) ->
       runs canon (act1 canon (mkState [l] []) (ConcatSlice 0)) xs s ->
       childrenNow s 0 = Some (map canon l)).
Proof.
  intro C.
  assert (X := C (fun p => p) [0; 1] [Write 0 0 2; ConcatSlice 0]
                 (act1 (fun p => p) (act1 (fun p => p) (act1 (fun p => p) (mkState [[0; 1]] []) (ConcatSlice 0))
                   (Write 0 0 2)) (ConcatSlice 0))).
  assert (Y : childrenNow (act1 (fun p => p) (act1 (fun p => p) (act1 (fun p => p) (mkState [[0; 1]] [])
                (ConcatSlice 0)) (Write 0 0 2)) (ConcatSlice 0)) 0 = Some [0; 1]).
  { apply X; auto. repeat (constructor; [cbn; auto|]). constructor. }
  discriminate Y.
Qed.
Print Assumptions C83_children_stay_refuted.
Example C83_ex :
  let s := run (fun p => p) [Make [0; 1]; ConcatSlice 0; Write 0 0 2; ConcatSlice 0] in
  List.length (nodes s) = 2 /\ childrenNow s 0 = Some [2; 1] /\ childrenNow s 1 = Some [2; 1] /\
  map cedges (nodes s) = [[0; 1]; [2; 1]].
Proof. vm_compute. auto. Qed.
Example C83_fine_ex :
  let s := run (fun p => p) [Make [0; 1]; ConcatSlice 0; Make [2; 1]; ConcatSlice 1; ConcatListed [0; 1]] in
  map cedges (nodes s) = [[0; 1]; [2; 1]] /\ childrenNow s 0 = Some [0; 1] /\ childrenNow s 1 = Some [2; 1].
Proof. vm_compute. auto. Qed.

(** The other direction: Concat writes the graph's own copies of constants into the
    caller's slice. *)
Theorem C83_slice_rewritten :
  forall canon s a l, nth_error (arrays s) a = Some l ->
    nth_error (arrays (act1 canon s (ConcatSlice a))) a = Some (map canon l).
Proof.
  intros canon s a l E. cbn [act1]. unfold concat. rewrite (nth_error_nth _ _ _ E).
  assert (L : a < List.length (arrays s)) by (apply nth_error_Some; congruence).
  destruct (findConcat (nodes s) (map canon l) 0); cbn; rewrite nth_setNth, Nat.eqb_refl;
    apply Nat.ltb_lt in L; rewrite L; reflexivity.
Qed.
Print Assumptions C83_slice_rewritten.
