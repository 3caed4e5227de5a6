(** C48 and C49, further: the roots of a subgraph and the parents in a clone. *)
From Coq Require Import List Arith Lia Bool String ZArith.
From Verif Require Import BroadcastModel GraphModel GraphSpec GraphProofs GraphHistory GraphWalk GraphProps.
Import ListNotations.
Local Open Scope nat_scope.

(** The clone's parents correspond to the original's, position by position. *)
Theorem C49_clone_parents :
  forall H fmtTS g g', built H fmtTS g -> cloneGraph g = Some g' ->
    forall i p q, nth_error (all g) i = Some p -> nth_error (all g') i = Some q ->
      exists l l', to g p = Some l /\ to g' q = Some l' /\ List.length l' = List.length l /\
        forall k u, nth_error l k = Some u ->
          exists j u', nth_error (all g) j = Some u /\ nth_error (all g') j = Some u' /\ nth_error l' k = Some u'.
Proof.
  intros H fmtTS g g' B E i p q Ep Eq. assert (F := built_full _ _ _ B). pose proof F as [I T].
  destruct (clone_spec H fmtTS g g' F E) as (L & Sp & _).
  destruct (Sp i p Ep) as (E1 & _ & _). rewrite Eq in E1. injection E1 as ->.
  destruct (proj2 (i_tokey _ _ g I p) (nth_error_In _ _ Ep)) as [l El].
  destruct (mapO_total (mapping g) l) as [l' El'].
  { intros x Ix. destruct (i_to _ _ g I _ _ _ El Ix) as [A _]. apply In_nth_error in A as [j Ej].
    destruct (Sp j x Ej) as (_ & _ & M & _). eauto. }
  exists l, l'. split; [exact El|]. split.
  { assert (Et : to g' = cloneTo g) by (unfold cloneGraph in E; repeat destruct (mapO _ _) in E; try discriminate; injection E as <-; reflexivity).
    rewrite Et. unfold cloneTo. replace (List.length (heap g) + i - List.length (heap g)) with i by lia. rewrite Ep.
    replace (Nat.leb (List.length (heap g)) (List.length (heap g) + i)) with true by (symmetry; apply Nat.leb_le; lia).
    rewrite El. exact El'. }
  destruct (mapO_nth _ _ _ El') as [Ll N]. split; [exact Ll|]. intros k u Ek.
  destruct (i_to _ _ g I _ _ _ El (nth_error_In _ _ Ek)) as [A _]. apply In_nth_error in A as [j Ej].
  destruct (Sp j u Ej) as (Ej' & _ & M & _). exists j. eexists. split; [exact Ej|]. split; [exact Ej'|]. rewrite (N k u Ek). exact M.
Qed.
Print Assumptions C49_clone_parents.
Example C49_ex_parents : built fnv32a printTS exG5 /\
  map (to exG5) (all exG5) = [Some [2]; Some [2]; Some [5]; Some [5]; Some []] /\
  option_map (fun g' => map (to g') (all g')) (cloneGraph exG5) = Some [Some [8]; Some [8]; Some [10]; Some [10]; Some []] /\
  option_map all (cloneGraph exG5) = Some [6; 7; 8; 9; 10].
Proof. split; [exact exG5_built|]. repeat split; vm_compute; reflexivity. Qed.

(** The roots of the subgraph are the nodes asked for, each statement replaced by what it
    is about. *)
Theorem C48_subgraph_roots :
  forall g rs g', exactSubgraphRoots g rs = Some g' \/ subgraphRoots g rs = Some g' -> rs <> [] ->
    exists l, roots g' = Some l /\ NoDup l /\
      forall x, In x l <-> exists r, In r rs /\
        ((x = r /\ forall n, isA g r n -> stmt n = false) \/ (exists n cs, isA g r n /\ stmt n = true /\ nchildren n = x :: cs)).
Proof.
  assert (R : forall g r y, rootOf g r = Some y <->
    ((y = r /\ forall n, isA g r n -> stmt n = false) \/ (exists n cs, isA g r n /\ stmt n = true /\ nchildren n = y :: cs))).
  { intros g r y. unfold rootOf, isStmtP, childrenOf, getN, isA. destruct (nth_error (heap g) r) as [n|] eqn:En.
    - destruct (stmt n) eqn:St.
      + destruct (nchildren n) as [|c cs] eqn:Ec; split.
        * discriminate.
        * intros [[_ X]|(n' & cs & E & _ & X)]; [specialize (X n eq_refl); congruence|]. injection E as <-. congruence.
        * intro X. injection X as <-. right. exists n, cs. auto.
        * intros [[_ X]|(n' & cs' & E & _ & X)]; [specialize (X n eq_refl); congruence|]. injection E as <-. congruence.
      + split.
        * intro X. injection X as <-. left. split; [reflexivity|]. intros n' E. injection E as <-. exact St.
        * intros [[-> _]|(n' & cs' & E & S' & X)]; [reflexivity|]. injection E as <-. congruence.
    - split.
      + intro X. injection X as <-. left. split; [reflexivity|]. discriminate.
      + intros [[-> _]|(n' & cs' & E & _)]; [reflexivity|discriminate]. }
  intros g rs g' E NE.
  assert (K : exists ls, mapO (rootOf g) rs = Some ls /\ roots g' = match uniq ls with [] => None | l => Some l end).
  { destruct E as [E|E]; unfold exactSubgraphRoots, subgraphRoots, subgraphGen in E; cbn zeta in E;
      (destruct (mapO (rootOf g) rs) as [ls|]; [|discriminate]); injection E as <-; exists ls; split; reflexivity. }
  destruct K as (ls & M & Er). destruct (mapO_nth _ _ _ M) as [Ll N].
  exists (uniq ls). split; [|split].
  - rewrite Er. destruct (uniq ls) eqn:U; [|reflexivity]. exfalso. destruct rs as [|r rs]; [congruence|]. destruct ls as [|y ls]; [discriminate Ll|].
    assert (X : In y (uniq (y :: ls))) by (unfold uniq; apply nodup_In; left; reflexivity). rewrite U in X. destruct X.
  - unfold uniq. apply NoDup_nodup.
  - intro x. unfold uniq. rewrite nodup_In. split.
    + intro Ix. destruct (mapO_in _ _ _ _ M Ix) as (r & Ir & Hr). exists r. split; [exact Ir|]. apply R. exact Hr.
    + intros (r & Ir & Hr). apply R in Hr. apply In_nth_error in Ir as [k Ek]. pose proof (N k r Ek) as Nk. rewrite Hr in Nk. eapply nth_error_In. exact Nk.
Qed.
Print Assumptions C48_subgraph_roots.
Example C48_ex_roots : option_map roots (exactSubgraphRoots exG5 [5; 2]) = Some (Some [5; 2]).
Proof. vm_compute. reflexivity. Qed.
