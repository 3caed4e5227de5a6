(** What is asked of the queries on a graph.  Stated on the nodes and their
    children only. *)
From Coq Require Import List String.
From Verif Require Import GraphModel GraphSpec.
Import ListNotations.

(** [l] lists, once each and in the order of the graph, the nodes of the graph
    whose contents satisfy [P]. *)
Definition listing (g : graph) (P : node -> Prop) (l : list ptr) : Prop :=
  NoDup l /\
  (forall p, In p l <-> In p (all g) /\ exists n, isA g p n /\ P n) /\
  (forall p q, before l p q -> before (all g) p q).

(** What the package's functions on constants owe Constant: the node made for a
    value is a childless constant with that value. *)
Definition lawfulConst {V : Type} (valOf : node -> V) (mk : V -> node) : Prop :=
  forall v, nkind (mk v) = KConst /\ nchildren (mk v) = [] /\ valOf (mk v) = v.

(** A recorded constant of the graph whose contents satisfy [P]. *)
Definition recorded (g : graph) (P : node -> Prop) (c : ptr) : Prop :=
  In c (constants g) /\ exists n, isA g c n /\ P n.
