(** What a compiled function is for: the nodes the outputs need, and only their values. *)
From Coq Require Import List Arith.
From Verif Require Import GraphModel GraphSpec TapeModel TapeSpec.
Import ListNotations.

(** A node that one of the outputs needs. *)
Definition needed (g : graph) (outputs : list ptr) (p : ptr) : Prop :=
  exists r, In r outputs /\ below (heap g) r p.
(** The sorted nodes of a subgraph inside those of the whole graph: [e] says where the nodes
    are; kinds, operators and children agree. *)
Definition partOf (sub ns : list tnode) (e : nat -> nat) : Prop :=
  forall i, i < length sub ->
    e i < length ns /\ tk (nodeAt ns (e i)) = tk (nodeAt sub i) /\ top (nodeAt ns (e i)) = top (nodeAt sub i) /\
    tkids (nodeAt ns (e i)) = map e (tkids (nodeAt sub i)).
