(** Model of the graph ApplyOp chooses, and of the slice of children a node keeps. *)
From Coq Require Import Arith List Bool String.
From Verif Require Import GraphModel.
Import ListNotations.
Open Scope list_scope.

(** ** The graph of the new node *)

(** node.go:22-60, what ApplyOp reads of a child: its graph ([None]: nil) and
    whether its operator is a constant (node.go:326). *)
Record argument := mkArg { agraph : option nat; aconst : bool }.

(** The comparison of two graphs in Nodes.AllSameGraph (collections.go), called at op.go:183. *)
Definition graph_eqb (a b : option nat) : bool :=
  match a, b with
  | None, None => true
  | Some x, Some y => Nat.eqb x y
  | _, _ => false
  end.

(** op.go:172-177: the first child that has a graph. *)
Fixpoint firstGraph (cs : list argument) : option nat :=
  match cs with
  | [] => None
  | c :: r => match agraph c with
              | Some g => Some g
              | None => firstGraph r
              end
  end.

(** collections.go:140-146: the graph of the first child that is no constant. *)
Fixpoint firstOther (cs : list argument) : option nat :=
  match cs with
  | [] => None
  | c :: r => if aconst c then firstOther r else agraph c
  end.

(** collections.go:135-154 [AllSameGraph]. *)
Definition allSameGraph (cs : list argument) : bool :=
  match cs with
  | [] => false
  | _ => forallb (fun c => negb (negb (graph_eqb (agraph c) (firstOther cs)) && negb (aconst c))) cs
  end.

(** op.go:169-185 [ApplyOp]: the graph the node is made in (In(g), op.go:206), or
    one of its two errors. *)
Inductive chosen := InGraph (g : nat) | NoGraphSupplied | NotSameGraph.
(** op.go:169-185. *)
Definition applyGraph (cs : list argument) : chosen :=
  match firstGraph cs with
  | None => NoGraphSupplied
  | Some g => if allSameGraph cs then InGraph g else NotSameGraph
  end.

(** A node has one id whatever the number of graphs that have taken it in
    (graph.go:188-195 [addToAll] overwrites n.id): the tables of [g] over the nodes
    and ids of [w]. *)
Definition seenFrom (w g : graph) : graph :=
  mkGraph (heap w) (idOf w) (all g) (byID g) (byHash g) (evac g) (to g) (leaves g) (constants g)
          (roots g) (counter g).

(** ** The children slice *)

(** Arrays behind slices; a slice is an array here (programs passing a part of a
    longer array are not modelled). (The Nodes slice of operations.go:473.) *)
Definition array := nat.

(** What is kept of a concat node: the array its children slice points to
    (node.go:81-86 [WithChildren] stores the slice it is given), the children its
    hash was computed from (node.go:557-566 caches it) and the edges entered for it
    (node.go:807-820 [fixEdges]). *)
Record cnode := mkCnode { carr : array; chashed : list ptr; cedges : list ptr }.

(** The arrays and the concat nodes made so far (of one graph, one axis).
    (node.go:22-60, the children fields of the nodes operations.go:473-500 makes.) *)
Record state := mkState { arrays : list (list ptr); nodes : list cnode }.

(** What a program does: make a slice, write to a slice it holds, and call
    Concat(axis, ns...) with a slice or Concat(axis, a, b, ...) with listed
    arguments, for which the compiler makes a new array.
    (operations.go:473 [Concat] is variadic.) *)
Inductive act :=
| Make (l : list ptr)
| Write (a : array) (i : nat) (p : ptr)
| ConcatSlice (a : array)
| ConcatListed (l : list ptr).

(** Equal hashes of two concat nodes on one axis: the hash is over the children
    (node.go:533-552). *)
Fixpoint sameChildren (a b : list ptr) : bool :=
  match a, b with
  | [], [] => true
  | x :: a', y :: b' => Nat.eqb x y && sameChildren a' b'
  | _, _ => false
  end.

Section Canon.
(** graph.go:137-186 [AddNode]'s answer for an argument: itself if it is in the
    graph, the graph's own copy if it is a constant. *)
Variable canon : ptr -> ptr.

(** The lookup by hash of graph.go:151-176, among the concat nodes. *)
Fixpoint findConcat (ns : list cnode) (l : list ptr) (i : nat) : option nat :=
  match ns with
  | [] => None
  | n :: r => if sameChildren (chashed n) l then Some i else findConcat r l (S i)
  end.

(** operations.go:473-500 [Concat] (arguments that pass its checks), op.go:169-214
    and node.go:288-301 [NewUniqueNode]: fixChildren (node.go:794-805) writes the
    graph's nodes into the slice it was given; a node of the same children is
    returned again, else a new one keeps the slice. *)
Definition concat (s : state) (a : array) : state * nat :=
  let l := map canon (nth a (arrays s) []) in
  let mem := setNth (arrays s) a l in
  match findConcat (nodes s) l 0 with
  | Some i => (mkState mem (nodes s), i)
  | None => (mkState mem (nodes s ++ [mkCnode a l l]), List.length (nodes s))
  end.

(** One step of a program; see [act] (operations.go:473-500). *)
Definition act1 (s : state) (x : act) : state :=
  match x with
  | Make l => mkState (arrays s ++ [l]) (nodes s)
  | Write a i p => mkState (setNth (arrays s) a (setNth (nth a (arrays s) []) i p)) (nodes s)
  | ConcatSlice a => fst (concat s a)
  | ConcatListed l =>
      fst (concat (mkState (arrays s ++ [l]) (nodes s)) (List.length (arrays s)))
  end.
(** A program from the empty graph (operations.go:473-500). *)
Definition run (xs : list act) : state := fold_left act1 xs (mkState [] []).
End Canon.

(** node.go:22-60: the children field, read through the slice. *)
Definition childrenNow (s : state) (k : nat) : option (list ptr) :=
  match nth_error (nodes s) k with
  | Some n => nth_error (arrays s) (carr n)
  | None => None
  end.
