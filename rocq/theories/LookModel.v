(** Model of the read-only queries on an expression graph and of
    ExprGraph.Constant (graph.go), on top of the graph model.  No proofs in this
    file. *)
From Coq Require Import Arith List Bool String.
From Verif Require Import GraphModel.
Import ListNotations.
Open Scope list_scope.

(** graph.go:259-266 [Inputs]. *)
Definition inputsOf (g : graph) : list ptr :=
  filter (fun p => match getN g p with Some n => isInputN n | None => false end) (all g).

(** graph.go:289-296 [ByName]: the internal name. *)
Definition byName (g : graph) (name : string) : list ptr :=
  filter (fun p => match getN g p with Some n => String.eqb (nname n) name | None => false end)
         (all g).

(** graph.go:518-527 [Node]: the result is an interface holding a pointer.  The
    outer option is the interface ([None] is nil), the inner one the pointer. *)
Definition nodeCall (g : graph) (id : nat) : graph * option (option ptr) :=
  let (g', r) := lookup g id in (g', Some r).

(** graph.go:552-557 [Nodes] and utils.go:47-53 [nodeToGraphNode]: what the
    iterator gives, in order. *)
Definition nodesCall (g : graph) : list ptr := all g.

(** graph.go:564-569 [From]; [None] is the nil interface. *)
Definition fromCall (g : graph) (id : nat) : graph * option (list ptr) :=
  let (g', r) := lookup g id in
  (g', match r with Some p => Some (childrenOf g' p) | None => None end).

(** collections.go:53-61 [Contains]. *)
Definition contains (l : list ptr) (p : ptr) : bool := existsb (Nat.eqb p) l.

(** graph.go:573-581 [HasEdgeBetween]. *)
Definition hasEdgeBetween (g : graph) (x y : nat) : graph * bool :=
  let (g1, px) := lookup g x in
  let (g2, py) := lookup g1 y in
  (g2, match px, py with
       | Some a, Some b => contains (childrenOf g2 a) b || contains (childrenOf g2 b) a
       | _, _ => false
       end).

(** graph.go:585-598 [Edge]: the edge as the pair (from, to). *)
Definition edgeCall (g : graph) (u v : nat) : graph * option (ptr * ptr) :=
  let (g1, pu) := lookup g u in
  let (g2, pv) := lookup g1 v in
  (g2, match pu, pv with
       | Some a, Some b => if contains (childrenOf g2 a) b then Some (a, b) else None
       | _, _ => None
       end).

Section Constant.
Variable H : string -> word.
Variable fmtTS : ntype -> list nat -> string.
Variable V : Type.
Variable valOf : node -> V.           (* node.go [Value] of a constant *)
Variable valueEq : V -> V -> bool.    (* values.go [ValueEq] *)
Variable newConstant : V -> node.     (* gorgonia.go:87-126 [NewConstant] *)

(** graph.go:300-304: the first recorded constant with an equal value. *)
Fixpoint findValue (g : graph) (cs : list ptr) (v : V) : option ptr :=
  match cs with
  | [] => None
  | c :: r => match getN g c with
              | Some n => if valueEq (valOf n) v then Some c else findValue g r v
              | None => findValue g r v
              end
  end.

(** graph.go:299-308 [Constant]. *)
Definition constantCall (g : graph) (v : V) : graph * ptr :=
  match findValue g (constants g) v with
  | Some c => (g, c)
  | None => let (g1, p) := allocNode g (newConstant v) in addNode H fmtTS g1 p
  end.
End Constant.
