(** Model of the expression graph: graph.go, node.go, equalities.go, perf.go,
    walker.go, collections.go.  No proofs in this file.

    Pointers to nodes are indices into a heap.  The 32-bit hash is an arbitrary
    function [H] of the bytes written to it, with four bytes as result
    (node.go uses hash/fnv's 32a).  Types and shapes are printed by external
    code; [fmtTS] stands for fmt.Fprintf(h, "%v%v", n.t, n.shape). *)
From Coq Require Import Arith List Bool String Ascii.
Import ListNotations.
Open Scope list_scope.

(** A *Node (node.go:22-60): its place in the heap. *)
Definition ptr := nat.
(** A 32-bit hash value: its four bytes, least significant first.
    (node.go:53, the hash field, and 557-566.) *)
Definition word := (ascii * ascii * ascii * ascii)%type.

(** Equality of bytes of a hash (map keys of byHash, graph.go:20). *)
Definition ascii_eqb := Ascii.eqb.
(** Equality of two uint32 hashes (map keys of byHash and evac, graph.go:20-21; op hashes,
    equalities.go:196). *)
Definition word_eqb (a b : word) : bool :=
  let '(a0, a1, a2, a3) := a in let '(b0, b1, b2, b3) := b in
  Ascii.eqb a0 b0 && Ascii.eqb a1 b1 && Ascii.eqb a2 b2 && Ascii.eqb a3 b3.

(** binary.Write(h, binary.LittleEndian, uint32) of node.go:549. *)
Definition le32 (w : word) : string :=
  let '(a0, a1, a2, a3) := w in String a0 (String a1 (String a2 (String a3 EmptyString))).

(** Node types (type.go:9-40: a Dtype or TensorType with dimensions). *)
Inductive ntype := TScalar (dt : nat) | TTensor (dims dt : nat).
(** The comparison a.t != b.t of equalities.go:204: both are Dtypes or TensorType values
    (type.go:54-58), compared field by field. *)
Definition ntype_eqb (a b : ntype) : bool :=
  match a, b with
  | TScalar x, TScalar y => Nat.eqb x y
  | TTensor d x, TTensor e y => Nat.eqb d e && Nat.eqb x y
  | _, _ => false
  end.
(** tensor.Shape.Eq (library), used at equalities.go:208; simplified: equal lists (the library
    also identifies some scalar-equivalent shapes). *)
Fixpoint shape_eqb (a b : list nat) : bool :=
  match a, b with
  | [], [] => true
  | x :: a', y :: b' => Nat.eqb x y && shape_eqb a' b'
  | _, _ => false
  end.

(** What a node is: an input (op nil or a random op, node.go:323), a constant
    (its op a constant, node.go:325), or another operator.  An operator is known
    by the bytes its WriteHash writes; for random inputs too. *)
Inductive kind := KInput | KConst | KOp.

(** node.go:22-60; kept: what AddNode, Hashcode, nodeEq, Roots and walkers read.
    [stmt] is isStmt. *)
Record node := mkNode {
  nkind : kind;
  nname : string;
  ntyp : ntype;
  nshape : list nat;
  nop : string;              (* bytes written by op.WriteHash; unused for inputs *)
  nchildren : list ptr;
  stmt : bool
}.

(** node.go:323, 325. *)
Definition isInputN (n : node) : bool := match nkind n with KInput => true | _ => false end.
(** node.go:325 [isConstant]. *)
Definition isConstN (n : node) : bool := match nkind n with KConst => true | _ => false end.

(** graph.go:14-28 [ExprGraph] with the heap of nodes.  [idOf]: the node's id
    field, [None] for -1.  [byHash h = Some None] is a nil entry (collision
    marker); [roots = None] is a nil slice. *)
Record graph := mkGraph {
  heap : list node;
  idOf : ptr -> option nat;
  all : list ptr;
  byID : nat -> option nat;
  byHash : word -> option (option ptr);
  evac : word -> list ptr;
  to : ptr -> option (list ptr);
  leaves : list ptr;
  constants : list ptr;
  roots : option (list ptr);
  counter : nat
}.

(** Map updates. Of a Go map with nodes or ids as keys (graph.go:19-22). *)
Definition updP {X} (f : nat -> X) (k : nat) (v : X) : nat -> X :=
  fun n => if Nat.eqb n k then v else f n.
(** Of a Go map with hashes as keys (graph.go:20-21). *)
Definition updW {X} (f : word -> X) (k : word) (v : X) : word -> X :=
  fun w => if word_eqb w k then v else f w.

(** Dereferencing a *Node (node.go:22-60). *)
Definition getN (g : graph) (p : ptr) : option node := nth_error (heap g) p.

(** graph.go:42-58 [NewGraph]; the heap may already hold graphless constants. *)
Definition emptyGraph (h : list node) : graph :=
  mkGraph h (fun _ => None) [] (fun _ => None) (fun _ => None) (fun _ => []) (fun _ => None)
          [] [] None 0.

Section Hash.
Variable H : string -> word.
Variable fmtTS : ntype -> list nat -> string.

(** Successive writes to the hash (node.go:545-551). *)
Fixpoint concatS (l : list string) : string :=
  match l with
  | [] => EmptyString
  | s :: r => String.append s (concatS r)
  end.

(** node.go:533-552 [WriteHash], given the children's hash codes; byte(len) is
    the low byte of the number of children (ascii_of_nat reduces modulo 256). *)
Definition nodeBytes (n : node) (childHashes : list word) : string :=
  (fmtTS (ntyp n) (nshape n)
   ++ (if isInputN n then nname n else nop n)
   ++ String (ascii_of_nat (List.length (nchildren n))) EmptyString
   ++ concatS (map le32 childHashes))%string.

(** node.go:557-566 [Hashcode].  Simplified: the cached value is not kept; the
    fields hashed do not change once the node is in the graph, so recomputing
    gives the cached value.  [fuel]: depth. *)
Fixpoint hashF (fuel : nat) (h : list node) (p : ptr) : word :=
  match fuel with
  | O => (zero, zero, zero, zero)
  | S f => match nth_error h p with
           | None => (zero, zero, zero, zero)
           | Some n => H (nodeBytes n (map (hashF f h) (nchildren n)))
           end
  end.
(** node.go:557-566 [Hashcode] with enough depth: children are below their parents in the heap.
    *)
Definition hashcode (h : list node) (p : ptr) : word := hashF (S p) h p.

(** equalities.go:179-213 [nodeEq]; op.Hashcode() is [H] of the op's bytes
    (simpleHash, op.go). *)
Definition nodeEqN (a b : node) : bool :=
  if isInputN a then (if isInputN b then String.eqb (nname a) (nname b) else false)
  else if isInputN b then false
  else if negb (word_eqb (H (nop a)) (H (nop b))) then false
  else if negb (Nat.eqb (List.length (nchildren a)) (List.length (nchildren b))) then false
  else if negb (ntype_eqb (ntyp a) (ntyp b)) then false
  else shape_eqb (nshape a) (nshape b).
(** equalities.go:179-213 [nodeEq] on pointers; 180-182: equal pointers first. *)
Definition nodeEq (h : list node) (p q : ptr) : bool :=
  if Nat.eqb p q then true
  else match nth_error h p, nth_error h q with
       | Some a, Some b => nodeEqN a b
       | _, _ => false
       end.

(** graph.go:188-195 [addToAll]. *)
Definition addToAll (g : graph) (p : ptr) : graph :=
  mkGraph (heap g) (updP (idOf g) p (Some (counter g))) (all g ++ [p]) (byID g) (byHash g)
          (evac g) (to g) (leaves g) (constants g) (roots g) (S (counter g)).

(** The deferred part of AddNode, graph.go:138-142. *)
Definition ensureTo (g : graph) (p : ptr) : graph :=
  match to g p with
  | Some _ => g
  | None => mkGraph (heap g) (idOf g) (all g) (byID g) (byHash g) (evac g)
                    (updP (to g) p (Some [])) (leaves g) (constants g) (roots g) (counter g)
  end.

(** g.byHash[w] = v (graph.go:168, 184). *)
Definition setHash (g : graph) (w : word) (v : option ptr) : graph :=
  mkGraph (heap g) (idOf g) (all g) (byID g) (updW (byHash g) w (Some v)) (evac g) (to g)
          (leaves g) (constants g) (roots g) (counter g).
(** g.evac[w] = l (graph.go:160, 167). *)
Definition setEvac (g : graph) (w : word) (l : list ptr) : graph :=
  mkGraph (heap g) (idOf g) (all g) (byID g) (byHash g) (updW (evac g) w l) (to g)
          (leaves g) (constants g) (roots g) (counter g).

(** node.go:831-854 [clone] of a constant followed by graph.go:177-181: a fresh
    node with the same contents, recorded in [constants]. *)
Definition cloneConst (g : graph) (n : node) : graph * ptr :=
  let p := List.length (heap g) in
  (mkGraph (heap g ++ [n]) (idOf g) (all g) (byID g) (byHash g) (evac g) (to g)
           (leaves g) (constants g ++ [p]) (roots g) (counter g), p).

(** graph.go:145-149: the first constant of the graph with this name. *)
Fixpoint findConst (h : list node) (cs : list ptr) (nm : string) : option ptr :=
  match cs with
  | [] => None
  | c :: r => match nth_error h c with
              | Some n => if String.eqb (nname n) nm then Some c else findConst h r nm
              | None => findConst h r nm
              end
  end.

(** graph.go:155-159: look through the evacuated nodes. *)
Fixpoint findEvac (h : list node) (es : list ptr) (p : ptr) : option ptr :=
  match es with
  | [] => None
  | e :: r => if nodeEq h p e then Some e else findEvac h r p
  end.

(** graph.go:137-186 [AddNode]. *)
Definition addNode (g : graph) (p : ptr) : graph * ptr :=
  match getN g p with
  | None => (g, p)                                    (* not a node: not reached *)
  | Some n =>
    match (if isConstN n then findConst (heap g) (constants g) (nname n) else None) with
    | Some c => (ensureTo g c, c)
    | None =>
      let h := hashcode (heap g) p in
      match byHash g h with
      | Some None =>
          match findEvac (heap g) (evac g h) p with
          | Some e => (ensureTo g e, e)
          | None => (ensureTo (addToAll (setEvac g h (evac g h ++ [p])) p) p, p)
          end
      | Some (Some e) =>
          if nodeEq (heap g) p e then (ensureTo g e, e)
          else (ensureTo (addToAll (setHash (setEvac g h [e; p]) h None) p) p, p)
      | None =>
          if isConstN n then
            let (g1, q) := cloneConst g n in
            (ensureTo (setHash (addToAll g1 q) h (Some q)) q, q)
          else (ensureTo (setHash (addToAll g p) h (Some p)) p, p)
      end
    end
  end.

(** A node's position by id: graph.go:529-543 [node], first without the cache … *)
Fixpoint findID (ids : ptr -> option nat) (l : list ptr) (id i : nat) : option (nat * ptr) :=
  match l with
  | [] => None
  | p :: r => match ids p with
              | Some k => if Nat.eqb k id then Some (i, p) else findID ids r id (S i)
              | None => findID ids r id (S i)
              end
  end.
(** … then with it; looking up fills the cache. (graph.go:529-543.) *)
Definition lookup (g : graph) (id : nat) : graph * option ptr :=
  match byID g id with
  | Some idx => (g, nth_error (all g) idx)
  | None => match findID (idOf g) (all g) id 0 with
            | Some (i, p) =>
                (mkGraph (heap g) (idOf g) (all g) (updP (byID g) id (Some i)) (byHash g)
                         (evac g) (to g) (leaves g) (constants g) (roots g) (counter g), Some p)
            | None => (g, None)
            end
  end.
(** graph.go:546-549 [Has] for a node pointer's id; -1 is never found. *)
Definition has (g : graph) (p : ptr) : graph * bool :=
  match idOf g p with
  | None => (g, false)
  | Some id => let (g', r) := lookup g id in
               (g', match r with Some _ => true | None => false end)
  end.

(** graph.go:215-233 [SetEdge]; [None]: panic on a self edge. *)
Definition setEdge (g : graph) (from tgt : ptr) : option graph :=
  if Nat.eqb from tgt then None
  else
    let (g1, hf) := has g from in
    let (g2, from') := if hf then (g1, from) else addNode g1 from in
    let (g3, ht) := has g2 tgt in
    let (g4, to') := if ht then (g3, tgt) else addNode g3 tgt in
    Some (mkGraph (heap g4) (idOf g4) (all g4) (byID g4) (byHash g4) (evac g4)
            (updP (to g4) to' (Some (match to g4 to' with Some l => l | None => [] end ++ [from'])))
            (leaves g4) (constants g4) (roots g4) (counter g4)).

(** node.go:807-820 [fixEdges]. *)
Fixpoint setEdges (g : graph) (from : ptr) (cs : list ptr) : option graph :=
  match cs with
  | [] => Some g
  | c :: r => match setEdge g from c with
              | Some g' => setEdges g' from r
              | None => None
              end
  end.
(** node.go:807-820 [fixEdges]: a node without children is a leaf, otherwise an edge to every
    child. *)
Definition fixEdges (g : graph) (m : ptr) : option graph :=
  match getN g m with
  | None => None
  | Some n => match nchildren n with
              | [] => Some (mkGraph (heap g) (idOf g) (all g) (byID g) (byHash g) (evac g) (to g)
                              (leaves g ++ [m]) (constants g) (roots g) (counter g))
              | cs => setEdges g m cs
              end
  end.

(** node.go:794-805 [fixChildren]: every child is added, and replaced by what
    AddNode returned. *)
Fixpoint fixChildren (g : graph) (cs : list ptr) : graph * list ptr :=
  match cs with
  | [] => (g, [])
  | c :: r => let (g1, c') := addNode g c in
              let (g2, r') := fixChildren g1 r in
              (g2, c' :: r')
  end.

(** A new *Node (perf.go:14 [borrowNode], as used by newNode, node.go:271-280). *)
Definition allocNode (g : graph) (n : node) : graph * ptr :=
  (mkGraph (heap g ++ [n]) (idOf g) (all g) (byID g) (byHash g) (evac g) (to g)
           (leaves g) (constants g) (roots g) (counter g), List.length (heap g)).

(** The description of a node to be made: everything but the children.
    (node.go:22-60, as set by the NodeConsOpts, node.go:62-255.) *)
Record label := mkLabel {
  lkind : kind; lname : string; ltyp : ntype; lshape : list nat; lop : string; lstmt : bool }.
(** The node with its children set (node.go:81-86 [WithChildren]). *)
Definition ofLabel (l : label) (cs : list ptr) : node :=
  mkNode (lkind l) (lname l) (ltyp l) (lshape l) (lop l) cs (lstmt l).

(** node.go:288-301 [NewUniqueNode] with a graph.  The node is put on the heap
    after its children are fixed (nobody sees it before).  When AddNode returns
    another node the new one goes back to the pool; its id is -1, so RemoveNode
    does nothing (graph.go:201): here it is left on the heap unused. *)
Definition newUniqueNode (g : graph) (l : label) (cs : list ptr) : option (graph * ptr) :=
  let (g1, cs') := fixChildren g cs in
  let (g2, p) := allocNode g1 (ofLabel l cs') in
  let (g3, m) := addNode g2 p in
  match fixEdges g3 m with
  | Some g4 => Some (g4, m)
  | None => None
  end.

(** collections.go [Nodes.remove]. *)
Definition removeP (l : list ptr) (p : ptr) : list ptr := filter (fun q => negb (Nat.eqb q p)) l.

(** graph.go:199-211 [RemoveNode]. *)
Definition removeNode (g : graph) (p : ptr) : graph :=
  match idOf g p with
  | None => g
  | Some _ =>
      let h := hashcode (heap g) p in
      mkGraph (heap g) (idOf g) (removeP (all g) p) (byID g)
              (fun w => if word_eqb w h then None else byHash g w)
              (updW (evac g) h (removeP (evac g h) p))
              (fun q => if Nat.eqb q p then None else to g q)
              (leaves g) (constants g) (roots g) (counter g)
  end.

(** graph.go:509-513 [removeAllEdgesFrom]. *)
Definition removeAllEdgesFrom (g : graph) (p : ptr) : graph :=
  mkGraph (heap g) (idOf g) (all g) (byID g) (byHash g) (evac g)
          (fun q => match to g q with Some l => Some (removeP l p) | None => None end)
          (leaves g) (constants g) (roots g) (counter g).

(** Assignment to an element of a slice or of the heap, as used by [returnNode] (perf.go:16-45).
    *)
Fixpoint setNth {X} (l : list X) (i : nat) (x : X) : list X :=
  match l, i with
  | [], _ => []
  | _ :: r, O => x :: r
  | y :: r, S i' => y :: setNth r i' x
  end.

(** perf.go:16-45 [returnNode]: RemoveNode, then the record is blanked (op nil
    makes it an input without a name); giving the memory to a later node is not
    modelled. *)
Definition blankNode : node := mkNode KInput EmptyString (TScalar 0) [] EmptyString [] false.
(** perf.go:16-45 [returnNode], on the heap. *)
Definition returnNode (g : graph) (p : ptr) : graph :=
  let g1 := removeNode g p in
  mkGraph (setNth (heap g1) p blankNode) (idOf g1) (all g1) (byID g1) (byHash g1) (evac g1)
          (to g1) (leaves g1) (constants g1) (roots g1) (counter g1).

(** stabilization.go:74-76: what logStabilization does to its argument before
    (and after: [returnNode]) building the log1p node. *)
Definition dropArgument (g : graph) (a : ptr) : graph :=
  removeNode (removeAllEdgesFrom g a) a.

(** stabilization.go:73-85, logStabilization once it has found [a] = 1 + x: [a] is
    taken out, log1p(x) is made ([l]: the log1p node), and [a] goes back to the
    pool. *)
Definition logStabilize (g : graph) (a : ptr) (l : label) (x : ptr) : option (graph * ptr) :=
  match newUniqueNode (dropArgument g a) l [x] with
  | Some (g', m) => Some (returnNode g' a, m)
  | None => None
  end.

(** graph.go:236-256 [Roots].  The map [to] is gone through in any order; here
    in the order of AllNodes (its keys are the nodes of the graph). *)
Definition rootsOf (g : graph) : list ptr :=
  flat_map (fun p =>
    match to g p with
    | None => []
    | Some tos =>
        (match tos with [] => [p] | _ => [] end) ++
        match getN g p with
        | Some n =>
            if stmt n then
              match nchildren n with
              | [c] => match to g c with
                       | Some [_] => [c]
                       | _ => []
                       end
              | _ => []
              end
            else []
        | None => []
        end
    end) (all g).
(** graph.go:236-256 [Roots], with the cached slice g.roots. *)
Definition rootsCall (g : graph) : graph * list ptr :=
  match roots g with
  | Some r => (g, r)
  | None =>
      let r := rootsOf g in
      (mkGraph (heap g) (idOf g) (all g) (byID g) (byHash g) (evac g) (to g) (leaves g)
               (constants g) (match r with [] => None | _ => Some r end) (counter g), r)
  end.

(** graph.go:492-506 [Edges]: pairs (from, to). *)
Definition edgesOf (g : graph) : list (ptr * ptr) :=
  flat_map (fun p => map (fun q => (p, q)) (match to g p with Some l => l | None => [] end)) (all g).

(** graph.go:603-611 [HasEdgeFromTo] on ids. *)
Definition hasEdgeFromTo (g : graph) (u v : nat) : graph * bool :=
  let (g1, pu) := lookup g u in
  let (g2, pv) := lookup g1 v in
  (g2, match pu, pv with
       | Some a, Some b => match getN g2 a with
                           | Some n => existsb (Nat.eqb b) (nchildren n)
                           | None => false
                           end
       | _, _ => false
       end).

(** graph.go:564-569 [From] and 614-624 [To] on a node of the graph; To makes the
    list duplicate-free (collections.go:35-40; the order by address is not
    modelled). *)
Definition fromN (g : graph) (p : ptr) : list ptr :=
  match getN g p with Some n => nchildren n | None => [] end.
(** graph.go:614-624 [To]. *)
Definition toN (g : graph) (p : ptr) : list ptr :=
  nodup Nat.eq_dec (match to g p with Some l => l | None => [] end).

(** walker.go:24-38 [walkGraph]: the sent nodes and the walked set (a list).
    [fuel]: depth. *)
Fixpoint walkF (fuel : nat) (h : list node) (start : ptr) (walked : list ptr)
  : list ptr * list ptr :=
  if existsb (Nat.eqb start) walked then ([], walked)
  else match fuel with
       | O => ([], walked)
       | S f =>
           let (out, w) :=
             (fix go (cs : list ptr) (out w : list ptr) {struct cs} :=
                match cs with
                | [] => (out, w)
                | c :: r => let (o, w') := walkF f h c w in go r (out ++ o) w'
                end)
             (match nth_error h start with Some n => nchildren n | None => [] end) [start] walked
           in (out, start :: w)
       end.
(** walker.go:24-38 [walkGraph], with enough depth. *)
Definition walkGraph (h : list node) (start : ptr) (walked : list ptr) : list ptr * list ptr :=
  walkF (S start) h start walked.

(** graph.go:736-753 [walkFromRoots]: the roots, then the walks. *)
Fixpoint walks (h : list node) (rs : list ptr) (walked : list ptr) : list ptr :=
  match rs with
  | [] => []
  | r :: rest => let (o, w) := walkGraph h r walked in o ++ walks h rest w
  end.
(** graph.go:736-753 [walkFromRoots]. *)
Definition walkFromRoots (h : list node) (rs : list ptr) : list ptr := rs ++ walks h rs [].

(** graph.go:627-704 [subgraph].  [findMissing] adds parents that are statements
    (632-641); [rs = None]: the roots are found (646-666), otherwise given
    (668-677).  [uniq] is Nodes.Set (its order by address is not modelled). *)
Definition uniq (l : list ptr) : list ptr := nodup Nat.eq_dec l.
(** g.to[n] (graph.go:634, 657). *)
Definition parentsOf (g : graph) (p : ptr) : list ptr :=
  match to g p with Some l => l | None => [] end.
(** n.isStmt (graph.go:635, 648, 671). *)
Definition isStmtP (g : graph) (p : ptr) : bool :=
  match getN g p with Some x => stmt x | None => false end.
(** n.children (graph.go:649, 672, 682). *)
Definition childrenOf (g : graph) (p : ptr) : list ptr :=
  match getN g p with Some n => nchildren n | None => [] end.
(** A root that is a statement is replaced by its first child (648-652, 671-675);
    [None]: index out of range on a statement without children. (graph.go:646-677.) *)
Definition rootOf (g : graph) (p : ptr) : option ptr :=
  if isStmtP g p then match childrenOf g p with c :: _ => Some c | [] => None end else Some p.
(** A loop over a slice that may panic in its body (graph.go:646-677 and 76-128). *)
Fixpoint mapO {X Y} (f : X -> option Y) (l : list X) : option (list Y) :=
  match l with
  | [] => Some []
  | x :: r => match f x, mapO f r with Some y, Some ys => Some (y :: ys) | _, _ => None end
  end.
(** graph.go:627-704 [subgraph]. *)
Definition subgraphGen (g : graph) (ns : list ptr) (findMissing : bool) (rs : option (list ptr))
  : option graph :=
  let extra := if findMissing then flat_map (fun n => filter (isStmtP g) (parentsOf g n)) ns
               else [] in
  let ns' := ns ++ extra in
  let found :=
    match rs with
    | Some l => mapO (rootOf g) l
    | None =>
        match mapO (fun n => match parentsOf g n with
                             | [] => match rootOf g n with Some r => Some [r] | None => None end
                             | ps => Some (if existsb (fun q => existsb (Nat.eqb q) ns') ps
                                           then [] else [n])
                             end) ns' with
        | Some ls => Some (extra ++ List.concat ls)
        | None => None
        end
    end in
  match found with
  | None => None
  | Some r =>
      Some (mkGraph (heap g) (idOf g) (uniq ns') (fun _ => None) (byHash g) (evac g) (to g)
              (uniq (filter (fun n => match childrenOf g n with [] => true | _ => false end) ns'))
              (constants g)
              (match uniq r with [] => None | l => Some l end) 0)
  end.

(** graph.go:708-713 [Subgraph] (the SubgraphRoots call's result is dropped),
    716-719 [SubgraphRoots], 731-734 [ExactSubgraphRoots]. *)
Definition subgraph (g : graph) (ns : list ptr) : option graph := subgraphGen g ns true None.
(** graph.go:716-719 [SubgraphRoots]. *)
Definition subgraphRoots (g : graph) (ns : list ptr) : option graph :=
  subgraphGen g (walkFromRoots (heap g) ns) true (Some ns).
(** graph.go:731-734 [ExactSubgraphRoots]. *)
Definition exactSubgraphRoots (g : graph) (ns : list ptr) : option graph :=
  subgraphGen g (walkFromRoots (heap g) ns) false (Some ns).

(** graph.go:60-134 [Clone].  The i-th node of [all] is copied to the heap's i-th
    new place; [mapping] is the Go map of the same name, [None] a nil pointer
    (the model stops there; Go would go on with a nil node).  deriv and derivOf
    are not in the model.  The roots slice is made with the length of the old
    one, hence is never nil. *)
Fixpoint indexOf (l : list ptr) (p : ptr) (i : nat) : option nat :=
  match l with
  | [] => None
  | q :: r => if Nat.eqb q p then Some i else indexOf r p (S i)
  end.
(** The map of the same name in graph.go:60-134. *)
Definition mapping (g : graph) (p : ptr) : option ptr :=
  match indexOf (all g) p 0 with Some i => Some (List.length (heap g) + i) | None => None end.
(** node.go:831-854 [clone] with the children replaced (graph.go:76-92). *)
Definition cloneNode (g : graph) (p : ptr) : option node :=
  match getN g p with
  | None => None
  | Some n => match mapO (mapping g) (nchildren n) with
              | Some cs => Some (mkNode (nkind n) (nname n) (ntyp n) (nshape n) (nop n) cs (stmt n))
              | None => None
              end
  end.
(** The map of parents over the clone's nodes (109-115). (graph.go:109-115.) *)
Definition cloneTo (g : graph) (q : ptr) : option (list ptr) :=
  match nth_error (all g) (q - List.length (heap g)) with
  | Some p => if Nat.leb (List.length (heap g)) q
              then match to g p with
                   | Some l => mapO (mapping g) l
                   | None => None
                   end
              else None
  | None => None
  end.
(** graph.go:60-134 [Clone]. *)
Definition cloneGraph (g : graph) : option graph :=
  match mapO (cloneNode g) (all g), mapO (mapping g) (all g), mapO (mapping g) (leaves g),
        mapO (mapping g) (constants g),
        mapO (mapping g) (match roots g with Some r => r | None => [] end) with
  | Some ns, Some ps, Some lv, Some cs, Some rs =>
      Some (mkGraph (heap g ++ ns)
              (fun q => if Nat.leb (List.length (heap g)) q
                        then match nth_error (all g) (q - List.length (heap g)) with
                             | Some p => idOf g p
                             | None => None
                             end
                        else idOf g q)
              ps (fun _ => None)
              (fun w => match byHash g w with
                        | None => None
                        | Some None => Some None
                        | Some (Some p) => Some (mapping g p)
                        end)
              (fun w => match mapO (mapping g) (evac g w) with Some l => l | None => [] end)
              (cloneTo g) lv cs (Some rs) (counter g))
  | _, _, _, _, _ => None
  end.

(** The uses of a graph: what a program does between two looks at it.  A constant
    without a graph (gorgonia.go NewConstant); a new node; a lookup by id; Roots;
    To (which makes the parent list a set, graph.go:614-624). *)
Inductive use :=
| UConst (n : node)
| UNew (l : label) (cs : list ptr)
| ULookup (id : nat)
| URoots
| UTo (id : nat).
(** graph.go:614-624 [To] by id; line 621 stores the set back. *)
Definition toCall (g : graph) (id : nat) : graph * list ptr :=
  let (g1, r) := lookup g id in
  match r with
  | None => (g1, [])
  | Some p =>
      let l := uniq (parentsOf g1 p) in
      (mkGraph (heap g1) (idOf g1) (all g1) (byID g1) (byHash g1) (evac g1)
               (updP (to g1) p (Some l)) (leaves g1) (constants g1) (roots g1) (counter g1), l)
  end.
(** One use; see [use] for the functions of graph.go it calls. *)
Definition useStep (g : graph) (u : use) : option (graph * option ptr) :=
  match u with
  | UConst n => let (g', p) := allocNode g n in Some (g', Some p)
  | UNew l cs => match newUniqueNode g l cs with
                 | Some (g', m) => Some (g', Some m)
                 | None => None
                 end
  | ULookup id => let (g', r) := lookup g id in Some (g', r)
  | URoots => Some (fst (rootsCall g), None)
  | UTo id => Some (fst (toCall g id), None)
  end.
End Hash.
