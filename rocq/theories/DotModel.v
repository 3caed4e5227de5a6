(** Model of the export of a graph for graphviz (encoding/dot, internal/encoding and
    Node.Groups).  No proofs in this file.

    Simplifications common to the file: a node is given by its ID (the exported graph knows
    the nodes by their IDs); colours and the other fixed attributes are left out; the text
    written by gonum's Marshal is left out, the model ends at the graph handed to it. *)
From Coq Require Import List Arith Bool String Ascii.
From Verif Require Import BroadcastModel.
Import ListNotations.
Open Scope list_scope.
Open Scope nat_scope.

(** groups.go:16-20 [Group]; nothing sets the field IsPrimary. *)
Record group := Grp { gid : nat; gname : string }.
(** Comparison of two Groups as map keys (topgraph.go:60, 73). *)
Definition group_eqb (a b : group) : bool := (gid a =? gid b) && String.eqb (gname a) (gname b).

(** groups.go:31-38 [Upsert]. *)
Definition upsert (g : list group) (x : group) : list group :=
  if existsb (fun y => gid y =? gid x) g then g else g ++ [x].
(** groups.go:41-48 [Have]. *)
Definition have (g : list group) (x : group) : bool := existsb (fun y => gid y =? gid x) g.

(** constants.go:8: the first group made, so its ID is 0 (groups.go:3, 6-13). *)
Definition UndefinedCluster := Grp 0 "UndefinedCluster".
(** constants.go:10. *)
Definition ExprGraphCluster := Grp 1 "ExprGraphCluster ".
(** constants.go:12. *)
Definition ConstantCluster := Grp 2 "Constants ".
(** constants.go:14. *)
Definition InputCluster := Grp 3 "Inputs ".

(** What Node.Groups distinguishes (node.go:253-267): constants, inputs, the rest. *)
Inductive kind := KConst | KInput | KOp.

(** node.go:252-269 [Groups]: the new value of the field groups, which is also the result. *)
Definition groupsM (k : kind) (gs : list group) : list group :=
  match k with
  | KConst => upsert gs ConstantCluster
  | KInput => upsert gs InputCluster
  | KOp => upsert gs ExprGraphCluster
  end.

(** simple.DirectedGraph (gonum, library; made at topgraph.go:50): nodes and edges by ID. *)
Record digraph := DG { dnodes : list nat; dedges : list (nat * nat) }.
(** Whether an ID is among others (library, see [addNode]; copy.go:12). *)
Definition mem (n : nat) (l : list nat) : bool := existsb (Nat.eqb n) l.
(** simple.DirectedGraph.AddNode (library, called at copy.go:12): panics on an ID it has. *)
Definition addNode (d : digraph) (n : nat) : res digraph :=
  if mem n (dnodes d) then Panic else Ok (DG (dnodes d ++ [n]) (dedges d)).
(** simple.DirectedGraph.SetEdge (library, called at copy.go:27): panics on an edge from a
    node to itself, adds missing nodes, replaces an edge it has. *)
Definition setEdge (d : digraph) (u v : nat) : res digraph :=
  if u =? v then Panic
  else
    let ns := dnodes d ++ (if mem u (dnodes d) then [] else [u]) in
    let ns' := ns ++ (if mem v ns then [] else [v]) in
    let e := if existsb (fun p => (fst p =? u) && (snd p =? v)) (dedges d)
             then dedges d else dedges d ++ [(u, v)] in
    Ok (DG ns' e).

(** The expression graph as the export sees it (graph.go:552-569 [Nodes], [From];
    node.go:22-60): the nodes in the graph's order, their kinds, groups and children. *)
Record graph := G {
  nodes : list nat;
  kindOf : nat -> kind;
  groupsOf : nat -> list group;
  kids : nat -> list nat
}.

(** copy.go:9-16: the first loop. *)
Fixpoint copyNodes (d : digraph) (ns : list nat) : res digraph :=
  match ns with
  | [] => Ok d
  | n :: r => match addNode d n with Ok d' => copyNodes d' r | Err => Err | Panic => Panic end
  end.
(** copy.go:23-29: the edges of one node. *)
Fixpoint copyEdges (d : digraph) (u : nat) (vs : list nat) : res digraph :=
  match vs with
  | [] => Ok d
  | v :: r => match setEdge d u v with Ok d' => copyEdges d' u r | Err => Err | Panic => Panic end
  end.
(** copy.go:18-30: the second loop. *)
Fixpoint copyAll (d : digraph) (g : graph) (ns : list nat) : res digraph :=
  match ns with
  | [] => Ok d
  | u :: r => match copyEdges d u (kids g u) with
              | Ok d' => copyAll d' g r
              | Err => Err
              | Panic => Panic
              end
  end.
(** copy.go:8-31 [copyGraph], into an empty graph (topgraph.go:50-51). *)
Definition copyGraph (g : graph) : res digraph :=
  match copyNodes (DG [] []) (nodes g) with
  | Ok d => copyAll d g (nodes g)
  | Err => Err
  | Panic => Panic
  end.

(** A map from groups to the nodes of a subgraph (topgraph.go:14, 15). *)
Definition cmap := list (group * list nat).
(** Reading the map (topgraph.go:60, 73). *)
Fixpoint find (m : cmap) (x : group) : option (list nat) :=
  match m with
  | [] => None
  | (y, l) :: r => if group_eqb y x then Some l else find r x
  end.
(** Adding a node to the subgraph of a key that is there (topgraph.go:61, 78). *)
Fixpoint put (m : cmap) (x : group) (n : nat) : cmap :=
  match m with
  | [] => []
  | (y, l) :: r => if group_eqb y x then (y, l ++ [n]) :: r else (y, l) :: put r x n
  end.

(** topgraph.go:14-35 [subGraphs]. *)
Definition subGraphs : cmap :=
  [(ConstantCluster, []); (InputCluster, []); (ExprGraphCluster, []); (UndefinedCluster, [])].

(** The state of the loops: the map subgraphs, and the map subs of the ExprGraph cluster
    (topgraph.go:26, 53). *)
Record clusters := CL { tops : cmap; subs : cmap }.

(** topgraph.go:59-86: one group of one node; AddNode of a library graph panics on an ID it
    has. *)
Definition place (gs : list group) (n : nat) (c : clusters) (x : group) : res clusters :=
  match find (tops c) x with
  | Some l => if mem n l then Panic else Ok (CL (put (tops c) x n) (subs c))
  | None =>
      if have gs ExprGraphCluster then
        match find (subs c) x with
        | Some l => if mem n l then Panic else Ok (CL (tops c) (put (subs c) x n))
        | None => Ok (CL (tops c) (subs c ++ [(x, [n])]))
        end
      else Ok (CL (tops c ++ [(x, [n])]) (subs c))
  end.
(** topgraph.go:59-86: the groups of one node. *)
Fixpoint placeAll (gs : list group) (n : nat) (c : clusters) (xs : list group) : res clusters :=
  match xs with
  | [] => Ok c
  | x :: r => match place gs n c x with
              | Ok c' => placeAll gs n c' r
              | Err => Err
              | Panic => Panic
              end
  end.
(** topgraph.go:55-89: the nodes; Groups changes the field of the node. *)
Fixpoint clusterAll (k : nat -> kind) (gf : nat -> list group) (c : clusters) (ns : list nat)
  : res ((nat -> list group) * clusters) :=
  match ns with
  | [] => Ok (gf, c)
  | n :: r =>
      let gs := groupsM (k n) (gf n) in
      match placeAll gs n c gs with
      | Ok c' => clusterAll k (fun m => if m =? n then gs else gf m) c' r
      | Err => Err
      | Panic => Panic
      end
  end.

(** sort.Sort on Groups (library, groups.go:50-60), as an insertion by ID. *)
Fixpoint insertK (x : group * list nat) (m : cmap) : cmap :=
  match m with
  | [] => [x]
  | y :: r => if gid (fst x) <? gid (fst y) then x :: y :: r else y :: insertK x r
  end.
(** topgraph.go:41-47, 90-94: the subgraphs by the IDs of their groups. *)
Fixpoint sortedTops (m : cmap) : cmap :=
  match m with
  | [] => []
  | x :: r => insertK x (sortedTops r)
  end.

(** What the export holds: the graph, the clusters in their order, the clusters inside
    ExprGraph (in no order, exprsubgraph.go:62-68), and the groups that the nodes have then. *)
Record export := EX { xgraph : digraph; xtops : cmap; xsubs : cmap; xgroups : nat -> list group }.

Section Generate.
(** The order in which the library's iterator gives the nodes (topgraph.go:52; a Go map). *)
Variable visit : list nat -> list nat.

(** topgraph.go:49-99 [generateDotGraph]. *)
Definition generate (g : graph) : res export :=
  match copyGraph g with
  | Ok d =>
      match clusterAll (kindOf g) (groupsOf g) (CL subGraphs []) (visit (dnodes d)) with
      | Ok (gf, c) => Ok (EX d (sortedTops (tops c)) (subs c) gf)
      | Err => Err
      | Panic => Panic
      end
  | Err => Err
  | Panic => Panic
  end.
End Generate.

(** encoding/dot/node.go:29-36: the replacement of one character. *)
Definition entity (c : ascii) : string :=
  if Ascii.eqb c "&" then "&amp;"
  else if Ascii.eqb c "'" then "&#39;"
  else if Ascii.eqb c "<" then "&lt;"
  else if Ascii.eqb c ">" then "&gt;"
  else if Ascii.eqb c "{" then "&#123;"
  else if Ascii.eqb c "}" then "&#125;"
  else if Ascii.eqb c """" then "&#34;"
  else String c EmptyString.
(** encoding/dot/node.go:28-37: strings.NewReplacer (library), from left to right; the old
    strings start with different characters, so at most one fits at a place.  [skip] counts
    the characters already used up. *)
Fixpoint escapeF (skip : nat) (s : string) : string :=
  match s with
  | EmptyString => EmptyString
  | String c r =>
      match skip with
      | S k => escapeF k r
      | O => if String.prefix "const" s then ("const|" ++ escapeF 4 r)%string
             else (entity c ++ escapeF 0 r)%string
      end
  end.
(** encoding/dot/node.go:49, 51: the call of Replace. *)
Definition escape (s : string) : string := escapeF 0 s.

(** encoding/dot/node.go:46-52: the label; the ID and the shape are given as text. *)
Definition label (name id op shape : string) : string :=
  ("""{{" ++ escape name ++ "|" ++ id ++ "}|{Op|" ++ escape op ++ "}|{Shape|" ++ shape ++ "}}""")%string.
