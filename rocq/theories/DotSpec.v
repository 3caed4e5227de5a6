(** What the export of a graph for graphviz is to hold. *)
From Coq Require Import List Arith Bool String Ascii.
From Verif Require Import DotModel.
Import ListNotations.
Open Scope nat_scope.

(** The cluster that a node of each kind belongs to. *)
Definition home (k : kind) : group :=
  match k with
  | KConst => Grp 2 "Constants "
  | KInput => Grp 3 "Inputs "
  | KOp => Grp 1 "ExprGraphCluster "
  end.

(** Graphs as the package builds them: different nodes have different IDs, the children are
    in the graph, no node is its own child; a node has no group twice; a group is given by
    its ID; groups besides the four clusters (IDs 0 to 3) are on operations only, and of the
    four clusters a node has at most its own. *)
Record built (g : graph) : Prop := {
  b_ids : NoDup (nodes g);
  b_kids : forall u v, In u (nodes g) -> In v (kids g u) -> In v (nodes g) /\ u <> v;
  b_once : forall n, In n (nodes g) -> NoDup (map gid (groupsOf g n));
  b_names : forall n m x y, In n (nodes g) -> In m (nodes g) ->
      In x (groupsOf g n) -> In y (groupsOf g m) -> gid x = gid y -> x = y;
  b_own : forall n x, In n (nodes g) -> In x (groupsOf g n) ->
      x = home (kindOf g n) \/ (kindOf g n = KOp /\ 4 <= gid x)
}.

(** [l] lists exactly the things with [P], each once. *)
Definition lists {A} (P : A -> Prop) (l : list A) : Prop := NoDup l /\ forall x, In x l <-> P x.

(** Reading an escaped text back: entities, and the bar after "const".  [skip] counts the
    characters already read. *)
Fixpoint readBackF (skip : nat) (s : string) : string :=
  match s with
  | EmptyString => EmptyString
  | String c r =>
      match skip with
      | S k => readBackF k r
      | O =>
          if String.prefix "&amp;" s then String "&" (readBackF 4 r)
          else if String.prefix "&#39;" s then String "'" (readBackF 4 r)
          else if String.prefix "&lt;" s then String "<" (readBackF 3 r)
          else if String.prefix "&gt;" s then String ">" (readBackF 3 r)
          else if String.prefix "&#123;" s then String "{" (readBackF 5 r)
          else if String.prefix "&#125;" s then String "}" (readBackF 5 r)
          else if String.prefix "&#34;" s then String """" (readBackF 4 r)
          else if String.prefix "const|" s then ("const" ++ readBackF 5 r)%string
          else String c (readBackF 0 r)
      end
  end.
Definition readBack (s : string) : string := readBackF 0 s.

(** The characters of a text. *)
Fixpoint chars (s : string) : list ascii :=
  match s with EmptyString => [] | String c r => c :: chars r end.

(** The fields of a record label are separated by bars. *)
Definition bars (s : string) : nat := count_occ ascii_dec (chars s) "|"%char.

(** A text that holds another one. *)
Definition holds (s w : string) : Prop := exists a b, s = (a ++ w ++ b)%string.
