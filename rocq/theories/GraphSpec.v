(** What is claimed of the expression graph, stated on heap and node lists. *)
From Coq Require Import Arith NArith List Bool String Ascii DecimalString.
From Verif Require Import GraphModel.
Import ListNotations.
Open Scope list_scope.

(** [c] is a child of [p]. *)
Definition child (g : graph) (p c : ptr) : Prop :=
  exists n, nth_error (heap g) p = Some n /\ In c (nchildren n).
Definition isA (g : graph) (p : ptr) (n : node) : Prop := nth_error (heap g) p = Some n.
Definition constantNode (g : graph) (p : ptr) : Prop :=
  exists n, nth_error (heap g) p = Some n /\ nkind n = KConst.

(** Arguments a program may pass: nodes of the graph and constants (which need
    no graph, gorgonia.go); constants and inputs have no children. *)
Definition usable (g : graph) (p : ptr) : Prop := In p (all g) \/ constantNode g p.
Definition okUse (g : graph) (u : use) : Prop :=
  match u with
  | UConst n => nkind n = KConst /\ nchildren n = []
  | UNew l cs => Forall (usable g) cs /\ (lkind l <> KOp -> cs = [])
  | _ => True
  end.

(** Everything programs can do to a graph, in any number and order. *)
Inductive reaches (H : string -> word) (fmtTS : ntype -> list nat -> string)
  : graph -> graph -> Prop :=
| reaches_refl : forall g, reaches H fmtTS g g
| reaches_step : forall g g1 u g2 r,
    reaches H fmtTS g g1 -> okUse g1 u -> useStep H fmtTS g1 u = Some (g2, r) ->
    reaches H fmtTS g g2.
Definition built (H : string -> word) (fmtTS : ntype -> list nat -> string) (g : graph) : Prop :=
  reaches H fmtTS (emptyGraph []) g.

(** Two descriptions the graph should not tell apart: inputs by name, others by
    operator; the type and the shape. *)
Definition sameLabel (l1 l2 : label) : Prop :=
  ltyp l1 = ltyp l2 /\ lshape l1 = lshape l2 /\
  ((lkind l1 = KInput /\ lkind l2 = KInput /\ lname l1 = lname l2) \/
   (lkind l1 <> KInput /\ lkind l2 <> KInput /\ lop l1 = lop l2)).

(** What is written into a node's hash. *)
Definition written (H : string -> word) (fmtTS : ntype -> list nat -> string) (h : list node)
  (n : node) :=
  (ntyp n, nshape n,
   match nkind n with KInput => (true, nname n) | _ => (false, nop n) end,
   map (hashcode H fmtTS h) (nchildren n)).
(** No collision among the nodes made so far: equal hash codes come from equal
    contents. *)
Definition noCollision (H : string -> word) (fmtTS : ntype -> list nat -> string) (g : graph)
  : Prop :=
  forall p q a b, isA g p a -> isA g q b ->
    hashcode H fmtTS (heap g) p = hashcode H fmtTS (heap g) q ->
    written H fmtTS (heap g) a = written H fmtTS (heap g) b.

(** No constant of the graph has been set aside for a hash collision. *)
Definition constantsUncollided (g : graph) : Prop :=
  forall p, In p (all g) -> constantNode g p -> In p (constants g).

(** [p] comes before [q] in [l]. *)
Definition before (l : list ptr) (p q : ptr) : Prop :=
  exists i j, i < j /\ nth_error l i = Some p /\ nth_error l j = Some q.

(** Reachable through children. *)
Inductive below (h : list node) : ptr -> ptr -> Prop :=
| below_refl : forall p, below h p p
| below_step : forall p c q n, nth_error h p = Some n -> In c (nchildren n) ->
    below h c q -> below h p q.

(** Children come before their parents on the heap. *)
Definition ordered_heap (h : list node) : Prop :=
  forall p n, nth_error h p = Some n -> Forall (fun c => c < p) (nchildren n).

(** The hash Go uses (hash/fnv New32a, standard library) and a printer of types
    and shapes; only the examples use them. *)
Fixpoint fnvN (h : N) (s : string) : N :=
  match s with
  | EmptyString => h
  | String c r => fnvN (N.modulo (N.mul (N.lxor h (N_of_ascii c)) 16777619) 4294967296) r
  end.
Definition byteOf (h : N) (k : N) : ascii := ascii_of_N (N.modulo (N.shiftr h (8 * k)) 256).
Definition fnv32a (s : string) : word :=
  let h := fnvN 2166136261 s in (byteOf h 0, byteOf h 1, byteOf h 2, byteOf h 3).
Definition printNat (n : nat) : string := NilEmpty.string_of_uint (Nat.to_uint n).
Fixpoint printShape (s : list nat) : string :=
  match s with
  | [] => ")"
  | [d] => printNat d ++ ")"
  | d :: r => printNat d ++ ", " ++ printShape r
  end%string.
Definition printTS (t : ntype) (s : list nat) : string :=
  (match t with
   | TScalar d => "dt" ++ printNat d
   | TTensor k d => "Tensor-" ++ printNat k ++ " dt" ++ printNat d
   end ++ "(" ++ printShape s)%string.
