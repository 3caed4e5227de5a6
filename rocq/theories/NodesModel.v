(** The type Nodes (collections.go): slices of nodes, used as sets. Proof-free.
    Memory is a list of arrays; a slice is an array, an offset, a length and a capacity. A
    node is its address, 0 is nil. *)
From Coq Require Import List Arith Bool.
Import ListNotations.

(** Arrays in memory (collections.go:12: Nodes is a slice). *)
Definition heap := list (list nat).
(** A slice header (collections.go:12). *)
Record slice := Sl { arr : nat; off : nat; len : nat; cap : nat }.
(** The elements of a slice (collections.go:44, 55). *)
Definition view (h : heap) (s : slice) : list nat := firstn (len s) (skipn (off s) (nth (arr s) h [])).
(** One array of the memory replaced (collections.go:30). *)
Fixpoint setArr (h : heap) (i : nat) (a : list nat) : heap :=
  match h, i with [], _ => [] | _ :: h', O => a :: h' | x :: h', S i' => x :: setArr h' i' a end.
(** Elements written over an array from a position on (collections.go:30, 193, 203). *)
Definition over (a : list nat) (p : nat) (xs : list nat) : list nat := firstn p a ++ xs ++ skipn (p + length xs) a.
(** Elements written into a slice's memory, [p] places after its start (collections.go:30). *)
Definition store (h : heap) (s : slice) (p : nat) (xs : list nat) : heap :=
  setArr h (arr s) (over (nth (arr s) h []) (off s + p) xs).

(** set.Uniq, set.Diff and set.Inter (library; collections.go:36, 122, 131): they permute
    the data and return a size. *)
Record setLib := SetLib {
  uniq : list nat -> list nat * nat;
  diff : list nat -> nat -> list nat * nat;
  inter : list nat -> nat -> list nat * nat }.

Section Nodes.
(** How many spare places append makes when it has to make a new array (Go's runtime;
    collections.go:49). *)
Variable spare : nat -> nat.
(** The library (collections.go:36, 122, 131). *)
Variable lib : setLib.

(** append (collections.go:49, 121, 130). *)
Definition append (h : heap) (s : slice) (xs : list nat) : heap * slice :=
  if len s + length xs <=? cap s then (store h s (len s) xs, Sl (arr s) (off s) (len s + length xs) (cap s))
  else
    let n := len s + length xs in
    (h ++ [view h s ++ xs ++ repeat 0 (spare n)], Sl (length h) 0 n (n + spare n)).

(** Less (collections.go:27-29) orders by address; sort.Sort (library) sorts in place
    (collections.go:35, 119, 120). Equal addresses are equal nodes, so the result does not
    depend on the method. *)
Fixpoint insertN (x : nat) (l : list nat) : list nat :=
  match l with [] => [x] | y :: l' => if x <=? y then x :: l else y :: insertN x l' end.
(** The sorted list (collections.go:35). *)
Definition sortL (l : list nat) : list nat := fold_right insertN [] l.
(** sort.Sort(ns) (collections.go:35, 119, 120, 128, 129). *)
Definition sortN (h : heap) (s : slice) : heap := store h s 0 (sortL (view h s)).

(** Set (collections.go:34-39). *)
Definition Set_ (h : heap) (s : slice) : heap * slice :=
  let h1 := sortN h s in
  let (l, size) := uniq lib (view h1 s) in
  (store h1 s 0 l, Sl (arr s) (off s) size (cap s)).
(** Contains (collections.go:54-61). *)
Definition Contains (h : heap) (s : slice) (n : nat) : bool := existsb (Nat.eqb n) (view h s).
(** Add (collections.go:43-51). *)
Definition Add (h : heap) (s : slice) (n : nat) : heap * slice :=
  if existsb (Nat.eqb n) (view h s) then (h, s) else append h s [n].
(** Difference and Intersect (collections.go:118-133), which differ in the library function
    called. *)
Definition combine (f : list nat -> nat -> list nat * nat) (h : heap) (s o : slice) : heap * slice :=
  let h1 := sortN h s in
  let h2 := sortN h1 o in
  let (h3, t) := append h2 s (view h2 o) in
  let (l, count) := f (view h3 t) (len s) in
  (store h3 t 0 l, Sl (arr t) (off t) count (cap t)).
(** Difference (collections.go:118-124). *)
Definition Difference := combine (diff lib).
(** Intersect (collections.go:127-133). *)
Definition Intersect := combine (inter lib).
(** Equals (collections.go:158-169). *)
Definition Equals (h : heap) (s o : slice) : bool :=
  (len s =? len o) && forallb (Contains h o) (view h s).

(** AllSameGraph (collections.go:136-155); a node is given by whether it is a constant and by
    its graph. [None] is the nil graph that is left if all nodes are constants. *)
Definition AllSameGraph (isConst : nat -> bool) (graphOf : nat -> nat) (l : list nat) : bool :=
  match l with
  | [] => false
  | _ =>
      let g := match find (fun n => negb (isConst n)) l with Some n => Some (graphOf n) | None => None end in
      forallb (fun n => match g with Some g => Nat.eqb (graphOf n) g || isConst n | None => isConst n end) l
  end.

(** index (collections.go:173-180); [None] is -1. *)
Fixpoint index (l : list nat) (n : nat) : option nat :=
  match l with [] => None | x :: l' => if Nat.eqb x n then Some 0 else option_map S (index l' n) end.
(** The swap in reverse (collections.go:186). *)
Definition swap (l : list nat) (i o : nat) : list nat :=
  map (fun k => nth (if Nat.eqb k i then o else if Nat.eqb k o then i else k) l 0) (seq 0 (length l)).
(** The loop of reverse (collections.go:184-187): [i] runs down from l/2-1. *)
Fixpoint reverseLoop (l : list nat) (i : nat) : list nat :=
  match i with O => l | S i' => reverseLoop (swap l i' (length l - 1 - i')) i' end.
(** reverse (collections.go:182-188). *)
Definition reverse (h : heap) (s : slice) : heap :=
  store h s 0 (reverseLoop (view h s) (len s / 2)).
(** replace (collections.go:190-197). *)
Definition replace (h : heap) (s : slice) (what wth : nat) : heap * slice :=
  (store h s 0 (map (fun n => if Nat.eqb n what then wth else n) (view h s)), s).
(** The body of the loop of remove (collections.go:203-205): copy moves the elements after
    [i] one place down, then the last place is set to nil. *)
Definition removeAt (h : heap) (s : slice) (i : nat) : heap * slice :=
  let w := view h s in
  let h1 := store h s i (skipn (S i) w) in
  (store h1 s (len s - 1) [0], Sl (arr s) (off s) (len s - 1) (cap s)).
(** The loop of remove (collections.go:202-206). Every turn shortens the slice: [fuel] turns
    are enough if it is at least the length. *)
Fixpoint removeLoop (fuel : nat) (h : heap) (s : slice) (what : nat) : heap * slice :=
  match fuel with
  | O => (h, s)
  | S fuel' =>
      match index (view h s) what with
      | None => (h, s)
      | Some i => let (h', s') := removeAt h s i in removeLoop fuel' h' s' what
      end
  end.
(** remove (collections.go:201-209). *)
Definition remove (h : heap) (s : slice) (what : nat) : heap * slice := removeLoop (S (len s)) h s what.
End Nodes.
