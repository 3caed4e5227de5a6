(** What the methods of Nodes promise (collections.go:12-209). *)
From Coq Require Import List Arith Bool Sorted Permutation.
From Verif Require Import NodesModel.
Import ListNotations.

(** Ascending without repetition. *)
Definition strict (l : list nat) : Prop := StronglySorted lt l.
(** A slice header that fits the memory. *)
Definition fitsIn (h : heap) (s : slice) : Prop :=
  arr s < length h /\ len s <= cap s /\ off s + cap s <= length (nth (arr s) h []).
(** The contract of xtgo/set: the data are permuted (it only swaps) and the result stands in
    front, ascending without repetition, provided the data were ascending (Uniq), or both
    parts ascending without repetition (Diff, Inter). *)
Definition lawfulUniq (uniq : list nat -> list nat * nat) : Prop :=
  forall l, StronglySorted le l ->
    Permutation (fst (uniq l)) l /\ snd (uniq l) <= length l /\ strict (firstn (snd (uniq l)) (fst (uniq l))) /\
    forall x, In x (firstn (snd (uniq l)) (fst (uniq l))) <-> In x l.
(** The same for an operation on two sets given by the members it keeps. *)
Definition lawful2 (keep : Prop -> Prop -> Prop) (f : list nat -> nat -> list nat * nat) : Prop :=
  forall a b, strict a -> strict b ->
    let r := f (a ++ b) (length a) in
    Permutation (fst r) (a ++ b) /\ snd r <= length (a ++ b) /\ strict (firstn (snd r) (fst r)) /\
    forall x, In x (firstn (snd r) (fst r)) <-> keep (In x a) (In x b).
(** Members of a difference and of an intersection. *)
Definition keepDiff (a b : Prop) : Prop := a /\ ~ b.
Definition keepInter (a b : Prop) : Prop := a /\ b.

(** What combining two separate slices without repetitions must do: the result is the set
    asked for, in ascending order; the argument is only reordered; the receiver is only
    reordered if the result does not fit behind it, and otherwise its memory holds the
    members of both; no other memory changes. *)
Definition combined (keep : Prop -> Prop -> Prop) (h : heap) (s o : slice) (h' : heap) (r : slice) : Prop :=
  strict (view h' r) /\
  (forall x, In x (view h' r) <-> keep (In x (view h s)) (In x (view h o))) /\
  Permutation (view h' o) (view h o) /\
  (cap s < len s + len o -> Permutation (view h' s) (view h s)) /\
  (len s + len o <= cap s -> Permutation (view h' (Sl (arr s) (off s) (len s + len o) (cap s))) (view h s ++ view h o)) /\
  (forall a, a < length h -> a <> arr s -> a <> arr o -> nth a h' [] = nth a h []).
