(** Reading a tensor by its strides. *)
From Coq Require Import List Arith Permutation.
Import ListNotations.

(** The place of a coordinate. *)
Fixpoint place (idx st : list nat) : nat :=
  match idx, st with i :: idx', k :: st' => i * k + place idx' st' | _, _ => 0 end.
(** A coordinate of the shape. *)
Definition within (idx s : list nat) : Prop := Forall2 lt idx s.
(** Axes in another order. *)
Definition reorder (p : list nat) (l : list nat) : list nat := map (fun k => nth k l 0) p.
Definition axesOf (p : list nat) (n : nat) : Prop := Permutation p (seq 0 n).
(** The last place a tensor takes up: that of its last coordinate. *)
Fixpoint top (s st : list nat) : nat := match s, st with d :: s', k :: st' => (d - 1) * k + top s' st' | _, _ => 0 end.
