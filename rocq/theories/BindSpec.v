(** What binding a value to a node should mean. *)
From Coq Require Import List ZArith Bool.
From Verif Require Import TypeModel BindModel.
Import ListNotations.

(** Shapes agree: equal, or a vector and the column or row of the same length. *)
Definition agree (s t : list Z) : Prop :=
  s = t \/ exists k, (1 < k)%Z /\ (s = [k] /\ (t = [k; 1%Z] \/ t = [1%Z; k]) \/ t = [k] /\ (s = [k; 1%Z] \/ s = [1%Z; k])).
(** The dtype at the bottom of a type. *)
Inductive hasDt (d : dtype) : ty -> Prop :=
| hd_dt : hasDt d (Dt d)
| hd_ten : forall k t, hasDt d t -> hasDt d (Ten k t).
(** A node of [shape] and type [t] can take the value. *)
Definition takes {V} (x : bnode) (v : obj V) : Prop :=
  exists s t, bshp x = Some s /\ bty x = Some t /\ agree s (oshape v) /\ hasDt (odt v) t.
(** The pointers of nodes and of dual values lead somewhere. *)
Definition sound {V} (w : world V) : Prop :=
  forall n x d, nth_error (bnodes w) n = Some x -> bto x = Some (BD d) -> d < length (duals w).
(** Node [n] is bound to the object [o]: as its value or as the derivative stored with it. *)
Definition holds {V} (w : world V) (n o : nat) : Prop :=
  exists x, nth_error (bnodes w) n = Some x /\
    (bto x = Some (BV o) \/ exists d dv, bto x = Some (BD d) /\ nth_error (duals w) d = Some dv /\ (dval dv = Some o \/ dder dv = Some o)).
(** Only node [n] differs. *)
Definition onlyNode {V} (w w' : world V) (n : nat) : Prop :=
  length (bnodes w') = length (bnodes w) /\ forall m, m <> n -> nth_error (bnodes w') m = nth_error (bnodes w) m.
(** Allocating tensors one after the other: the pointers handed out. *)
Fixpoint allocMany {V} (w : world V) (xs : list (obj V)) : world V * list nat :=
  match xs with
  | [] => (w, [])
  | x :: xs' => let (w1, i) := allocTensor w x in let (w2, is) := allocMany w1 xs' in (w2, i :: is)
  end.
(** An input: without an op or a random one, and no statement. *)
Definition inputNode (x : bnode) : Prop := (bkind x = KArg \/ bkind x = KRandom) /\ bstmt x = false.
