(** What C122 says: the callbacks one after the other, and which cells a callback uses. *)
From Coq Require Import List Arith.
From Verif Require Import ParModel.
Import ListNotations.

Section S.
Variable V : Type.

(** A callback run on its own. *)
Fixpoint run (p : prog V) (m : mem V) : mem V :=
  match p with
  | Done => m
  | Rd l k => run (k (m l)) m
  | Wr l v p' => run p' (upd m l v)
  end.

(** The loop without goroutines: for i := from; i < to; i++ { cb(i) }. *)
Definition oneByOne (cb : nat -> prog V) (from to : nat) (m : mem V) : mem V :=
  fold_left (fun m i => run (cb i) m) (seq from (to - from)) m.

(** The callback stores only to cells in [wr] and loads only from cells in [rd] or [wr],
    whatever it loads. *)
Inductive touches (rd wr : loc -> Prop) : prog V -> Prop :=
| TDone : touches rd wr Done
| TRd : forall l k, rd l \/ wr l -> (forall v, touches rd wr (k v)) -> touches rd wr (Rd l k)
| TWr : forall l v p, wr l -> touches rd wr p -> touches rd wr (Wr l v p).

(** No callback stores to a cell that another one uses. *)
Definition apart (rd wr : nat -> loc -> Prop) (from to : nat) : Prop :=
  forall i j l, from <= i < to -> from <= j < to -> i <> j -> wr i l -> ~ rd j l /\ ~ wr j l.

(** Whatever the schedule: the call can return from every state it gets into, and when it
    returns every callback has run and the memory is that of the plain loop. *)
Definition likeALoop (cb : nat -> prog V) (n : nat) : Prop :=
  forall m s, steps n cb (start 0 m) s ->
    (exists t, steps n cb s t /\ returned n t) /\
    (returned n s -> running s = [] /\ forall l, memory s l = oneByOne cb 0 n m l).
End S.
Arguments run {V}. Arguments oneByOne {V}. Arguments touches {V}. Arguments likeALoop {V}.
