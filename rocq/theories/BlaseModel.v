(** Batched BLAS calls (blase/work.go, blase/blas.go). The producer (enqueue) and the
    worker (DoWork) may run at the same time; a state holds the channel, the queue and the
    position of the worker, and a label is what happens next. What a call does is left
    out: [ran] lists the calls handed to C.process in order. There is one worker, as in
    the machines. Proof-free. *)
From Coq Require Import List Arith ZArith Bool.
Import ListNotations.

Section Model.
Context {A : Type}.
(** call (work.go:57-86). *)
Record call := Call { args : A; blocking : bool }.
(** workbufLen (work.go:48): the capacity of the channel [work], the length of [fns] and
    the first capacity of [queue] (work.go:100-109). *)
Definition workbufLen : nat := 3.
(** The capacity append gives a slice that has to grow to [n] elements (the language only
    says that it is enough). *)
Variable grow : nat -> nat.
(** Where the worker is in DoWork (work.go:126-157): outside; at the outer select (129);
    at the head of the inner loop (137) with its [blocking]; or it panicked. *)
Inductive pc := Outside | Outer | Inner (b : bool) | Panicked.
(** context (work.go:88-96) without [fns] and [workAvailable]; [cap] is cap(queue). *)
Record st := St { work : list call; queue : list call; cap : nat; ran : list call; at_ : pc }.
(** newContext (work.go:98-110). *)
Definition newContext : st := St [] [] workbufLen [] Outside.
(** append to the queue (work.go:131, 140): its new capacity. *)
Definition capAfter (s : st) : nat := if length (queue s) <? cap s then cap s else grow (S (length (queue s))).

(** enqueue's send of a call (work.go:113); the worker is started; the worker goes on. *)
Inductive label := Put (c : call) | Start | Tick.
(** One step. [None]: not possible; the send waits while the channel is full. C.process
    runs the first three of the calls (work.go:11-24); copying more than three into [fns]
    (149-151) panics. The copy, the processing and the clearing of the queue (149-155) are
    one step with the receive before them: the producer can do no more than put into the
    channel meanwhile. A panic leaves the queue as it is, and DoWork can be called again. *)
Definition fire (l : label) (s : st) : option st :=
  match l with
  | Put c => if length (work s) <? workbufLen then Some (St (work s ++ [c]) (queue s) (cap s) (ran s) (at_ s)) else None
  | Start => match at_ s with
             | Outside | Panicked => Some (St (work s) (queue s) (cap s) (ran s) Outer)
             | _ => None
             end
  | Tick =>
      match at_ s with
      | Outer =>
          match work s with
          | w :: ws => Some (St ws (queue s ++ [w]) (capAfter s) (ran s) (Inner (blocking w)))
          | [] => Some (St [] (queue s) (cap s) (ran s) Outside)
          end
      | Inner b =>
          if (length (queue s) <? cap s) && negb b then
            match work s with
            | w :: ws =>
                if workbufLen <? length (queue s ++ [w])
                then Some (St ws (queue s ++ [w]) (capAfter s) (ran s) Panicked)
                else Some (St ws [] (capAfter s) (ran s ++ queue s ++ [w]) (Inner (blocking w)))
            | [] => Some (St [] (queue s) (cap s) (ran s) Outer)
            end
          else Some (St (work s) (queue s) (cap s) (ran s) Outer)
      | _ => None
      end
  end.
(** A sequence of steps. (Of the queue and its worker, blase/work.go, blase/work.c.) *)
Fixpoint run (ls : list label) (s : st) : option st :=
  match ls with [] => Some s | l :: ls' => match fire l s with Some s' => run ls' s' | None => None end end.
End Model.

(** The arguments Dgemv puts into fnargs that matter here (blas.go:74-89): i0, i1, i2. *)
Record fnargs := FnArgs { i0 : nat; i1 : nat; i2 : nat }.
(** blase/blas.go:72-89: i1 is m again. *)
Definition dgemvArgs (m n lda : nat) : fnargs := FnArgs m m lda.
