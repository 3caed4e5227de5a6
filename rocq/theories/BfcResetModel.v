(** Model of Engine.ResetAllocator (cuda/arena.go:26-37), which returns everything the
    memory pool of [BfcModel] has handed out.  No proofs in this file. *)
From Coq Require Import ZArith List Bool.
From Verif Require Import BfcModel.
Import ListNotations.
Open Scope Z_scope.

(** arena.go:32-34, the second loop: the collected keys are released one by one.  The
    answer of free is dropped. *)
Fixpoint freeAll (s : bfc) (keys : list Z) : option bfc :=
  match keys with
  | [] => Some s
  | ptr :: r => do x <- free s (ptr + start s); freeAll (fst x) r
  end.
(** bfc.go:326-331 [reset]. *)
Definition resetStats (s : bfc) : bfc :=
  BFC (mem s) (fresh s) (first s) (last s) (len s) (start s) (total s) (blockSize s) (reserved s) (used s) 0 0 0.
(** arena.go:26-37 [ResetAllocator].  [keys] is what the loop over the map e.a.used
    collected (27-30): its keys in some order. *)
Definition resetAllocator (s : bfc) (keys : list Z) : option bfc :=
  do s1 <- freeAll s keys;
  do s2 <- coalesce s1;
  Some (resetStats s2).
