(** What flush instructions are for. *)
From Coq Require Import List Arith.
From Verif Require Import TapeModel FlushModel.
Import ListNotations.
Local Open Scope nat_scope.

(** The program without its flushes. *)
Fixpoint withoutFlushes (fs : list finstr) : list instr :=
  match fs with
  | [] => []
  | FI i :: r => i :: withoutFlushes r
  | FFlush :: r => withoutFlushes r
  end.

(** The queue may be worked off at other moments too (the collector's signal,
    vm_tape.go:225-231): the same program with further flushes anywhere. *)
Inductive moreFlushes : list finstr -> list finstr -> Prop :=
| mf_nil : moreFlushes [] []
| mf_keep f a b : moreFlushes a b -> moreFlushes (f :: a) (f :: b)
| mf_add a b : moreFlushes a b -> moreFlushes a (FFlush :: b).

Section Hazards.
Variable ns : list tnode.

(** The result of a queued call is not looked at before a flush: neither by an
    operator that works at once nor by a read statement. *)
Definition readsSettled (p : list finstr) : Prop :=
  (forall a b c k rs r pre un j rs' w' pre' un',
     p = a ++ FI (IExec k rs r pre un) :: b ++ FI (IExec j rs' w' pre' un') :: c ->
     textern (nodeAt ns k) = true -> textern (nodeAt ns j) = false -> In r rs' -> In FFlush b) /\
  (forall a b c k rs r pre un i,
     p = a ++ FI (IExec k rs r pre un) :: b ++ FI (IRead i r) :: c ->
     textern (nodeAt ns k) = true -> In FFlush b).

(** The operands of a queued call are not written before a flush by an operator
    that works at once. *)
Definition operandsKept (p : list finstr) : Prop :=
  forall a b c k rs r pre un j rs' w' pre' un',
    p = a ++ FI (IExec k rs r pre un) :: b ++ FI (IExec j rs' w' pre' un') :: c ->
    textern (nodeAt ns k) = true -> textern (nodeAt ns j) = false -> In w' rs -> In FFlush b.
End Hazards.
