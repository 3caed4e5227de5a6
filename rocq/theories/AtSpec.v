(** Reading an element with At: what the user means, and what the machine makes of it. *)
From Coq Require Import List Arith Bool.
From Verif Require Import TapeModel TapeSpec.
Import ListNotations.
Local Open Scope nat_scope.

(** The node an instruction is made for. *)
Definition nodeOf (ins : instr) : option nat :=
  match ins with
  | ILoad i _ | IAlloc i _ | IExec i _ _ _ _ | IRead i _ => Some i
  | ILet => None
  end.

(** Another position for some children of a node. *)
Definition redirect (f : nat -> nat) (t : tnode) : tnode :=
  TNode (tk t) (map f (tkids t)) (top t) (tptr t) (textern t) (tover t) (tpre t) (tpreok t) (tunsafe t) (talias t) (tderiv t) (thash t).
(** The graph in which every use of an At is a use of the first node instead. *)
Definition firstFor (ns : list tnode) (c : nat) : nat := match tk (nodeAt ns c) with TAt => 0 | _ => c end.
Definition ignoringAt (ns : list tnode) : list tnode := map (redirect (firstFor ns)) ns.
(** The graph that was meant: At is an operator as any other. *)
Definition asOp (t : tnode) : tnode :=
  TNode (match tk t with TAt => TOp | k => k end) (tkids t) (top t) (tptr t) (textern t) (tover t) (tpre t) (tpreok t) (tunsafe t) (talias t) (tderiv t) (thash t).
Definition meant (ns : list tnode) : list tnode := map asOp ns.

(** Sorted graphs in which an At may be used. The first node is a leaf; no operator
    overwrites an element that was read (it is a scalar, and operators overwrite tensors). *)
Record atGraph (ns : list tnode) : Prop := {
  ag_first : tk (nodeAt ns 0) = TArg \/ tk (nodeAt ns 0) = TConst \/ tk (nodeAt ns 0) = TRandom;
  ag_kids : forall i c, i < length ns -> In c (tkids (nodeAt ns i)) -> c < i /\ (hasValue ns c \/ tk (nodeAt ns c) = TAt);
  ag_leaf : forall i, i < length ns ->
      tk (nodeAt ns i) = TArg \/ tk (nodeAt ns i) = TConst \/ tk (nodeAt ns i) = TRandom ->
      tkids (nodeAt ns i) = [] /\ tover (nodeAt ns i) = None /\ textern (nodeAt ns i) = false;
  ag_read : forall i, i < length ns -> tk (nodeAt ns i) = TRead -> length (tkids (nodeAt ns i)) = 1;
  ag_over : forall i o, i < length ns -> tover (nodeAt ns i) = Some o -> tk (nodeAt ns i) = TOp ->
      exists c, nth_error (tkids (nodeAt ns i)) o = Some c /\ tk (nodeAt ns c) <> TAt;
  ag_pre : forall i, i < length ns -> textern (nodeAt ns i) = true -> tpre (nodeAt ns i) = true ->
      tpreok (nodeAt ns i) = true
}.
