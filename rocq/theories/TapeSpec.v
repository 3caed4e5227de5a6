(** What a compiled program is supposed to do: the direct value of an
    expression, and when a register may be reused. *)
From Coq Require Import List Arith ZArith Bool.
From Verif Require Import TapeModel.
Import ListNotations.
Local Open Scope nat_scope.

Section Spec.
Variable ns : list tnode.

(** A node that has a value (not a statement). *)
Definition hasValue (i : nat) : Prop :=
  i < length ns /\ tk (nodeAt ns i) <> TLet /\ tk (nodeAt ns i) <> TRead /\ tk (nodeAt ns i) <> TAt.

(** The node at [k] uses the node at [c]. *)
Definition usedBy (c k : nat) : Prop := k < length ns /\ In c (tkids (nodeAt ns k)).

(** Values that must survive until the end of the program: inputs, constants,
    random sources, and gradients of inputs. *)
Definition kept (c : nat) : Prop :=
  tk (nodeAt ns c) = TArg \/ tk (nodeAt ns c) = TConst \/ tk (nodeAt ns c) = TRandom \/
  (tk (nodeAt ns c) = TOp /\ tderiv (nodeAt ns c) = true).

(** Sorted expression graphs: children come earlier and have values, leaves
    have no children, [Read] has one child, [Let] two; the input that an
    operator may overwrite exists; leaves overwrite nothing; an operator that
    is handed preallocated memory because it calls external code accepts it. *)
Record sortedGraph : Prop := {
  sg_kids : forall i c, i < length ns -> In c (tkids (nodeAt ns i)) -> c < i /\ hasValue c;
  sg_leaf : forall i, i < length ns ->
      tk (nodeAt ns i) = TArg \/ tk (nodeAt ns i) = TConst \/ tk (nodeAt ns i) = TRandom ->
      tkids (nodeAt ns i) = [] /\ tover (nodeAt ns i) = None /\ textern (nodeAt ns i) = false;
  sg_read : forall i, i < length ns -> tk (nodeAt ns i) = TRead -> length (tkids (nodeAt ns i)) = 1;
  sg_let : forall i, i < length ns -> tk (nodeAt ns i) = TLet -> length (tkids (nodeAt ns i)) = 2;
  sg_over : forall i o, i < length ns -> tover (nodeAt ns i) = Some o -> tk (nodeAt ns i) = TOp ->
      o < length (tkids (nodeAt ns i));
  sg_pre : forall i, i < length ns -> textern (nodeAt ns i) = true -> tpre (nodeAt ns i) = true ->
      tpreok (nodeAt ns i) = true
}.

(** No statement [Let], no operator handing back its argument's memory. *)
Definition noLet : Prop := forall i, i < length ns -> tk (nodeAt ns i) <> TLet.
Definition noAlias : Prop := forall i, i < length ns -> talias (nodeAt ns i) = None.
(** Node hashes do not collide. *)
Definition noCollision : Prop :=
  forall i j, i < length ns -> j < length ns ->
              thash (nodeAt ns i) = thash (nodeAt ns j) -> i = j.

Section Val.
Variable V : Type.
Variable sem : nat -> list V -> option V.
Variable inp : nat -> V.      (* values of inputs and constants *)

(** Direct evaluation of the expression rooted at a node. *)
Inductive evals : nat -> V -> Prop :=
| ev_arg i : i < length ns -> tk (nodeAt ns i) = TArg -> evals i (inp i)
| ev_const i : i < length ns -> tk (nodeAt ns i) = TConst -> evals i (inp i)
| ev_op i vs v : i < length ns ->
    tk (nodeAt ns i) = TOp \/ tk (nodeAt ns i) = TRandom ->
    evalsAll (tkids (nodeAt ns i)) vs ->
    sem (top (nodeAt ns i)) vs = Some v -> evals i v
with evalsAll : list nat -> list V -> Prop :=
| ea_nil : evalsAll [] []
| ea_cons c cs v vs : evals c v -> evalsAll cs vs -> evalsAll (c :: cs) (v :: vs).
End Val.
End Spec.

Scheme evals_mut := Minimality for evals Sort Prop
with evalsAll_mut := Minimality for evalsAll Sort Prop.

Section Mem.
Variable V : Type.
(** What the caller sees in a register / as the value of a node. *)
Definition regValue (m : mstate V) (r : nat) : option V :=
  match regs m r with Some a => Some (store m a) | None => None end.
Definition nodeValue (m : mstate V) (i : nat) : option V :=
  match bound m i with Some a => Some (store m a) | None => None end.

(** A machine about to start: registers empty; every input is bound to existing
    memory, every constant's memory exists. *)
Record ready (ns : list tnode) (caddr : nat -> nat) (m : mstate V) : Prop := {
  rd_regs : forall r, regs m r = None;
  rd_args : forall i, i < length ns -> tk (nodeAt ns i) = TArg ->
              exists a, bound m i = Some a /\ a < fresh m;
  rd_consts : forall i, i < length ns -> tk (nodeAt ns i) = TConst -> caddr i < fresh m
}.

(** The values the machine is started with. *)
Definition given (ns : list tnode) (caddr : nat -> nat) (m : mstate V) (i : nat) : V :=
  match tk (nodeAt ns i), bound m i with
  | TArg, Some a => store m a
  | _, _ => store m (caddr i)
  end.
End Mem.
Arguments regValue {V}. Arguments nodeValue {V}. Arguments given {V}. Arguments ready {V}.
Arguments evals ns {V}. Arguments evalsAll ns {V}.

(** After the first [k] nodes, the register of [i] has not been given to a later
    node ([locOf] is the machine's LocMap). *)
Definition owns (ns : list tnode) (leaves : list nat) (k i : nat) : Prop :=
  hasValue ns i /\ i < k /\
  forall j, hasValue ns j -> i < j -> j < k -> locOf ns leaves j <> locOf ns leaves i.

(** Sequences of calls; [Let] concerns inputs and existing values. *)
Definition goodCall {V} (ns : list tnode) (v : vm V) (c : call V) : Prop :=
  match c with
  | CLet i a => tk (nodeAt ns i) = TArg /\ a < fresh (vst v)
  | _ => True
  end.
Inductive history {V} (blank : V) sem caddr ns prog : vm V -> list (call V) -> vm V -> Prop :=
| h_nil v : history blank sem caddr ns prog v [] v
| h_cons v c cs v' : goodCall ns v c ->
    history blank sem caddr ns prog (doCall blank sem caddr ns prog v c) cs v' ->
    history blank sem caddr ns prog v (c :: cs) v'.
