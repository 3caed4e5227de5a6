(** The concurrent graph machine of x/vm: one goroutine per node, one per publisher
    (broadcast) and one per edge (the [output] closure of merge), talking over unbuffered
    channels; Machine.Run collects one report per node. A state holds the position of every
    goroutine; a label is one thing that can happen next: a local step of one goroutine or
    the meeting of a sender and a receiver. Values are any type (nil being one of them), an
    operator's Do is a function that may fail. Nodes are numbered by their position in
    ExprGraph.AllNodes. Tracing (tracer.go) and the times of the errors are left out.
    Proof-free. *)
From Coq Require Import List Arith ZArith Bool.
Import ListNotations.

Section Model.
Context {V : Type}.

(** A node of the expression graph as NewMachine sees it (machine.go:26-39): the operator,
    if there is one, as its Arity and its Do, the value bound to the node, the children. *)
Record gnode := GN { g_op : option (Z * (list V -> option V)); g_val : V; g_children : list nat }.
(** The node of the machine: newInput (node.go:119-128) or newOp (node.go:99-117). *)
Inductive kind := Input (v : V) | Op (arity : nat) (f : list V -> option V).
(** node.go:15-32 (of x/vm). *)
Record node := N { kd : kind; ch : list nat }.
(** NewMachine's switch (machine.go:31-39); [make] of a negative length in newOp
    (node.go:111) panics: [None]. *)
Definition newNode (n : gnode) : option node :=
  match g_op n with
  | None => Some (N (Input (g_val n)) (g_children n))
  | Some (a, f) =>
      if (a =? 0)%Z then Some (N (Input (g_val n)) (g_children n))
      else if (a <? 0)%Z then None
      else Some (N (Op (Z.to_nat a) f) (g_children n))
  end.
(** NewMachine (machine.go:19-44); [None] if it panics. *)
Fixpoint newMachine (g : list gnode) : option (list node) :=
  match g with
  | [] => Some []
  | n :: g' => match newNode n, newMachine g' with Some m, Some l => Some (m :: l) | _, _ => None end
  end.

Section Graph.
Variable g : list node.

(** [n.op != nil], node.go:39; only newOp sets it (node.go:110). *)
Definition isOp (n : node) : bool := match kd n with Op _ _ => true | Input _ => false end.
(** Whether some node has [c] as a child: [g.To(id).Len() != 0] (machine.go:29). *)
Definition hasParent (c : nat) : bool := existsb (fun n => existsb (Nat.eqb c) (ch n)) g.
(** Whether a node has an output channel, and so a publisher (node.go:104-107,126;
    machine.go:58-71). *)
Definition hasOut (i : nat) : bool :=
  match nth_error g i with
  | Some n => if isOp n then hasParent i else true
  | None => false
  end.
(** The subscribers of a publisher in the order they are appended (machine.go:73-92): for
    every operator node, for every position of [c] among its children, one channel. *)
Definition subsOf (c i : nat) : list (nat * nat) :=
  match nth_error g i with
  | Some n => if isOp n then map (fun p => (i, p)) (filter (fun p => Nat.eqb (nth p (ch n) (S c)) c) (seq 0 (length (ch n)))) else []
  | None => []
  end.
(** machine.go:73-92. *)
Definition subs (c : nat) : list (nat * nat) := flat_map (subsOf c) (seq 0 (length g)).

(** The errors a node can end with (node.go:55,62,73,85). *)
Inductive err := EDone | EArity | EDo.
(** Where the goroutine of a node is: in one of the state functions (node.go:34-89), or
    finished with an error or nil and about to send it on errC (machine.go:149-156), or
    gone. [Recv c]: [receivedValues] is [c]. *)
Inductive phase := Start | Recv (c : nat) | Comp | Emit | Fin (e : option err) (reported : bool).
(** A broadcast goroutine (pubsub.go:69-86): waiting for a message, sending it to its
    subscribers from the [k]-th on, or returned. *)
Inductive bstate := BIdle | BSend (v : V) (k : nat) | BExit.
(** The goroutine of an edge (pubsub.go:46-63): waiting, holding a value, or returned. *)
Inductive estate := EIdle | EHold (v : V) | EExit.
(** The goroutine of Run, in the loop over errC with [total] and [errs]
    (machine.go:158-169), or past it. *)
Inductive mainst := Loop (total : nat) (errs : list (nat * err)) | Ended (errs : list (nat * err)).
(** [ctxExt]: the caller's context is done; [ctxNodes]: the one made in runAllNodes
    (machine.go:144) has been cancelled; [ctxPs]: the one made by pubsub.run
    (pubsub.go:28). *)
Record st := St {
  ph : nat -> phase; ins : nat -> list V; out : nat -> V;
  bc : nat -> bstate; ed : nat -> nat -> estate;
  mn : mainst; ctxExt : bool; ctxNodes : bool; ctxPs : bool }.

(** Assignments to a field of node [i] (node.go:63-64, 76, machine.go): helpers without a
    counterpart of their own. *)
Definition upd {B} (f : nat -> B) (i : nat) (x : B) : nat -> B := fun j => if Nat.eqb j i then x else f j.
(** Assignment to one channel of a node (node.go, machine.go of x/vm). *)
Definition upd2 {B} (f : nat -> nat -> B) (i p : nat) (x : B) : nat -> nat -> B := fun j => if Nat.eqb j i then upd (f i) p x else f j.
(** [n.inputValues[input.pos] = input.v] (node.go:64). *)
Fixpoint setV (l : list V) (k : nat) (x : V) : list V :=
  match l, k with [], _ => [] | _ :: l', O => x :: l' | y :: l', S k' => y :: setV l' k' x end.

(** What can happen next; the code each stands for is at the branches of [fire].
    (node.go, machine.go, pubsub.go of x/vm.) *)
Inductive label :=
  | LStart (i : nat) | LInput (i p : nat) | LComp (i : nat) | LEmit (i : nat) | LAbort (i : nat)
  | LDeliver (c : nat) | LReport (i : nat) | LExitB (c : nat) | LExitE (i p : nat) | LCancel.

(** The broadcast goroutine after sending to the subscribers before [k] (pubsub.go:74-80). *)
Definition bnext (c : nat) (v : V) (k : nat) : bstate := if k <? length (subs c) then BSend v k else BIdle.

(** One step (node.go:34-90, pubsub.go:43-86, machine.go:143-175); [None] if it is not
    possible in the state. *)
Definition fire (l : label) (s : st) : option st :=
  let '(St ph ins out bc ed mn ext nodes ps) := s in
  match l with
  | LStart i => (* defaultState, node.go:36-43 *)
      match nth_error g i, ph i with
      | Some n, Start => Some (St (upd ph i (if isOp n then Recv 0 else Emit)) ins out bc ed mn ext nodes ps)
      | _, _ => None
      end
  | LInput i p => (* the edge's goroutine (pubsub.go:53-56) meets receiveInput, node.go:56-66 *)
      match nth_error g i, ph i, ed i p with
      | Some (N (Op a f) cs), Recv c, EHold v =>
          if p <? length cs then
            Some (if a <=? p
                  then St (upd ph i (Fin (Some EArity) false)) ins out bc (upd2 ed i p EIdle) mn ext nodes ps
                  else St (upd ph i (if S c <? a then Recv (S c) else Comp)) (upd ins i (setV (ins i) p v)) out bc (upd2 ed i p EIdle) mn ext nodes ps)
          else None
      | _, _, _ => None
      end
  | LComp i => (* computeFwd, node.go:70-78 *)
      match nth_error g i, ph i with
      | Some (N (Op a f) cs), Comp =>
          Some (match f (ins i) with
                | Some v => St (upd ph i Emit) ins (upd out i v) bc ed mn ext nodes ps
                | None => St (upd ph i (Fin (Some EDo) false)) ins out bc ed mn ext nodes ps
                end)
      | _, _ => None
      end
  | LEmit i => (* emitOutput, node.go:80-90, meets broadcast, pubsub.go:73 *)
      match nth_error g i, ph i with
      | Some _, Emit =>
          if hasOut i
          then match bc i with
               | BIdle => Some (St (upd ph i (Fin None false)) ins out (upd bc i (bnext i (out i) 0)) ed mn ext nodes ps)
               | _ => None
               end
          else Some (St (upd ph i (Fin None false)) ins out bc ed mn ext nodes ps)
      | _, _ => None
      end
  | LAbort i => (* ctx.Done() in receiveInput and emitOutput, node.go:52-54, 84-86 *)
      if ext || nodes then
        match nth_error g i, ph i with
        | Some _, Recv _ => Some (St (upd ph i (Fin (Some EDone) false)) ins out bc ed mn ext nodes ps)
        | Some _, Emit => if hasOut i then Some (St (upd ph i (Fin (Some EDone) false)) ins out bc ed mn ext nodes ps) else None
        | _, _ => None
        end
      else None
  | LDeliver c => (* broadcast, pubsub.go:74-76, meets the edge's goroutine, pubsub.go:51 *)
      match nth_error g c, bc c with
      | Some _, BSend v k =>
          match nth_error (subs c) k with
          | Some (i, p) =>
              match ed i p with
              | EIdle => Some (St ph ins out (upd bc c (bnext c v (S k))) (upd2 ed i p (EHold v)) mn ext nodes ps)
              | _ => None
              end
          | None => None
          end
      | _, _ => None
      end
  | LReport i => (* errC, machine.go:151-155 meets 159-168; then the cancels of 170 and 100 *)
      match nth_error g i, ph i, mn with
      | Some _, Fin e false, Loop total errs =>
          let errs' := match e with Some x => errs ++ [(i, x)] | None => errs end in
          let nodes' := match e with Some _ => true | None => nodes end in
          Some (if total - 1 =? 0
                then St (upd ph i (Fin e true)) ins out bc ed (Ended errs') ext true true
                else St (upd ph i (Fin e true)) ins out bc ed (Loop (total - 1) errs') ext nodes' ps)
      | _, _, _ => None
      end
  | LExitB c => (* ctx.Done() in broadcast, pubsub.go:77,81 *)
      if (ext || ps) && (c <? length g) then match bc c with BExit => None | _ => Some (St ph ins out (upd bc c BExit) ed mn ext nodes ps) end else None
  | LExitE i p => (* ctx.Done() in merge's output, pubsub.go:57,60 *)
      if ext || ps then
        match nth_error g i with
        | Some n => if isOp n && (p <? length (ch n))
                    then match ed i p with EExit => None | _ => Some (St ph ins out bc (upd2 ed i p EExit) mn ext nodes ps) end
                    else None
        | None => None
        end
      else None
  | LCancel => (* the caller cancels the context passed to Run *)
      if ext then None else Some (St ph ins out bc ed mn true nodes ps)
  end.

(** The state when Run starts (machine.go:95-97, 143-157): what an earlier Run left in
    [inputValues] ([make]d with the arity, node.go:111) and [output] of an operator node is
    arbitrary; an input's output is its value (node.go:125). *)
Definition start (ins0 : nat -> list V) (out0 : nat -> V) (cancelled : bool) : st :=
  St (fun _ => Start)
     ins0
     (fun i => match nth_error g i with Some (N (Input v) _) => v | _ => out0 i end)
     (fun i => if hasOut i then BIdle else BExit) (fun _ _ => EIdle)
     (Loop (length g) []) cancelled false false.
(** Run has returned (machine.go:94-102): the loop is over and wg.Wait() has seen every
    goroutine of the network return. *)
Definition returned (s : st) (errs : list (nat * err)) : Prop :=
  mn s = Ended errs /\ (forall c, c < length g -> bc s c = BExit) /\
  forall i n p, nth_error g i = Some n -> isOp n = true -> p < length (ch n) -> ed s i p = EExit.
End Graph.
(** Machine.GetResult (machine.go:181-188) by position. *)
Definition getResult (s : st) (i : nat) : V := out s i.
End Model.
