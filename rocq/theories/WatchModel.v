(** Model of the watches of the machines: WithNaNWatch, WithInfWatch and WithPointerWatch
    (vm.go:139-181), in the tape machine's loop (vm_tape.go:249-347) and the lisp machine's
    (vm_genera.go:259-510). *)
Require Import Coq.Lists.List Coq.Arith.Arith Coq.Bool.Bool.
Require Verif.BroadcastModel.
Require Import Verif.TapeModel.
Import ListNotations.

(** The flags set by the options (vm.go:139-181; vm_tape.go:93-103). *)
Record watches := mkWatches { wNaN : bool; wInf : bool; wPtr : bool }.

(** How a run ends: doneChan, an error from exec, one of the reports, or a panic in hasNaN or
    hasInf (vm_tape.go:249-347). *)
Inductive ending := EDone | EExec | ENaN | EInf | EClash | ENoValue | EPanic.

Section Tape.
Variable V : Type.
Variable blank : V.
Variable sem : nat -> list V -> option V.
Variable caddr : nat -> nat.
Variable ns : list tnode.
(** hasNaN and hasInf (utils.go:155-236). *)
Variables chkNaN chkInf : V -> BroadcastModel.res bool.
(** Node.ID of the node at a position (node.go:28, 331). *)
Variable nid : nat -> nat.

(** writeTo and ID of an execOp (vm_tape.go:273-281); [None] for other instructions (274). *)
Definition execTarget (ins : instr) : option (nat * nat) :=
  match ins with IExec i _ w _ _ => Some (nid i, w) | _ => None end.

(** A check of the written value (vm_tape.go:277-297 and 299-317): only if both the register
    and the node id are above zero. *)
Definition checkVal (chk : V -> BroadcastModel.res bool) (bad : ending) (m : mstate V) (ins : instr) : option ending :=
  match execTarget ins with
  | None => None
  | Some (id, w) =>
      if Nat.ltb 0 w && Nat.ltb 0 id then
        match regs m w with
        | None => Some ENoValue
        | Some a => match chk (store m a) with
                    | BroadcastModel.Ok true => Some bad
                    | BroadcastModel.Ok false => None
                    | _ => Some EPanic
                    end
        end
      else None
  end.
(** The pointer check (vm_tape.go:319-346); [ptrs] are the pointers recorded so far with the
    nodes' ids. Recording the pointer of an id again would replace the old one; the ids of a
    program's instructions are distinct, so nothing is ever replaced. *)
Definition checkPtr (m : mstate V) (ptrs : list (nat * nat)) (ins : instr) : option ending * list (nat * nat) :=
  match execTarget ins with
  | None => (None, ptrs)
  | Some (id, w) =>
      if Nat.ltb 0 w && Nat.ltb 0 id then
        match regs m w with
        | None => (Some ENoValue, ptrs)
        | Some a => if existsb (fun p => Nat.eqb (snd p) a) ptrs then (Some EClash, ptrs) else (None, (id, a) :: ptrs)
        end
      else (None, ptrs)
  end.

(** The loop of runall (vm_tape.go:256-348) over the instructions that are left. The result is
    the state, how many instructions the program counter has moved, and the ending: after an
    error or a report it stays at the instruction. *)
Fixpoint runWatch (f : watches) (m : mstate V) (ptrs : list (nat * nat)) (is : list instr) : mstate V * nat * ending :=
  match is with
  | [] => (m, 0, EDone)
  | ins :: is' =>
      match exec blank sem caddr ns m ins with
      | None => (m, 0, EExec)
      | Some m' =>
          match (if wNaN f then checkVal chkNaN ENaN m' ins else None) with
          | Some e => (m', 0, e)
          | None =>
              match (if wInf f then checkVal chkInf EInf m' ins else None) with
              | Some e => (m', 0, e)
              | None =>
                  let (r, ptrs') := if wPtr f then checkPtr m' ptrs ins else (None, ptrs) in
                  match r with
                  | Some e => (m', 0, e)
                  | None => let '(m'', k, e) := runWatch f m' ptrs' is' in (m'', S k, e)
                  end
              end
          end
      end
  end.
(** RunAll (vm_tape.go:213-247): from the program counter on; the map of pointers is new. *)
Definition runAllW (f : watches) (prog : list instr) (v : vm V) : vm V * ending :=
  let '(m, k, e) := runWatch f (vst v) [] (skipn (vpc v) prog) in (VM m (vpc v + k), e).
End Tape.

Section Lisp.
Variable St : Type.
Variable Nd : Type.
(** forward up to line 499: bind or execute the node (vm_genera.go:295-500); [None] is an
    error. *)
Variable step : St -> Nd -> option St.
(** The tests of lines 305-326 and 503: an argument or random node returns before the check,
    a statement is not checked. *)
Variable checked : Nd -> bool.
(** hasNaN of the dual value bound to the node (vm_genera.go:504). *)
Variable chkNaN : St -> Nd -> BroadcastModel.res bool.

(** The forward half of runall (vm_genera.go:259-271 with 503-507). WithInfWatch sets a flag
    that no line of the lisp machine reads (watchInf, vm_genera.go:97-99). *)
Fixpoint lispForward (f : watches) (s : St) (sorted : list Nd) : St * nat * ending :=
  match sorted with
  | [] => (s, 0, EDone)
  | n :: rest =>
      match step s n with
      | None => (s, 1, EExec)
      | Some s' =>
          match (if wNaN f && checked n then chkNaN s' n else BroadcastModel.Ok false) with
          | BroadcastModel.Ok true => (s', 1, ENaN)
          | BroadcastModel.Ok false => let '(s'', k, e) := lispForward f s' rest in (s'', S k, e)
          | _ => (s', 0, EPanic)
          end
      end
  end.
End Lisp.
Arguments checkVal {V}. Arguments checkPtr {V}. Arguments runWatch {V}. Arguments runAllW {V}.
Arguments lispForward {St Nd}.
