(** CompileFunction (compile.go:62-104). Proof-free. *)
From Coq Require Import List Arith Bool.
From Verif Require Import GraphModel.
Import ListNotations.

Section Func.
Variable P : Type.
(** Sort (walker.go) of a graph followed by reverseNodes (compile.go:82-86). *)
Variable sortG : graph -> option (list ptr).
(** The stages from analyze to gen on the sorted nodes of the subgraph (compile.go:88-101),
    modelled in TapeModel [compile]. Of the inputs only the first one's graph
    (compile.go:139) and their number (compile.go:633) are used. *)
Variable gen : nat -> graph -> list ptr -> P.

(** How a call ends (compile.go:65-104): a panic, the error with the unused inputs, the
    error of Sort, or a program. *)
Inductive funcRes := FPanic | FUnused (l : list ptr) | FSort | FProg (p : P).

(** The loop over the inputs (compile.go:71-76). *)
Fixpoint unusedOf (sub : list ptr) (inputs : list ptr) : list ptr :=
  match inputs with
  | [] => []
  | i :: rest => if existsb (Nat.eqb i) sub then unusedOf sub rest else i :: unusedOf sub rest
  end.
(** CompileFunction (compile.go:65-104). The panic for an output that is a statement without
    children is in ExactSubgraphRoots; the other one is inputs[0] (compile.go:139). *)
Definition compileFunction (g : graph) (inputs outputs : list ptr) : funcRes :=
  match exactSubgraphRoots g outputs with
  | None => FPanic
  | Some sub =>
      match unusedOf (all sub) inputs with
      | u :: us => FUnused (u :: us)
      | [] =>
          match sortG sub with
          | None => FSort
          | Some sorted => match inputs with [] => FPanic | _ => FProg (gen (length inputs) sub sorted) end
          end
      end
  end.
End Func.
Arguments FPanic {P}. Arguments FUnused {P}. Arguments FSort {P}. Arguments FProg {P}.
Arguments compileFunction {P}.
