(** Model of symbolic backpropagation: differentiation.go.  No proofs here.

    Nodes of the expression graph are numbered; gradient nodes made on the way
    are elements of an arbitrary type [T]. *)
From Coq Require Import Arith List Bool.
Import ListNotations.

(** What differentiation.go reads of a node: its children; whether its operator
    implements SDOp (op.go) and what DiffWRT then answers (node.go:856-861
    [diffWRT], empty otherwise); isInput and isStmt (node.go). *)
Record nodeInfo := {
  children : list nat;
  sdop : bool;
  diffWRT : list bool;
  isInput : bool;
  isStmt : bool
}.

(** Errors; [EPanic] stands for an index out of range or nil dereference.
    (differentiation.go:91-310.) *)
Inductive err :=
| EPanic
| EUnreachable              (* differentiation.go:91 *)
| ENonDiffWRT               (* differentiation.go:178 *)
| ENonDiffOutput            (* differentiation.go:185 *)
| ENoGradients              (* differentiation.go:230 *)
| EReduceAdd                (* differentiation.go:242 *)
| ENotSDOp                  (* differentiation.go:275 *)
| ESymDiff.                 (* differentiation.go:283 *)

Inductive res (X : Type) := Ok (x : X) | Fail (e : err).
Arguments Ok {X}. Arguments Fail {X}.

(** NodeSet (node_set.go) as a list without regard to order. *)
Definition mem (n : nat) (s : list nat) : bool := existsb (Nat.eqb n) s.
(** NodeSet.Add (node_set.go:33-37). *)
Definition addSet (n : nat) (s : list nat) : list nat := if mem n s then s else n :: s.
(** NodeSet.Intersect (node_set.go:84-101). *)
Definition inter (a b : list nat) : list nat := filter (fun n => mem n b) a.
(** NodeSet.Difference (node_set.go:104-112). *)
Definition diffS (a b : list nat) : list nat := filter (fun n => negb (mem n b)) a.

(** Map update. (Go maps of differentiation.go:205-212.) *)
Definition upd {X} (f : nat -> X) (k : nat) (v : X) : nat -> X :=
  fun n => if Nat.eqb n k then v else f n.

Section Backprop.
Variable nd : nat -> nodeInfo.
(** Number of parents of a node, graph.go [To] as used at differentiation.go:88. *)
Variable nparents : nat -> nat.
Variable T : Type.
(** Building Add(a, b) (operations.go via ReduceAdd); may fail. *)
Variable addT : T -> T -> option T.
(** op.SymDiff(node.children, node, gradNode); [None] is an error; an absent
    entry of the list is a nil node. *)
Variable symDiff : nat -> T -> option (list (option T)).

(** differentiation.go:36-42: the inner loop; [None] when [diffs] is too short
    (index out of range). *)
Fixpoint addChildren (ds : list nat) (cs : list nat) (dfs : list bool) : option (list nat) :=
  match cs, dfs with
  | [], _ => Some ds
  | c :: cs', d :: dfs' => addChildren (if d then addSet c ds else ds) cs' dfs'
  | _ :: _, [] => None
  end.

(** differentiation.go:21-46 [forwardDiffAnalysis]; the check that all outputs
    are of one graph is left out (one graph is modelled). *)
Fixpoint forwardLoop (sorted : list nat) (ds : list nat) : res (list nat) :=
  match sorted with
  | [] => Ok ds
  | n :: rest =>
      if mem n ds && negb (isInput (nd n)) then
        match addChildren ds (children (nd n)) (diffWRT (nd n)) with
        | Some ds' => forwardLoop rest ds'
        | None => Fail EPanic
        end
      else forwardLoop rest ds
  end.
(** differentiation.go:21-46. *)
Definition forwardDiffAnalysis (outputs sorted : list nat) : res (list nat) :=
  forwardLoop sorted (fold_right addSet [] outputs).

(** differentiation.go:101-111: does some differentiable child lie in the set? *)
Fixpoint anyChild (ds : list nat) (cs : list nat) (dfs : list bool) : option bool :=
  match cs, dfs with
  | [], _ => Some false
  | c :: cs', d :: dfs' => if mem c ds && d then Some true else anyChild ds cs' dfs'
  | _ :: _, [] => None
  end.

(** differentiation.go:49-117 [backwardDiffAnalysis]: from the last sorted node
    to the first. *)
Fixpoint backwardLoop (revSorted : list nat) (ds : list nat) : res (list nat) :=
  match revSorted with
  | [] => Ok ds
  | n :: rest =>
      let diffs := if sdop (nd n) then diffWRT (nd n) else [] in
      match diffs with
      | [] =>
          if isStmt (nd n) || isInput (nd n) || (match children (nd n) with [] => true | _ => false end)
          then backwardLoop rest ds
          else if existsb (fun c => Nat.eqb (nparents c) 1
                                    && negb (match children (nd c) with [] => true | _ => false end))
                          (children (nd n))
          then Fail EUnreachable
          else backwardLoop rest ds
      | _ =>
          match anyChild ds (children (nd n)) diffs with
          | None => Fail EPanic
          | Some true => backwardLoop rest (addSet n ds)
          | Some false => backwardLoop rest ds
          end
      end
  end.
(** differentiation.go:49-117. *)
Definition backwardDiffAnalysis (wrt sorted : list nat) : res (list nat) :=
  backwardLoop (rev sorted) (fold_right addSet [] wrt).

(** operations.go:329-361 [ReduceAdd]: foldl of Add. *)
Fixpoint reduceFrom (acc : T) (l : list T) : option T :=
  match l with
  | [] => Some acc
  | x :: r => match addT acc x with
              | Some a => reduceFrom a r
              | None => None
              end
  end.
(** operations.go:329-361 [ReduceAdd]: nil for no summands. *)
Definition reduceAdd (l : list T) : option T :=
  match l with
  | [] => None                        (* nil, nil; not reached *)
  | x :: r => reduceFrom x r
  end.

(** differentiation.go:292-314: distribute the children's gradients. *)
Fixpoint distribute (gm : nat -> list T) (cs : list nat) (dfs : list bool)
  (gs : list (option T)) : option (nat -> list T) :=
  match cs, dfs, gs with
  | [], _, _ => Some gm
  | c :: cs', d :: dfs', g :: gs' =>
      if d then
        match g with
        | Some t => distribute (upd gm c (gm c ++ [t])) cs' dfs' gs'
        | None => None                 (* childGrad.setGroup on nil *)
        end
      else distribute gm cs' dfs' gs'
  | _ :: _, _, _ => None
  end.

(** The node map and the nodes' [deriv] fields. (differentiation.go:205-212; node.go:22-60.) *)
Definition gstate := ((nat -> list T) * (nat -> option T))%type.

(** differentiation.go:213-320: the body of the main loop. *)
Definition visitNode (active : list nat) (st : gstate) (node : nat) : res gstate :=
  let (gm, deriv) := st in
  if negb (mem node active) then Ok st
  else match deriv node with
  | Some d => Ok (upd gm node (gm node ++ [d]), deriv)         (* 218-222 *)
  | None =>
    match gm node with
    | [] => Fail ENoGradients
    | g0 :: more =>
      match reduceAdd (g0 :: more) with
      | None => Fail EReduceAdd
      | Some t =>
        let gm1 := match more with [] => gm | _ => upd gm node [t] end in
        let deriv1 := upd deriv node (Some t) in
        if isInput (nd node) then Ok (gm1, deriv1)
        else if negb (sdop (nd node)) then Fail ENotSDOp
        else match symDiff node t with
        | None => Fail ESymDiff
        | Some gs =>
          match distribute gm1 (children (nd node)) (diffWRT (nd node)) gs with
          | None => Fail EPanic
          | Some gm2 => Ok (gm2, deriv1)
          end
        end
      end
    end
  end.

(** differentiation.go:213-320: the main loop over the sorted nodes. *)
Fixpoint visitAll (active : list nat) (st : gstate) (sorted : list nat) : res gstate :=
  match sorted with
  | [] => Ok st
  | n :: rest => match visitNode active st n with
                 | Ok st' => visitAll active st' rest
                 | Fail e => Fail e
                 end
  end.

(** differentiation.go:193-197. *)
Fixpoint initGrads (gm : nat -> list T) (outputs : list nat) (gradOutputs : list T)
  : option (nat -> list T) :=
  match outputs, gradOutputs with
  | [], _ => Some gm
  | o :: os, g :: gs => initGrads (upd gm o [g]) os gs
  | _ :: _, [] => None
  end.

(** differentiation.go:323-327: nodeGradMap[n][0] for every wrt. *)
Fixpoint collect (gm : nat -> list T) (wrt : list nat) : option (list T) :=
  match wrt with
  | [] => Some []
  | w :: ws => match gm w, collect gm ws with
               | g :: _, Some r => Some (g :: r)
               | _, _ => None
               end
  end.

(** differentiation.go:130-328 [Backpropagate].  The removal of unconnected
    nodes (147-159) and the external Sort (161) are left out: [sorted] is the
    sorted node list.  Returns the gradients and the new deriv fields. *)
Definition backpropagate (sorted : list nat) (deriv : nat -> option T)
  (outputs : list nat) (gradOutputs : list T) (wrt : list nat)
  : res (list T * (nat -> option T)) :=
  match forwardDiffAnalysis outputs sorted with
  | Fail e => Fail e
  | Ok affects =>
    match backwardDiffAnalysis wrt sorted with
    | Fail e => Fail e
    | Ok affected =>
      match diffS wrt affects with
      | _ :: _ => Fail ENonDiffWRT
      | [] =>
        match diffS outputs affected with
        | _ :: _ => Fail ENonDiffOutput
        | [] =>
          match initGrads (fun _ => []) outputs gradOutputs with
          | None => Fail EPanic
          | Some gm =>
            match visitAll (inter affects affected) (gm, deriv) sorted with
            | Fail e => Fail e
            | Ok (gm', deriv') =>
              match collect gm' wrt with
              | None => Fail EPanic
              | Some gs => Ok (gs, deriv')
              end
            end
          end
        end
      end
    end
  end.

End Backprop.

(* ------------------------------------------------------------------ *)
(** * Grad (gorgonia.go:211-244) *)

(** Element types, as far as Grad distinguishes them. (gorgonia.go:225-239.) *)
Inductive dtype := Float64 | Float32 | OtherDtype.

(** Result of Grad: the pair of returned values; [NilNil] is (nil, nil). (gorgonia.go:211-244.) *)
Inductive gradRes (X : Type) := GOk (x : X) | GErr | NilNil.
Arguments GOk {X}. Arguments GErr {X}. Arguments NilNil {X}.

(** gorgonia.go:211-244 [Grad].  [scalarCost]: cost.IsScalar(); [dt]: the cost's
    type if it is a plain Dtype ([None] otherwise); [inputs]: are the WRTs
    inputs; [bp]: the call to Backpropagate.  errors.Wrap/Wrapf of the still nil
    [err] (lines 227 and 239) yield nil. *)
Definition grad {X} (scalarCost : bool) (dt : option dtype) (inputs : list bool)
  (bp : dtype -> gradRes X) : gradRes X :=
  if negb scalarCost then GErr
  else if negb (forallb (fun b => b) inputs) then GErr
  else match dt with
       | None => NilNil
       | Some OtherDtype => NilNil
       | Some d => bp d
       end.
