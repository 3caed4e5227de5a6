(** Model of reverse differentiation through a whole expression of pointwise
    operators: what [Backpropagate] leaves at an input, and what the lisp machine's
    backward pass leaves there.  No proofs in this file.

    Simplified as in CalcModel.v: one element is followed, exact reals, expressions
    are trees in which only inputs are shared (graphs in general: BackpropModel.v).
    The comparison operators are inputs of the tree: no gradient passes through them
    (op_math.go:202-217, [DiffWRT] is false). *)
From Coq Require Import Reals List PeanoNat.
From Verif Require Import CalcModel.
Import ListNotations.
Open Scope R_scope.

(** differentiation.go:133-340 [Backpropagate] along a tree: each node's rule is applied
    to the gradient it received, the gradients received by input [n] are collected
    (a node's gradients are added up by ReduceAdd, 239-256).  An operator without a
    rule passes nothing on (operatorPointwise_unary.go:110-112; [DiffWRT],
    op_math.go:430-441, keeps Backpropagate from entering). *)
Fixpoint received (stab : bool) (e g : expr) (n : nat) : list expr :=
  match e with
  | Var m => if Nat.eqb m n then [g] else []
  | COne | CTwo | CThree | CLn2 | CUser _ => []
  | U o a => match unaryDiffExpr stab o a e g with
             | Some ga => received stab a ga n
             | None => []
             end
  | B o a b => let '(ga, gb) := binDiffExpr stab o a b e g in
               received stab a ga n ++ received stab b gb n
  end.

(** vm_genera.go:512-562 [backward] along a tree: [yd] is the derivative of the node,
    [acc] what input [n] has accumulated; inner nodes have one parent, so their
    derivative starts at zero (dual.go [dvUnit]/[dvBind0]). *)
Fixpoint accumulated (env : nat -> R) (e : expr) (yd : R) (n : nat) (acc : R) : R :=
  match e with
  | Var m => if Nat.eqb m n then acc + yd else acc
  | COne | CTwo | CThree | CLn2 | CUser _ => acc
  | U o a => match unaryDiff o (eval env a) (eval env e) 0 yd with
             | Some da => accumulated env a da n acc
             | None => acc
             end
  | B o a b => let '(da, db) := binDiff o (eval env a) (eval env b) (eval env e) 0 0 yd in
               accumulated env b db n (accumulated env a da n acc)
  end.
