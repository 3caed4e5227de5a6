(** Model of the graph of scalar pointwise operators as Grad sees it: it joins
    CalcModel (operators and their gradient rules) with BackpropModel.  No proofs
    here. *)
From Coq Require Import Arith Reals List Bool.
From Verif Require Import CalcModel BackpropModel.
Import ListNotations.

(** A node (node.go:22-60) of a scalar graph: an input, a constant, a unary or a
    binary operator applied to other nodes.  Simplified: scalars only. *)
Inductive gnode : Type :=
| GIn
| GConst (r : R)
| GU (o : uop) (c : nat)
| GB (o : bop) (a b : nat).

(** operatorPointwise_unary_const.go:129-137 [ʘUnaryOpDifferentiable]. *)
Definition unaryDifferentiable (o : uop) : bool :=
  match o with
  | Sign | Ceil | Floor => false
  | _ => true
  end.

(** What differentiation.go asks of such a node: op.go:245 (constants), op_math.go:430-441
    (unary), op_math.go:202-217 (binary, all five are arithmetic); node.go:323. *)
Definition ndOf (prog : nat -> gnode) (n : nat) : nodeInfo :=
  match prog n with
  | GIn => {| children := []; sdop := false; diffWRT := []; isInput := true; isStmt := false |}
  | GConst _ => {| children := []; sdop := true; diffWRT := []; isInput := false; isStmt := false |}
  | GU o c => {| children := [c]; sdop := true; diffWRT := [unaryDifferentiable o];
                 isInput := false; isStmt := false |}
  | GB o a b => {| children := [a; b]; sdop := true; diffWRT := [true; true];
                   isInput := false; isStmt := false |}
  end.

(** The expression a node stands for: the unfolding of the graph below it.
    [fuel] bounds the depth. (node.go:22-60, children.) *)
Fixpoint unfoldN (prog : nat -> gnode) (fuel n : nat) : expr :=
  match fuel with
  | O => Var n
  | S f => match prog n with
           | GIn => Var n
           | GConst r => CUser r
           | GU o c => U o (unfoldN prog f c)
           | GB o a b => B o (unfoldN prog f a) (unfoldN prog f b)
           end
  end.
(** The unfolding with enough depth (node.go:22-60): children have smaller numbers. *)
Definition exprOf (prog : nat -> gnode) (n : nat) : expr := unfoldN prog (S n) n.

(** op_math.go:219-243 [elemBinOp.SymDiff] and 443-456 [elemUnaryOp.SymDiff]
    (scalars: no Sum is added); op.go:247 for constants. *)
Definition symDiffOf (stab : bool) (prog : nat -> gnode) (n : nat) (g : expr)
  : option (list (option expr)) :=
  match prog n with
  | GIn => None
  | GConst _ => Some []
  | GU o c => match unaryDiffExpr stab o (exprOf prog c) (exprOf prog n) g with
              | Some e => Some [Some e]
              | None => None
              end
  | GB o a b => let (ga, gb) := binDiffExpr stab o (exprOf prog a) (exprOf prog b) (exprOf prog n) g in
                Some [Some ga; Some gb]
  end.

(** api_gen.go:66 [Add] of two gradient nodes. *)
Definition addTOf (a b : expr) : option expr := Some (mkAdd a b).

(** gorgonia.go:211-244 [Grad] on a scalar Float32/Float64 cost and input WRTs:
    Backpropagate with gradient output one (const.go:86-98), on a graph whose
    nodes carry no derivatives yet. *)
Definition gradOf (stab : bool) (prog : nat -> gnode) (nparents : nat -> nat)
  (sorted : list nat) (cost : nat) (wrt : list nat) : res (list expr) :=
  match backpropagate (ndOf prog) nparents expr addTOf (symDiffOf stab prog)
          sorted (fun _ => None) [cost] [COne] wrt with
  | Ok (gs, _) => Ok gs
  | Fail e => Fail e
  end.
