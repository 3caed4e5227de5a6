(** Model of pointwise operators, of their differentiation rules and of the
    stabilising graph constructors.  No proofs in this file.

    Sources: operatorPointwise_unary.go, operatorPointwise_unary_const.go,
    operatorPointwise_binary.go, operatorPointwise_binary_const.go,
    stabilization.go, operations.go, api_gen.go, const.go, math.go,
    math_nooptim.go.

    Simplifications common to the file: one scalar element of the (pointwise)
    tensors is followed; numbers are mathematical reals (no rounding); nodes are
    expression trees (sharing is the subject of the graph model); [ApplyOp] is
    assumed to succeed (shapes and types fit). *)
From Coq Require Import Reals List Bool.
Import ListNotations.
Open Scope R_scope.

(** operatorPointwise_unary_const.go:74-105 (ʘUnaryOperatorType). *)
Inductive uop : Set :=
| Abs | Sign | Ceil | Floor
| Sin | Cos | Exp | Ln | Log2 | Neg | Square | Sqrt | Inverse | InverseSqrt
| Cube | Tanh | Sigmoid
| Log1p | Expm1 | Softplus.

(** operatorPointwise_binary_const.go (ʘBinaryOperatorType); the comparison
    operators are not needed here and left out. *)
Inductive bop : Set := OAdd | OSub | OMul | ODiv | OPow.

(** Node expressions.  [COne]…[CLn2] are the package-level constant nodes of
    const.go:86-98 (found through getConst, utils.go:289-301); [CUser] is a
    constant made by the user with NewConstant; [Var] is an input node. *)
Inductive expr : Type :=
| Var (n : nat)
| COne | CTwo | CThree | CLn2
| CUser (r : R)
| U (o : uop) (a : expr)
| B (o : bop) (a b : expr).

(** Real meaning of the scalar kernels.
    math.go:13-58, math_nooptim.go:19-52, operatorPointwise_unary_const.go:10-40.
    Simplified: exact reals; the cut-offs of [_sigmoidf64] and [_softplusf64]
    are ignored here (see [sigmoid_code] and [softplus_code] below); ceil and
    floor go through the integer part. *)
Definition sigmoidR (x : R) : R := / (1 + exp (- x)).
(** math.go:50-58 [_softplusf64] without the cut-offs. *)
Definition softplusR (x : R) : R := ln (1 + exp x).
(** math.go:20-25 [_signf64]. *)
Definition signR (x : R) : R := if Rlt_dec x 0 then -1 else 1.

(** The scalar kernels, operatorPointwise_unary_const.go:10-40. *)
Definition usem (o : uop) (x : R) : R :=
  match o with
  | Abs => Rabs x
  | Sign => signR x
  | Ceil => - IZR (Int_part (- x))
  | Floor => IZR (Int_part x)
  | Sin => sin x
  | Cos => cos x
  | Exp => exp x
  | Ln => ln x
  | Log2 => ln x / ln 2
  | Neg => - x
  | Square => x * x
  | Sqrt => sqrt x
  | Inverse => 1 / x
  | InverseSqrt => 1 / sqrt x
  | Cube => x * x * x
  | Tanh => tanh x
  | Sigmoid => sigmoidR x
  | Log1p => ln (1 + x)
  | Expm1 => exp x - 1
  | Softplus => softplusR x
  end.

(** operatorPointwise_binary_const.go: add, sub, mul, div, math.Pow (for
    positive base). *)
Definition bsem (o : bop) (x y : R) : R :=
  match o with
  | OAdd => x + y
  | OSub => x - y
  | OMul => x * y
  | ODiv => x / y
  | OPow => Rpower x y
  end.

(** Value of an expression; what running the graph computes, over exact reals.
    (vm_tape.go, vm_genera.go run the operators of op_math.go.) *)
Fixpoint eval (env : nat -> R) (e : expr) : R :=
  match e with
  | Var n => env n
  | COne => 1
  | CTwo => 2
  | CThree => 3
  | CLn2 => ln 2
  | CUser r => r
  | U o a => usem o (eval env a)
  | B o a b => bsem o (eval env a) (eval env b)
  end.

(** math_nooptim.go:25-34 [_sigmoidf64], with its cut-offs. *)
Definition sigmoid_code (x : R) : R :=
  if Rlt_dec x (-709) then 0
  else if Rlt_dec 19 x then 1
  else 1 / (1 + exp (- x)).

(** math.go:50-58 [_softplusf64], with its cut-offs. *)
Definition softplus_code (x : R) : R :=
  if Rlt_dec x (-708) then 0
  else if Rlt_dec 16 x then x
  else ln (1 + exp x).

(* ------------------------------------------------------------------ *)
(** * Graph constructors with stabilisation *)

(** equalities.go:158-166 [constEq] against onef32ConstOp/onef64ConstOp: the
    scalar constants are compared by the pointer inside, so only the package's
    own constant one matches, not a one made by the user. *)
Definition isOne (e : expr) : bool := match e with COne => true | _ => false end.

Section Builders.
(** opt.go:6 [stabilization]: global switch. *)
Variable stab : bool.

(** api_gen.go:33 [Neg] = unaryOpNode (operations.go:134-163) with
    negNegOptimization (stabilization.go:270-281). *)
Definition mkNeg (a : expr) : expr :=
  if stab then
    match a with
    | U Neg x => x
    | _ => U Neg a
    end
  else U Neg a.

(** api_gen.go:54,63: Sigmoid and Softplus have no stabilisation functions. *)
Definition mkSigmoid (a : expr) : expr := U Sigmoid a.
(** api_gen.go:63 [Softplus]. *)
Definition mkSoftplus (a : expr) : expr := U Softplus a.

(** api_gen.go:57 [Log1p] = unaryOpNode with log1pExpStabilization
    (stabilization.go:157-170) then log1pNegSigmoidStabilization
    (stabilization.go:174-199). *)
Definition mkLog1p (a : expr) : expr :=
  if stab then
    match a with
    | U Exp x => mkSoftplus x
    | U Neg (U Sigmoid x) => mkNeg (mkSoftplus x)
    | _ => U Log1p a
    end
  else U Log1p a.

(** stabilization.go:29-85 [logStabilization]; [None] is noStabilizationErr.
    The removal of node [a] from the graph is modelled in StabModel.v. *)
Definition logStabilization (a : expr) : option expr :=
  match a with
  | B OAdd i0 i1 =>
      if isOne i0 then Some (mkLog1p i1)
      else if isOne i1 then Some (mkLog1p i0)
      else None
  | B OSub i0 i1 =>
      if isOne i0 then Some (mkLog1p (mkNeg i1)) else None
  | _ => None
  end.

(** stabilization.go:130-153 [logSigmoidStabilization]. *)
Definition logSigmoidStabilization (a : expr) : option expr :=
  match a with
  | U Sigmoid x => Some (mkNeg (mkSoftplus (mkNeg x)))
  | _ => None
  end.

(** api_gen.go:27 [Log] = unaryOpNode, trying in the order of
    stabilization.go:9-13; logSoftmaxStabilization does not apply to pointwise
    expressions (no softmax here; see StabModel.v). *)
Definition mkLog (a : expr) : expr :=
  if stab then
    match logSigmoidStabilization a with
    | Some e => e
    | None => match logStabilization a with
              | Some e => e
              | None => U Ln a
              end
    end
  else U Ln a.

(** api_gen.go:69 [Sub] = binOpNode (operations.go:15-43) with
    exp1mStabilization (stabilization.go:89-104) then
    oneMinusSigmoidStabilization (stabilization.go:108-126). *)
Definition mkSub (a b : expr) : expr :=
  if stab then
    match a, isOne b with
    | U Exp x, true => U Expm1 x
    | _, _ =>
        match isOne a, b with
        | true, U Sigmoid x => mkSigmoid (mkNeg x)
        | _, _ => B OSub a b
        end
    end
  else B OSub a b.

(** api_gen.go: the remaining constructors have no stabilisation. *)
Definition mkU (o : uop) (a : expr) : expr := U o a.
(** api_gen.go:66 [Add]. *)
Definition mkAdd (a b : expr) : expr := B OAdd a b.
(** api_gen.go:72 [HadamardProd], for scalars operations.go:52-110 [Mul]. *)
Definition mkMul (a b : expr) : expr := B OMul a b.
(** api_gen.go:75 [HadamardDiv], for scalars operations.go:112-120 [Div]. *)
Definition mkDiv (a b : expr) : expr := B ODiv a b.
(** api_gen.go:78 [Pow]. *)
Definition mkPow (a b : expr) : expr := B OPow a b.

(* ------------------------------------------------------------------ *)
(** * Symbolic differentiation rules *)

(** operatorPointwise_unary.go:110-753, dispatched by the table
    operatorPointwise_unary_const.go:139-146; [None] for the entries
    nondiffUnaryOpExpr. *)
Definition unaryDiffExpr (o : uop) (x y gradY : expr) : option expr :=
  match o with
  | Abs => Some (mkMul gradY (mkU Sign x))                       (* 118-128 *)
  | Sign | Ceil | Floor => None                                  (* 110-112 *)
  | Sin => Some (mkMul (mkU Cos x) gradY)                        (* 151-162 *)
  | Cos => Some (mkMul (mkNeg (mkU Sin x)) gradY)                (* 186-202 *)
  | Exp => Some (mkMul y gradY)                                  (* 228-230 *)
  | Ln => Some (mkDiv gradY x)                                   (* 245-247 *)
  | Log2 => Some (mkDiv gradY (mkDiv x CLn2))                    (* 263-277 *)
  | Neg => Some (mkNeg gradY)                                    (* 306-308 *)
  | Square => Some (mkMul (mkMul x CTwo) gradY)                  (* 332-351 *)
  | Sqrt => Some (mkDiv gradY (mkMul CTwo y))                    (* 376-392 *)
  | Inverse => Some (mkMul (mkNeg (mkMul y y)) gradY)            (* 419-435 *)
  | InverseSqrt => Some (mkNeg (mkDiv gradY (mkMul CTwo (mkU Cube y)))) (* 463-478 *)
  | Cube => Some (mkMul (mkMul (mkMul x x) CThree) gradY)        (* 510-531 *)
  | Tanh => Some (mkMul (mkSub COne (mkMul y y)) gradY)          (* 562-583 *)
  | Sigmoid => Some (mkMul (mkMul y (mkSub COne y)) gradY)       (* 617-638 *)
  | Log1p => Some (mkDiv gradY (mkAdd x COne))                   (* 672-688 *)
  | Expm1 => Some (mkMul gradY (mkU Exp x))                      (* 717-723 *)
  | Softplus => Some (mkMul (mkSigmoid x) gradY)                 (* 747-753 *)
  end.

(** operatorPointwise_binary.go:430-432, 532-542, 647-660, 809-829, 878-929. *)
Definition binDiffExpr (o : bop) (x y z gradZ : expr) : expr * expr :=
  match o with
  | OAdd => (gradZ, gradZ)
  | OSub => (gradZ, mkNeg gradZ)
  | OMul => (mkMul y gradZ, mkMul x gradZ)
  | ODiv => (mkDiv gradZ y, mkMul (mkNeg (mkDiv z y)) gradZ)
  | OPow => (mkMul (mkMul gradZ y) (mkPow x (mkSub y COne)),
             mkMul (mkMul gradZ z) (mkLog x))
  end.

End Builders.

(* ------------------------------------------------------------------ *)
(** * Automatic differentiation rules (the lisp machine's [*Diff] functions)

    Each takes the values of x and y, the gradient accumulated so far at x
    ([xd]) and the gradient of y ([yd]) and returns the gradient stored at x
    afterwards.  operatorPointwise_unary.go, dispatched by
    operatorPointwise_unary_const.go:148-155; [None]: nondiffUnaryOp. *)
Definition unaryDiff (o : uop) (x y xd yd : R) : option R :=
  match o with
  | Abs => Some (xd + signR x * yd)                          (* 130-147 *)
  | Sign | Ceil | Floor => None                              (* 113-115 *)
  | Sin => Some (xd + cos x * yd)                            (* 164-182 *)
  | Cos => Some (xd + (- sin x) * yd)                        (* 204-226 *)
  | Exp => Some (xd + y * yd)                                (* 232-241 *)
  | Ln => Some (xd + yd / x)                                 (* 249-260 *)
  | Log2 => Some (xd + yd / (x * ln 2))                      (* 279-304 *)
  | Neg => Some (xd - yd)                                    (* 310-330 *)
  | Square => Some (xd + (x * 2) * yd)                       (* 353-374 *)
  | Sqrt => Some (xd + yd / (y * 2))                         (* 394-417 *)
  | Inverse => Some (xd + (- (y * y)) * yd)                  (* 437-461 *)
  | InverseSqrt =>                                           (* 480-508 *)
      (* the result of sub.Do is discarded: the gradient is left as it was *)
      Some xd
  | Cube => Some (xd + (x * x * 3) * yd)                     (* 533-560 *)
  | Tanh => Some (xd + (1 - y * y) * yd)                     (* 585-615 *)
  | Sigmoid => Some (xd + ((1 - y) * y) * yd)                (* 640-669 *)
  | Log1p => Some (xd + yd / (x + 1))                        (* 690-715 *)
  | Expm1 => Some (xd + exp x * yd)                          (* 725-745 *)
  | Softplus => Some (xd + sigmoidR x * yd)                  (* 755-775 *)
  end.

(** operatorPointwise_binary.go:434-530, 544-645, 662-807, 831-875, 931-997, on
    the CPU, scalar case, x and y distinct non-constant nodes: the gradients
    stored at x and y afterwards. *)
Definition binDiff (o : bop) (x y z xd yd zd : R) : R * R :=
  match o with
  | OAdd => (xd + zd, yd + zd)
  | OSub => (xd + zd, yd - zd)
  | OMul => (xd + y * zd, yd + x * zd)
  | ODiv => (xd + zd / y, yd + zd * (- (z / y)))
  | OPow => (xd + (Rpower x (y - 1) * y) * zd, yd + (z * ln x) * zd)
  end.

(* ------------------------------------------------------------------ *)
(** * LogSumExp *)

(** Sum along the only axis of a vector (operations.go:260-273, op_reduction.go
    sumOp; the kernel is external). *)
Fixpoint sumV (l : list R) : R :=
  match l with
  | [] => 0
  | x :: r => x + sumV r
  end.

(** Max along the only axis of a vector (operations.go:211-225, op_reduction.go
    maxOp; the kernel is external).  Go's kernel panics on an empty vector, here
    [None]. *)
Definition maxV (l : list R) : option R :=
  match l with
  | [] => None
  | x :: r => Some (fold_left Rmax r x)
  end.

(** operations.go:168-186 [LogSumExp] of a vector along its axis: Max, Sub
    (broadcast of a scalar), Exp, Sum, Add, Log, and a Sum that does nothing as
    its argument is a scalar already (operations.go:261-264). *)
Definition logSumExp (a : list R) : option R :=
  match maxV a with
  | None => None
  | Some m =>
      let shifted := map (fun x => x - m) a in
      let exps := map exp shifted in
      let sum := sumV exps + m in
      Some (ln sum)
  end.
