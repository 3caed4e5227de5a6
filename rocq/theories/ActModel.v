(** Model of the composed activation and loss functions BinaryXent, LeakyRelu, Rectify
    and Mish.  No proofs in this file.  Simplified as in CalcModel.v: one element of the
    tensors is followed and [ApplyOp] succeeds. *)
From Coq Require Import Reals List.
From Verif Require Import CalcModel.
Import ListNotations.
Open Scope R_scope.

(** nn.go:16-66 [BinaryXent].  [om] is the value of the constant [oneMore]
    (const.go:88-89, written 1.0 + 1e-16).  It is a constant of its own: for
    [logStabilization] and [oneMinusSigmoidStabilization] it is not the constant one
    (equalities.go:158-166). *)
Definition binaryXent (stab : bool) (om : R) (output target : expr) : expr :=
  let logO := mkLog stab output in
  let omt := mkSub stab COne target in
  let omo := mkSub stab (CUser om) output in
  let tLogO := mkMul target logO in
  mkNeg stab (mkAdd tLogO (mkMul omt (mkLog stab omo))).

(** The constant: the decimal literals in const.go:88-89 before conversion to floating
    point (Go evaluates constant expressions exactly). *)
Definition oneMoreLiteral : R := 1 + / 10 ^ 16.

(** operations.go:638-647 [Mish]. *)
Definition mish (a : expr) : expr := mkMul a (mkU Tanh (mkSoftplus a)).

(** gteOpType and ltOpType with [retSame], operatorPointwise_binary.go:67-90: 1 or 0. *)
Definition gteSame (a b : R) : R := if Rle_dec b a then 1 else 0.
(** ltOpType with [retSame], operatorPointwise_binary.go:67-90: 1 or 0. *)
Definition ltSame (a b : R) : R := if Rlt_dec a b then 1 else 0.

(** nn.go:136-163 [Rectify] and 83-131 [LeakyRelu]: input 0 is x, inputs 1 and 2 are the
    comparison nodes x >= 0 and x < 0, through which no gradient passes
    (op_math.go:202-217).  [reluEnv] gives the comparison nodes their values. *)
Definition rectify : expr := mkMul (Var 0) (Var 1).
(** nn.go:83-131 [LeakyRelu]. *)
Definition leakyRelu (alpha : R) : expr :=
  mkAdd (mkMul (Var 0) (Var 1)) (mkMul (mkMul (Var 0) (Var 2)) (CUser alpha)).
(** The values of the comparison nodes (nn.go:102-118, 150-158). *)
Definition reluEnv (x : R) (n : nat) : R :=
  match n with
  | O => x
  | S O => gteSame x 0
  | _ => ltSame x 0
  end.

(** ** The same with the special values of floating point *)

(** float64 without rounding: exact numbers, the infinities and NaN (IEEE 754; there is
    one zero). As the elements of float64 tensors in nn.go:16-163. *)
Inductive xr := Fin (r : R) | PInf | MInf | NaN.

(** Negation, operatorPointwise_unary_const.go:10-40 on special values (IEEE 754). *)
Definition xneg (a : xr) : xr :=
  match a with Fin r => Fin (- r) | PInf => MInf | MInf => PInf | NaN => NaN end.
(** Addition, as nn.go:61 builds it, on special values (IEEE 754). *)
Definition xadd (a b : xr) : xr :=
  match a, b with
  | NaN, _ | _, NaN => NaN
  | Fin x, Fin y => Fin (x + y)
  | PInf, MInf | MInf, PInf => NaN
  | PInf, _ | _, PInf => PInf
  | MInf, _ | _, MInf => MInf
  end.
(** Subtraction, as nn.go:41-47 builds it, on special values (IEEE 754). *)
Definition xsub (a b : xr) : xr := xadd a (xneg b).
(** infinity times a number: NaN for zero.
    (Part of [xmul]; IEEE 754, no code of its own in nn.go.) *)
Definition xscaleInf (pos : bool) (r : R) : xr :=
  if Req_EM_T r 0 then NaN
  else if Rlt_dec 0 r then (if pos then PInf else MInf) else (if pos then MInf else PInf).
(** Multiplication, as nn.go:49-59 builds it, on special values (IEEE 754). *)
Definition xmul (a b : xr) : xr :=
  match a, b with
  | NaN, _ | _, NaN => NaN
  | Fin x, Fin y => Fin (x * y)
  | PInf, Fin y => xscaleInf true y
  | MInf, Fin y => xscaleInf false y
  | Fin x, PInf => xscaleInf true x
  | Fin x, MInf => xscaleInf false x
  | PInf, PInf | MInf, MInf => PInf
  | _, _ => MInf
  end.
(** Go's >= on float64 (operatorPointwise_binary.go:67-90): false if one is NaN. *)
Definition xge (a b : xr) : bool :=
  match a, b with
  | NaN, _ | _, NaN => false
  | Fin x, Fin y => if Rle_dec y x then true else false
  | PInf, _ | _, MInf => true
  | _, _ => false
  end.
(** Go's < on float64 (operatorPointwise_binary.go:67-90): false if one is NaN. *)
Definition xlt (a b : xr) : bool :=
  match a, b with
  | NaN, _ | _, NaN => false
  | _, _ => negb (xge a b)
  end.
(** A comparison with [retSame], operatorPointwise_binary.go:67-90: 1 or 0. *)
Definition x01 (b : bool) : xr := if b then Fin 1 else Fin 0.

(** math.Log: -Inf at 0, NaN below, +Inf at +Inf.
    (Go library, used at operatorPointwise_unary_const.go:20.) *)
Definition xlog (a : xr) : xr :=
  match a with
  | Fin r => if Rlt_dec 0 r then Fin (ln r) else if Req_EM_T r 0 then MInf else NaN
  | PInf => PInf
  | _ => NaN
  end.
(** math_nooptim.go:25-34, math.go:50-58, math.Tanh, with the cut-offs. *)
Definition xsigmoid (a : xr) : xr :=
  match a with Fin r => Fin (sigmoid_code r) | PInf => Fin 1 | MInf => Fin 0 | NaN => NaN end.
(** math.go:50-58 [_softplusf64] on special values. *)
Definition xsoftplus (a : xr) : xr :=
  match a with Fin r => Fin (softplus_code r) | PInf => PInf | MInf => Fin 0 | NaN => NaN end.
(** math_nooptim.go:23 [_tanhf64], math.Tanh of the Go library. *)
Definition xtanh (a : xr) : xr :=
  match a with Fin r => Fin (tanh r) | PInf => Fin 1 | MInf => Fin (-1) | NaN => NaN end.

(** Running an expression: op_math.go Do of the operators, element by element; [None] for
    operators to which no meaning is given here. *)
Fixpoint xeval (env : nat -> xr) (e : expr) : option xr :=
  match e with
  | Var n => Some (env n)
  | COne => Some (Fin 1)
  | CTwo => Some (Fin 2)
  | CThree => Some (Fin 3)
  | CLn2 => Some (Fin (ln 2))
  | CUser r => Some (Fin r)
  | U o a =>
      match xeval env a with
      | None => None
      | Some v =>
          match o with
          | Neg => Some (xneg v)
          | Ln => Some (xlog v)
          | Sigmoid => Some (xsigmoid v)
          | Softplus => Some (xsoftplus v)
          | Tanh => Some (xtanh v)
          | _ => None
          end
      end
  | B o a b =>
      match xeval env a, xeval env b with
      | Some v, Some w =>
          match o with
          | OAdd => Some (xadd v w)
          | OSub => Some (xsub v w)
          | OMul => Some (xmul v w)
          | _ => None
          end
      | _, _ => None
      end
  end.

(** nn.go:102-118, 150-158: the comparison nodes of [rectify] and [leakyRelu]. *)
Definition xreluEnv (x : xr) (n : nat) : xr :=
  match n with
  | O => x
  | S O => x01 (xge x (Fin 0))
  | _ => x01 (xlt x (Fin 0))
  end.
