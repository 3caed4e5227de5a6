(** Independent specification for the calculus properties: the mathematical
    functions, where they are differentiable, where expressions are defined. *)
From Coq Require Import Reals List.
From Verif Require Import CalcModel.
Open Scope R_scope.

(** The mathematical function each operator is named after.  Sign is the
    operator's own convention sign(0)=1; see C13, which does not need it. *)
Definition math_u (o : uop) : R -> R :=
  match o with
  | Abs => Rabs
  | Sign => fun x => if Rle_dec 0 x then 1 else -1
  | Ceil => fun x => - IZR (up (- x) - 1)
  | Floor => fun x => IZR (up x - 1)
  | Sin => sin
  | Cos => cos
  | Exp => exp
  | Ln => ln
  | Log2 => fun x => ln x / ln 2
  | Neg => Ropp
  | Square => fun x => x ^ 2
  | Sqrt => sqrt
  | Inverse => Rinv
  | InverseSqrt => fun x => / sqrt x
  | Cube => fun x => x ^ 3
  | Tanh => fun x => (exp x - exp (- x)) / (exp x + exp (- x))
  | Sigmoid => fun x => exp x / (1 + exp x)
  | Log1p => fun x => ln (1 + x)
  | Expm1 => fun x => exp x - 1
  | Softplus => fun x => ln (1 + exp x)
  end.

Definition math_b (o : bop) : R -> R -> R :=
  match o with
  | OAdd => Rplus
  | OSub => Rminus
  | OMul => Rmult
  | ODiv => Rdiv
  | OPow => Rpower
  end.

(** The points at which the mathematical function is differentiable (only these
    are asked for). *)
Definition diff_point (o : uop) (x : R) : Prop :=
  match o with
  | Abs | Inverse => x <> 0
  | Ln | Log2 | Sqrt | InverseSqrt => 0 < x
  | Log1p => -1 < x
  | Sign | Ceil | Floor => False
  | Sin | Cos | Exp | Neg | Square | Cube | Tanh | Sigmoid | Expm1 | Softplus => True
  end.

(** [f] has derivative [d] at [x] (standard library notion). *)
Definition has_deriv (f : R -> R) (x d : R) : Prop := derivable_pt_lim f x d.

(** When a pointwise expression is defined over the reals: no logarithm of a
    non-positive number, no division by zero, no root of a negative number. *)
Definition udef (o : uop) (x : R) : Prop :=
  match o with
  | Ln | Log2 => 0 < x
  | Sqrt => 0 <= x
  | Inverse => x <> 0
  | InverseSqrt => 0 < x
  | Log1p => 0 < 1 + x
  | _ => True
  end.

Definition bdef (o : bop) (x y : R) : Prop :=
  match o with
  | ODiv => y <> 0
  | OPow => 0 < x
  | _ => True
  end.

Fixpoint defined (env : nat -> R) (e : expr) : Prop :=
  match e with
  | U o a => defined env a /\ udef o (eval env a)
  | B o a b => defined env a /\ defined env b /\ bdef o (eval env a) (eval env b)
  | _ => True
  end.

(** The documented log-sum-exp of a vector. *)
Definition true_lse (l : list R) : R := ln (fold_right Rplus 0 (map exp l)).

(** [m] is the largest element of [l]. *)
Definition is_max (l : list R) (m : R) : Prop := In m l /\ forall x, In x l -> x <= m.
