(** Specification of the gradient of a composed expression. *)
From Coq Require Import Reals List PeanoNat.
From Verif Require Import CalcModel CalcSpec.
Import ListNotations.
Open Scope R_scope.

(** The mathematical function an expression denotes. *)
Fixpoint meaning (env : nat -> R) (e : expr) : R :=
  match e with
  | Var n => env n
  | COne => 1
  | CTwo => 2
  | CThree => 3
  | CLn2 => ln 2
  | CUser r => r
  | U o a => math_u o (meaning env a)
  | B o a b => math_b o (meaning env a) (meaning env b)
  end.

(** Every operator in the expression is differentiable at the value it is applied to. *)
Fixpoint smooth (env : nat -> R) (e : expr) : Prop :=
  match e with
  | U o a => smooth env a /\ diff_point o (meaning env a)
  | B o a b => smooth env a /\ smooth env b /\ bdef o (meaning env a) (meaning env b)
  | _ => True
  end.

(** The operator does not occur. *)
Fixpoint without (p : uop) (e : expr) : Prop :=
  match e with
  | U o a => o <> p /\ without p a
  | B _ a b => without p a /\ without p b
  | _ => True
  end.

(** The environment with input [n] set to [t]. *)
Definition set (env : nat -> R) (n : nat) (t : R) : nat -> R :=
  fun m => if Nat.eqb m n then t else env m.

Definition total (l : list R) : R := fold_right Rplus 0 l.

(** [d] is the partial derivative of the expression by input [n]. *)
Definition partial_deriv (env : nat -> R) (e : expr) (n : nat) (d : R) : Prop :=
  has_deriv (fun t => meaning (set env n t) e) (env n) d.
