(** Independent specification for Grad on graphs of scalar operators: the number
    a node stands for, when a graph is well formed and where it is
    differentiable. *)
From Coq Require Import Arith Reals List.
From Verif Require Import CalcModel CalcSpec GradModel.
Open Scope R_scope.

(** Children are numbered below their parents (graphs are acyclic; any node
    numbering of a finite acyclic graph by creation order is of this kind). *)
Definition wf_prog (prog : nat -> gnode) : Prop :=
  forall n, match prog n with
            | GU _ c => (c < n)%nat
            | GB _ a b => (a < n)%nat /\ (b < n)%nat
            | _ => True
            end.

(** The number node [n] stands for when the inputs are [x]: mathematical
    functions applied to the numbers of the children. *)
Fixpoint numberF (prog : nat -> gnode) (x : nat -> R) (fuel n : nat) : R :=
  match fuel with
  | O => 0
  | S f => match prog n with
           | GIn => x n
           | GConst r => r
           | GU o c => math_u o (numberF prog x f c)
           | GB o a b => math_b o (numberF prog x f a) (numberF prog x f b)
           end
  end.
Definition number (prog : nat -> gnode) (x : nat -> R) (n : nat) : R := numberF prog x (S n) n.

(** Every operator is applied at a point where it is differentiable, and log2
    and inverse square root, whose rules are wrong (C14), are not used. *)
Definition smooth_at (prog : nat -> gnode) (x : nat -> R) : Prop :=
  forall n, match prog n with
            | GU o c => o <> Log2 /\ o <> InverseSqrt /\ diff_point o (number prog x c)
            | GB o a b => bdef o (number prog x a) (number prog x b)
            | _ => True
            end.

(** Input [w] set to [t]. *)
Definition setInput (x : nat -> R) (w : nat) (t : R) : nat -> R :=
  fun n => if Nat.eqb n w then t else x n.

(** Node [w] is used, directly or not, by node [n]. *)
Inductive depends (prog : nat -> gnode) (w : nat) : nat -> Prop :=
| dep_self : depends prog w w
| dep_u n o c : prog n = GU o c -> depends prog w c -> depends prog w n
| dep_l n o a b : prog n = GB o a b -> depends prog w a -> depends prog w n
| dep_r n o a b : prog n = GB o a b -> depends prog w b -> depends prog w n.

(** A complete node list, users before what they use, without repetition. *)
Fixpoint ordered (prog : nat -> gnode) (l : list nat) : Prop :=
  match l with
  | nil => True
  | n :: r => ~ In n r /\
      match prog n with
      | GU _ c => In c r
      | GB _ a b => In a r /\ In b r
      | _ => True
      end /\ ordered prog r
  end%list.
