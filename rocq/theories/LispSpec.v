(** Independent specification for the lisp machine (C12, C53). *)
From Coq Require Import Arith Reals List.
From Verif Require Import CalcModel CalcSpec GradModel GradSpec.
Import ListNotations.
Open Scope R_scope.

(** Operands come before their users, nothing is repeated. *)
Fixpoint executable (prog : nat -> gnode) (done todo : list nat) : Prop :=
  match todo with
  | [] => True
  | n :: r => ~ In n done /\
      match prog n with
      | GU _ c => In c done
      | GB _ a b => In a done /\ In b done
      | _ => True
      end /\ executable prog (done ++ [n]) r
  end.

(** Every operator is applied where it is differentiable; inverse square root is
    left out (its automatic rule is wrong, C14). *)
Definition smooth_auto (prog : nat -> gnode) (x : nat -> R) : Prop :=
  forall n, match prog n with
            | GU o c => o <> InverseSqrt /\ diff_point o (number prog x c)
            | GB o a b => bdef o (number prog x a) (number prog x b)
            | _ => True
            end.

(** The total of the roots that are no inputs, as a function of the inputs. *)
Definition cost_of (prog : nat -> gnode) (roots : list nat) (x : nat -> R) : R :=
  fold_right Rplus 0 (map (fun n => match prog n with GIn => 0 | _ => number prog x n end) roots).

(** Doing something for each node of a list in order, each time with success. *)
Inductive all_done {S : Type} (step : nat -> S -> S * bool) : list nat -> S -> S -> Prop :=
| ad_nil s : all_done step [] s s
| ad_cons n l s s1 s2 : step n s = (s1, true) -> all_done step l s1 s2 ->
                        all_done step (n :: l) s s2.

(** A node is executed, and NaN watching finds nothing. *)
Definition watched {S : Type} (exec : nat -> S -> S * bool) (bad : nat -> S -> bool)
  (n : nat) (s : S) : S * bool :=
  let (s', ok) := exec n s in (s', andb ok (negb (bad n s'))).

(** What was accumulated before. *)
Definition before (g : option R) : R := match g with Some d => d | None => 0 end.
