(** What is meant by a node whose type fits its shape. *)
From Coq Require Import List ZArith.
From Verif Require Import BroadcastModel TypeModel.
Import ListNotations.
Local Open Scope Z_scope.

(** A scalar of the dtype without axes, or a tensor of it whose type has as many axes as
    its shape. *)
Definition plain (d : dtype) (n : node) : Prop :=
  (nty n = Dt d /\ nsh n = []) \/ (nty n = Ten (Z.of_nat (length (nsh n))) (Dt d) /\ nsh n <> []).
(** Columns and rows. *)
Definition column_or_row (s : list Z) : Prop := exists k, 1 < k /\ (s = [k; 1] \/ s = [1; k]).
(** What every node satisfies: the numbers of axes agree, or a vector type stands for a
    column or row, or a tensor type without axes for a single entry. *)
Definition fits (n : node) : Prop :=
  match nty n with
  | Dt _ => nsh n = []
  | Ten d _ => d = Z.of_nat (length (nsh n)) \/ (d = 1 /\ column_or_row (nsh n)) \/ (d = 0 /\ totalSize (nsh n) = 1)
  | Var _ => False
  end.
(** Never a crash. *)
Definition safe {A} (r : res A) : Prop := r <> Panic.
