(** What selecting entries along an axis and its gradient should be. *)
From Coq Require Import List ZArith.
From Verif Require Import Sums BroadcastModel BroadcastSpec ShapeGradSpec.
Import ListNotations.
Local Open Scope Z_scope.

(** [y] is [x], whose shape is [P ++ d :: R], with the entries at the indices along the
    axis after [P]. *)
Definition selects {A : Type} (P R : list Z) (indices : list Z) (x y : @tens A) : Prop :=
  shp y = P ++ Z.of_nat (length indices) :: R /\
  forall p k r, length p = length P -> In (p ++ Z.of_nat k :: r) (coords (shp y)) ->
    at_ y (p ++ Z.of_nat k :: r) = at_ x (p ++ nth k indices 0 :: r).
(** The sum of the values at the positions of a list (counted from [k]) that hold [j]. *)
Fixpoint at_positions {A : Type} {CR : CRing A} (indices : list Z) (k : Z) (j : Z) (f : Z -> A) : A :=
  match indices with
  | [] => r0
  | i :: indices' => radd (if i =? j then f k else r0) (at_positions indices' (k + 1) j f)
  end.
