(** Independent specification for C26: the probability simplex and the nearest
    point on it. *)
From Coq Require Import Reals List.
Import ListNotations.
Local Open Scope R_scope.

Fixpoint total (l : list R) : R := match l with [] => 0 | x :: r => x + total r end.
Definition in_simplex (p : list R) : Prop := (forall x, In x p -> 0 <= x) /\ total p = 1.

Fixpoint sqdist (p x : list R) : R :=
  match p, x with
  | a :: p', b :: x' => (a - b) * (a - b) + sqdist p' x'
  | _, _ => 0
  end.

Fixpoint inner (p x : list R) : R :=
  match p, x with
  | a :: p', b :: x' => a * b + inner p' x'
  | _, _ => 0
  end.

(** The nearest point of the simplex; it is unique. *)
Definition nearest (y x : list R) : Prop :=
  length y = length x /\ in_simplex y /\
  forall p, length p = length x -> in_simplex p -> sqdist y x <= sqdist p x.

(** x + t u *)
Fixpoint along (x u : list R) (t : R) : list R :=
  match x, u with
  | a :: x', b :: u' => (a + t * b) :: along x' u' t
  | _, _ => []
  end.
