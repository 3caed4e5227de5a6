(** What SoftMax and LogSoftMax and their gradients should be; written with the
    coordinates of ShapeGradSpec.v. *)
From Coq Require Import List ZArith Reals.
From Verif Require Import Sums BroadcastModel BroadcastSpec ShapeGradSpec ReduceSpec.
Import ListNotations.
Local Open Scope Z_scope.

(** The coordinates on the line through [idx] along the axis [a]. *)
Definition line (s : list Z) (a : Z) (idx : list Z) : list (list Z) := group s [a] (without [a] 0 idx).
(** The softmax of [x] along the axis [a], or its logarithm. *)
Definition softmax_of (isLog : bool) (a : Z) (x : @tens R) : @tens R :=
  Tn (shp x) (fun idx =>
    let p := (exp (at_ x idx) / lsum (map (fun j => exp (at_ x j)) (line (shp x) a idx)))%R in
    if isLog then ln p else p).
(** [x] moved by [h] in the direction [u]. *)
Definition moved (x : @tens R) (u : list Z -> R) (h : R) : @tens R := Tn (shp x) (fun idx => (at_ x idx + h * u idx)%R).
(** [gx] is the gradient at [x] of the inner product of [f x] with [g]: it gives the
    derivative in every direction. *)
Definition is_gradient (f : @tens R -> @tens R) (x g gx : @tens R) : Prop :=
  shp gx = shp x /\ forall u, derivable_pt_lim (fun h => ip (shp x) (at_ (f (moved x u h))) (at_ g)) 0 (ip (shp x) u (at_ gx)).
(** The axis meant: the first one given, counted from the end if negative; otherwise the
    last one. *)
Definition axis_meant (axes s : list Z) (a : Z) : Prop :=
  match axes with
  | [] => a = Z.of_nat (length s) - 1
  | b :: _ => 0 <= a < Z.of_nat (length s) /\ (b = a \/ b = a - Z.of_nat (length s))
  end.
(** A column: a matrix of one column and at least two rows. *)
Definition column (s : list Z) : Prop := exists n, s = [n; 1] /\ 2 <= n.
