(** What elementwise operations on tensors and scalars and their gradients should be;
    written without the model's helpers apart from its types. *)
From Coq Require Import List ZArith Reals.
From Verif Require Import Sums BroadcastModel BroadcastSpec ShapeGradSpec SoftmaxSpec EwiseModel.
Import ListNotations.
Local Open Scope Z_scope.

(** The operation on numbers, and where it is differentiable (a power has a positive base). *)
Definition meant (o : arith) (a b : R) : R :=
  match o with OAdd => a + b | OSub => a - b | OMul => a * b | ODiv => a / b | OPow => exp (b * ln a) end%R.
Definition smooth_at (o : arith) (a b : R) : Prop :=
  match o with ODiv => b <> 0%R | OPow => (0 < a)%R | _ => True end.
(** Its partial derivatives. *)
Definition partial1 (o : arith) (a b : R) : R :=
  match o with OAdd | OSub => 1 | OMul => b | ODiv => / b | OPow => b * exp ((b - 1) * ln a) end%R.
Definition partial2 (o : arith) (a b : R) : R :=
  match o with OAdd => 1 | OSub => -1 | OMul => a | ODiv => - (a / (b * b)) | OPow => exp (b * ln a) * ln a end%R.

(** ** Tensors *)
(** The shapes are equal, or one is that of a scalar. *)
Definition mixable (s t : list Z) : Prop := s = t \/ s = [] \/ t = [].
(** The shape that is not a scalar's. *)
Definition joined (s t : list Z) : list Z := match s with [] => t | _ => s end.
(** An entry; for a scalar the only one. *)
Definition entry (t : @tens R) (idx : list Z) : R := at_ t (match shp t with [] => [] | _ => idx end).
Definition applied (o : arith) (x y : @tens R) : @tens R :=
  Tn (joined (shp x) (shp y)) (fun idx => meant o (entry x idx) (entry y idx)).
(** The operation is differentiable at every entry. *)
Definition smooth (o : arith) (x y : @tens R) : Prop :=
  forall idx, inside (joined (shp x) (shp y)) idx -> smooth_at o (entry x idx) (entry y idx).
(** [gx] is the gradient at [x] of the inner product of [f x] with [g] (as is_gradient of
    SoftmaxSpec.v, but [f x] may have another shape than [x]). *)
Definition gradient_at (f : @tens R -> @tens R) (x g gx : @tens R) : Prop :=
  shp gx = shp x /\ forall u, derivable_pt_lim (fun h => ip (shp (f x)) (at_ (f (moved x u h))) (at_ g)) 0 (ip (shp x) u (at_ gx)).

(** ** Derivatives that are accumulated *)
(** The [i]-th entry of a list. *)
Definition item (l : list R) (i : nat) : R := nth i l 0%R.
(** The sum over the first [n] positions. *)
Fixpoint total (n : nat) (f : nat -> R) : R := match n with O => 0%R | S k => (total k f + f k)%R end.
