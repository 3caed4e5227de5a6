(** What products of scalars, vectors and matrices are; what it means for derivatives to
    have been increased. Written without the model's functions. *)
From Coq Require Import Arith List Bool.
From Verif Require Import Sums MatModel MatSpec LinAlgModel.
Import ListNotations.

(** The last axis of the first is the first axis of the second. *)
Definition conformal (s t : list nat) : Prop :=
  match s, t with
  | [], _ | _, [] => True
  | _, d :: _ => last s 0 = d
  end.
Section Spec.
Context {A : Type} {CR : CRing A}.
Local Open Scope cr_scope.
(** [v] is the product of [a] and [b]. *)
Definition times (a b v : lval A) : Prop :=
  match a, b, v with
  | LSc c, LSc d, LSc r => r = c * d
  | LSc c, LVec u, LVec r => len r = len u /\ forall i, (i < len u)%nat -> vel r i = c * vel u i
  | LVec u, LSc c, LVec r => len r = len u /\ forall i, (i < len u)%nat -> vel r i = vel u i * c
  | LSc c, LMat m, LMat r => same_size r m /\ forall i j, (i < rows m)%nat -> (j < cols m)%nat -> el r i j = c * el m i j
  | LMat m, LSc c, LMat r => same_size r m /\ forall i j, (i < rows m)%nat -> (j < cols m)%nat -> el r i j = el m i j * c
  | LVec u, LVec w, LSc r => r = sum (len u) (fun k => vel u k * vel w k)
  | LVec u, LMat m, LVec r => len r = cols m /\ forall j, (j < cols m)%nat -> vel r j = sum (len u) (fun k => vel u k * el m k j)
  | LMat m, LVec u, LVec r => len r = rows m /\ forall i, (i < rows m)%nat -> vel r i = sum (len u) (fun k => el m i k * vel u k)
  | LMat m, LMat n, LMat r => rows r = rows m /\ cols r = cols n /\ forall i j, (i < rows m)%nat -> (j < cols n)%nat -> el r i j = sum (cols m) (fun k => el m i k * el n k j)
  | _, _, _ => False
  end.
(** The derivatives [der'] are those before, [der], with [gx] added for the node x and [gy]
    for the node y, both for a node that is both. *)
Definition raisedV (der der' : nat -> vec A) (x y : nat) (gx gy : vec A) : Prop :=
  forall n, len (der' n) = len (der n) /\ forall i, (i < len (der n))%nat ->
    vel (der' n) i = vel (der n) i + (if Nat.eqb n x then vel gx i else 0) + (if Nat.eqb n y then vel gy i else 0).
Definition raisedM (der der' : nat -> mat A) (x y : nat) (gx gy : mat A) : Prop :=
  forall n, same_size (der' n) (der n) /\ forall i j, (i < rows (der n))%nat -> (j < cols (der n))%nat ->
    el (der' n) i j = el (der n) i j + (if Nat.eqb n x then el gx i j else 0) + (if Nat.eqb n y then el gy i j else 0).
Definition raisedB (der der' : nat -> bmat A) (x y : nat) (gx gy : bmat A) : Prop :=
  forall n, same_bsize (der' n) (der n) /\ forall ix i j, in_shape ix (outer (der n)) -> (i < brows (der n))%nat -> (j < bcols (der n))%nat ->
    bel (der' n) ix i j = bel (der n) ix i j + (if Nat.eqb n x then bel gx ix i j else 0) + (if Nat.eqb n y then bel gy ix i j else 0).
End Spec.
