(** What values mean, independently of the functions that handle them. *)
Require Import Coq.Lists.List Coq.Arith.Arith Coq.Bool.Bool Coq.ZArith.ZArith.
Require Import Verif.ValuesModel.
Import ListNotations.

(** Plain data without addresses. *)
Inductive datum (E : Type) :=
| DNil
| DS (k : kind) (x : E)
| DT (k : kind) (sh : list Z) (xs : list E)
| DD (v d : datum E).
Arguments DNil {E}.
Arguments DS {E} k x.
Arguments DT {E} k sh xs.
Arguments DD {E} v d.

(** [reads m v D]: in memory [m] the value [v] stands for [D]. *)
Inductive reads {E} (m : list E) : value -> datum E -> Prop :=
| reads_nil : reads m VNil DNil
| reads_s : forall k a x, nth_error m a = Some x -> reads m (VS k a) (DS k x)
| reads_t : forall k sh a n xs, length xs = n ->
    (forall i, i < n -> nth_error m (a + i) = nth_error xs i) ->
    reads m (VT k sh a n) (DT k sh xs)
| reads_d : forall i v d V D, reads m v V -> reads m d D -> reads m (VD i v d) (DD V D).

(** The addresses a value's entries are kept at. *)
Inductive owns : value -> nat -> Prop :=
| owns_s : forall k a, owns (VS k a) a
| owns_t : forall k sh a n i, i < n -> owns (VT k sh a n) (a + i)
| owns_v : forall i v d x, owns v x -> owns (VD i v d) x
| owns_d : forall i v d x, owns d x -> owns (VD i v d) x.

(** Scalars and tensors. *)
Definition plain (v : value) : Prop :=
  match v with VS _ _ | VT _ _ _ _ => True | _ => False end.
(** No part is nil. *)
Fixpoint whole (v : value) : Prop :=
  match v with VNil => False | VD _ x d => whole x /\ whole d | _ => True end.
(** Nothing but derivatives is nil. *)
Fixpoint valued (v : value) : Prop :=
  match v with VNil => False | VD _ x d => valued x /\ (d = VNil \/ valued d) | _ => True end.

(** Replace every entry of scalars and tensors. *)
Definition fillD {E} (z : E) (D : datum E) : datum E :=
  match D with DS k _ => DS k z | DT k sh xs => DT k sh (repeat z (length xs)) | _ => D end.

(** Two shapes are one, or one is a vector's and the other that vector as column or row. *)
Definition sameShape (s t : list Z) : Prop :=
  s = t \/ exists n, (1 < n)%Z /\
    ((s = [n] /\ (t = [n; 1] \/ t = [1; n])) \/ (t = [n] /\ (s = [n; 1] \/ s = [1; n])))%Z.

(** Equality of data, entry by entry. *)
Fixpoint agree {E} (feq : E -> E -> bool) (A B : datum E) : Prop :=
  match A, B with
  | DNil, DNil => True
  | DS k x, DS k' y => k = k' /\ feq x y = true
  | DT k sh xs, DT k' sh' ys => k = k' /\ sameShape sh sh' /\ Forall2 (fun x y => feq x y = true) xs ys
  | DD v d, DD v' d' => agree feq v v' /\ agree feq d d'
  | _, _ => False
  end.

(** All entries of a datum satisfy a condition. *)
Fixpoint entries {E} (P : E -> Prop) (D : datum E) : Prop :=
  match D with DNil => True | DS _ x => P x | DT _ _ xs => Forall P xs | DD v d => entries P v /\ entries P d end.

(** One address names one dual value: [f] tells its fields. *)
Fixpoint named (f : nat -> value * value) (v : value) : Prop :=
  match v with VD i x d => f i = (x, d) /\ named f x /\ named f d | _ => True end.

(** Two values with no memory in common. *)
Definition apart (v w : value) : Prop := forall x, owns v x -> ~ owns w x.

(** What an operator is given: of dual values the values, other values as they are. *)
Fixpoint valuesOf (ins : list value) : list value :=
  match ins with
  | [] => []
  | VD _ v _ :: l => v :: valuesOf l
  | VNil :: l => VNil :: valuesOf l
  | VS k a :: l => VS k a :: valuesOf l
  | VT k sh a n :: l => VT k sh a n :: valuesOf l
  end.
