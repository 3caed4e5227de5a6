(** What Max, Mean and Norm should give; written with the coordinates of
    ShapeGradSpec.v and not with the model's helpers. *)
From Coq Require Import List ZArith Reals Bool.
From Verif Require Import Sums BroadcastModel BroadcastSpec ShapeGradSpec.
Import ListNotations.
Local Open Scope Z_scope.

(** The coordinates of the shape [s] that are reduced to [idx] when the axes are
    dropped. *)
Definition group (s axes idx : list Z) : list (list Z) :=
  filter (fun full => if list_eq_dec Z.eq_dec (without axes 0 full) idx then true else false) (coords s).
(** The largest of a list of numbers. *)
Definition is_largest (l : list R) (m : R) : Prop := In m l /\ forall v, In v l -> (v <= m)%R.
(** The mean of a list of numbers. *)
Definition average (l : list R) : R := (lsum l / INR (length l))%R.
(** [v] is the p-norm of a list of numbers: not negative, and its p-th power is the sum of
    the p-th powers of the absolute values. *)
Definition is_norm (p : nat) (l : list R) (v : R) : Prop :=
  (0 <= v)%R /\ (v ^ p)%R = lsum (map (fun x => (Rabs x ^ p)%R) l).
(** A tensor with one entry replaced. *)
Definition with_entry (x : @tens R) (at0 : list Z) (v : R) : @tens R :=
  Tn (shp x) (fun idx => if list_eq_dec Z.eq_dec idx at0 then v else at_ x idx).
(** A tensor with a number added to all entries. *)
Definition shifted (x : @tens R) (v : R) : @tens R := Tn (shp x) (fun idx => (at_ x idx + v)%R).
(** Sum of all entries. *)
Definition total_of (x : @tens R) : R := lsum (map (at_ x) (coords (shp x))).
(** The axes meant by a list of axes: all of them if the list is empty. *)
Definition axes_of (s along : list Z) : list Z :=
  match along with [] => map Z.of_nat (seq 0 (length s)) | _ => along end.
(** The axes exist and are named once, and the shape has at least one axis and no empty one. *)
Definition reducible (s along : list Z) : Prop :=
  s <> [] /\ positive s /\ NoDup along /\ Forall (fun a => 0 <= a < Z.of_nat (length s)) along.
