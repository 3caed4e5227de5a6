(** What repeating a value means, entry by entry, and what a count is.
    Independent of the model's functions. *)
From Coq Require Import ZArith QArith List Arith.
From Verif Require Import RptModel.
Import ListNotations.
Open Scope nat_scope.

(** The product of sizes. *)
Fixpoint prod (s : list nat) : nat := match s with [] => 1 | n :: r => n * prod r end.

(** [d'] are the entries of [d] with the axis of [n] entries repeated [rep]
    times: [P] the sizes before the axis, [R] those after it. *)
Definition spread (P : list nat) (n : nat) (R : list nat) (rep : nat) (d d' : list Q) : Prop :=
  length d' = prod P * (n * rep) * prod R /\
  forall o j k, o < prod P -> j < n * rep -> k < prod R ->
    nth_error d' ((o * (n * rep) + j) * prod R + k) =
    nth_error d ((o * n + j / rep) * prod R + k).

(** [z] is [q] with what follows the point cut off. *)
Definition cutOff (q : Q) (z : Z) : Prop :=
  (0 <= q)%Q /\ (inject_Z z <= q)%Q /\ (q < inject_Z (z + 1))%Q \/
  (q <= 0)%Q /\ (q <= inject_Z z)%Q /\ (inject_Z (z - 1) < q)%Q.

(** A scalar that counts [n]: an integral number of any type but booleans. *)
Definition counts (v : value) (n : Z) : Prop := exists t, t <> DB /\ v = VS t (inject_Z n).
