(** What KeepDims, the reductions of lists of nodes and the global average should do;
    written without the model's helpers. *)
From Coq Require Import List ZArith QArith Bool.
Import ListNotations.
Local Open Scope Z_scope.

(** A vector of more than one entry against its column or row, one way or the other. *)
Definition vectorOf (s t : list Z) : Prop := exists n, 1 < n /\ s = [n] /\ (t = [n; 1] \/ t = [1; n]).
(** [r] is [b] with axes of size one added in front, or at the end. *)
Definition padded (left : bool) (b r : list Z) : Prop :=
  exists u, Forall (fun d => d = 1) u /\ r = if left then u ++ b else b ++ u.
(** The coordinate of an entry of [b] once [n] axes have been added. *)
Definition placed (left : bool) (n : nat) (idx : list Z) : list Z := if left then repeat 0 n ++ idx else idx ++ repeat 0 n.
(** x0 * x1 * … associated to the left. *)
Fixpoint foldFrom {V} (f : V -> V -> V) (acc : V) (l : list V) : V :=
  match l with [] => acc | x :: l' => foldFrom f (f acc x) l' end.
(** f 0 + … + f (n-1). *)
Fixpoint qsum (n : nat) (f : nat -> Q) : Q := match n with O => 0%Q | S k => (qsum k f + f k)%Q end.
(** Expressions: an input, or a node made from two others that carries the options or not. *)
Inductive expr := Input (i : nat) | Made (optioned : bool) (l r : expr).
Fixpoint inputsOf (e : expr) : list nat := match e with Input i => [i] | Made _ l r => inputsOf l ++ inputsOf r end.
(** Every node made carries the options. *)
Fixpoint allOptioned (e : expr) : Prop := match e with Input _ => True | Made o l r => o = true /\ allOptioned l /\ allOptioned r end.
(** Every right operand is an input. *)
Fixpoint leftComb (e : expr) : Prop := match e with Input _ => True | Made _ l r => leftComb l /\ exists i, r = Input i end.
