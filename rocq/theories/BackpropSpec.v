(** Independent specification for C17: paths of differentiable edges and sums of
    their pullbacks. *)
From Coq Require Import Arith List Bool.
From Verif Require Import BackpropModel.
Import ListNotations.

(** An edge: a node and the position of one of its children. *)
Definition edge := (nat * nat)%type.

(** [Path nd a p b]: [p] is a path from [a] down to [b] along children with
    respect to which the operator is differentiable. *)
Inductive Path (nd : nat -> nodeInfo) : nat -> list edge -> nat -> Prop :=
| Path_nil a : Path nd a [] a
| Path_cons a i c p b :
    nth_error (children (nd a)) i = Some c ->
    nth_error (diffWRT (nd a)) i = Some true ->
    Path nd c p b ->
    Path nd a ((a, i) :: p) b.

(** Additive structure of gradient values, and for each edge the map taking the
    gradient of a node to its contribution to the gradient of a child. *)
Record gradSem (A : Type) := {
  gzero : A;
  gadd : A -> A -> A;
  pull : nat -> nat -> A -> A;
  gadd_assoc : forall a b c, gadd a (gadd b c) = gadd (gadd a b) c;
  gadd_comm : forall a b, gadd a b = gadd b a;
  gadd_0 : forall a, gadd gzero a = a;
  pull_add : forall n i a b, pull n i (gadd a b) = gadd (pull n i a) (pull n i b);
  pull_0 : forall n i, pull n i gzero = gzero
}.
Arguments gzero {A}. Arguments gadd {A}. Arguments pull {A}.

Section Spec.
Context {A : Type} (G : gradSem A).

(** Transport of a gradient along a path. *)
Fixpoint pullPath (p : list edge) (g : A) : A :=
  match p with
  | [] => g
  | (n, i) :: r => pullPath r (pull G n i g)
  end.

Fixpoint gsum (l : list A) : A :=
  match l with
  | [] => gzero G
  | x :: r => gadd G x (gsum r)
  end.

(** [v] is the sum over all paths from an output [o] with seed [seed o] to [w]
    of the seed transported along the path; every path counted exactly once. *)
Definition is_path_sum (nd : nat -> nodeInfo) (outputs : list nat) (seed : nat -> A)
  (w : nat) (v : A) : Prop :=
  exists L : list (nat * list edge),
    NoDup L /\
    (forall o p, In (o, p) L <-> In o outputs /\ Path nd o p w) /\
    v = gsum (map (fun op => pullPath (snd op) (seed (fst op))) L).
End Spec.

(** A node list in dependency order: no repetition, children come later. *)
Fixpoint topo (nd : nat -> nodeInfo) (sorted : list nat) : Prop :=
  match sorted with
  | [] => True
  | n :: rest => ~ In n rest /\ (forall c, In c (children (nd n)) -> In c rest /\ c <> n)
                 /\ topo nd rest
  end.

(** Operators are well formed: inputs have no children; an SDOp answers for each
    child; an operator that is no SDOp answers nothing. *)
Definition wf_nodes (nd : nat -> nodeInfo) : Prop :=
  forall n, (isInput (nd n) = true -> children (nd n) = []) /\
            (isInput (nd n) = false -> sdop (nd n) = true ->
               length (diffWRT (nd n)) = length (children (nd n))) /\
            (sdop (nd n) = false -> diffWRT (nd n) = []).

(** Gradient nodes stand for gradient values: [val]; adding nodes adds values;
    the operators' gradient rules are right (they give the pullbacks). *)
Record right_rules {A T : Type} (G : gradSem A) (nd : nat -> nodeInfo)
  (addT : T -> T -> option T) (symDiff : nat -> T -> option (list (option T)))
  (val : T -> A) : Prop := {
  rr_add : forall a b c, addT a b = Some c -> val c = gadd G (val a) (val b);
  rr_sym : forall n g l, symDiff n g = Some l ->
     length l = length (children (nd n)) /\
     forall i, nth_error (diffWRT (nd n)) i = Some true -> i < length (children (nd n)) ->
       exists t, nth_error l i = Some (Some t) /\ val t = pull G n i (val g)
}.
