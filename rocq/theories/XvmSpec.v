(** What the concurrent machine should compute: direct evaluation of the graph, and what
    it means that every execution gets somewhere. *)
From Coq Require Import List Arith ZArith Bool.
From Verif Require Import XvmModel.
Import ListNotations.
Local Open Scope nat_scope.

Section Spec.
Context {V : Type}.
Notation node := (@node V).
(** Direct evaluation: an input is its value, an operator node its operator applied to the
    values of its children in order. *)
Inductive evals (g : list node) : nat -> V -> Prop :=
  | ev_input i v cs : nth_error g i = Some (N (Input v) cs) -> evals g i v
  | ev_op i a f cs vs v : nth_error g i = Some (N (Op a f) cs) -> Forall2 (evals g) cs vs -> f vs = Some v -> evals g i v.
(** The children have values but the operator fails on them. *)
Definition failing (g : list node) (i : nat) : Prop :=
  exists a f cs vs, nth_error g i = Some (N (Op a f) cs) /\ Forall2 (evals g) cs vs /\ f vs = None.
(** No cycles among operator nodes, and every operator has as many children as it takes. *)
Definition acyclic (g : list node) : Prop :=
  exists rank : nat -> nat, forall i a f cs c, nth_error g i = Some (N (Op a f) cs) -> In c cs -> c < length g /\ rank c < rank i.
Definition saturated (g : list node) : Prop :=
  forall i a f cs, nth_error g i = Some (N (Op a f) cs) -> 1 <= a /\ a = length cs.
(** Every operator takes at least as many arguments as it has children. *)
Definition roomy (g : list node) : Prop :=
  forall i a f cs, nth_error g i = Some (N (Op a f) cs) -> 1 <= a /\ length cs <= a.
(** Buffers for the inputs have the length of the arity. *)
Definition sized (g : list node) (ins0 : nat -> list V) : Prop :=
  forall i a f cs, nth_error g i = Some (N (Op a f) cs) -> length (ins0 i) = a.

(** One step of the machine itself, not counting the caller cancelling. *)
Definition step (g : list node) (s s' : @st V) : Prop := exists l, l <> LCancel /\ fire g l s = Some s'.
(** States that can come up, with the caller cancelling at any time. *)
Inductive reachable (g : list node) : @st V -> @st V -> Prop :=
  | r_here s : reachable g s s
  | r_step s s' s'' l : reachable g s s' -> fire g l s' = Some s'' -> reachable g s s''.
(** States that can come up when the caller does not cancel. *)
Inductive reaches (g : list node) : @st V -> @st V -> Prop :=
  | w_here s : reaches g s s
  | w_step s s' s'' : reaches g s s' -> step g s' s'' -> reaches g s s''.
(** Whatever happens next, again and again, [P] holds at some point: no execution goes on
    for ever or gets stuck before. *)
Inductive inevitably (g : list node) (P : @st V -> Prop) (s : @st V) : Prop :=
  | i_now : P s -> inevitably g P s
  | i_later : (exists s', step g s s') -> (forall s', step g s s' -> inevitably g P s') -> inevitably g P s.

(** ** The same for the expression graph the machine is made from *)
Notation gnode := (@gnode V).
(** Direct evaluation of the expression graph. *)
Inductive meaning (gs : list gnode) : nat -> V -> Prop :=
  | me_input i v cs : nth_error gs i = Some (GN None v cs) -> meaning gs i v
  | me_op i a f v0 cs vs v : nth_error gs i = Some (GN (Some (a, f)) v0 cs) -> Forall2 (meaning gs) cs vs -> f vs = Some v -> meaning gs i v.
(** The operator of node [i] fails on the values of its children. *)
Definition broken (gs : list gnode) (i : nat) : Prop :=
  exists a f v0 cs vs, nth_error gs i = Some (GN (Some (a, f)) v0 cs) /\ Forall2 (meaning gs) cs vs /\ f vs = None.
(** A graph of operators, each with children, made one after the other. *)
Definition dag (gs : list gnode) : Prop :=
  exists rank : nat -> nat, forall i n c, nth_error gs i = Some n -> In c (g_children n) -> c < length gs /\ rank c < rank i.
(** Every operator says that it takes as many arguments as it has children, at least one. *)
Definition honest (gs : list gnode) : Prop :=
  forall i a f v0 cs, nth_error gs i = Some (GN (Some (a, f)) v0 cs) -> (1 <= a)%Z /\ a = Z.of_nat (length cs).
(** No operator says that it takes fewer arguments than it has children, or none. *)
Definition generous (gs : list gnode) : Prop :=
  forall i a f v0 cs, nth_error gs i = Some (GN (Some (a, f)) v0 cs) -> (1 <= a)%Z /\ (Z.of_nat (length cs) <= a)%Z.
(** The buffers for the arguments have the length the operators ask for. *)
Definition sizedFor (gs : list gnode) (ins0 : nat -> list V) : Prop :=
  forall i a f v0 cs, nth_error gs i = Some (GN (Some (a, f)) v0 cs) -> (0 <= a)%Z -> length (ins0 i) = Z.to_nat a.
End Spec.
