(** What the watches should report, in terms of plain execution. *)
Require Import Coq.Lists.List Coq.Arith.Arith.
Require Verif.BroadcastModel.
Require Verif.ValuesModel Verif.ValuesSpec.
Require Import Verif.TapeModel.
Import ListNotations.

Section S.
Context {V : Type}.
Variable blank : V.
Variable sem : nat -> list V -> option V.
Variable caddr : nat -> nat.
Variable ns : list tnode.
Variable nid : nat -> nat.

(** Without watches the first [j] instructions all succeed and lead to [m']. *)
Definition reaches (m : mstate V) (is : list instr) (j : nat) (m' : mstate V) : Prop :=
  j <= length is /\ execAll blank sem caddr ns m (firstn j is) = (m', j).

(** Instruction [j] executes an operator for node number [id > 0] into register [w > 0] and
    leaves there the value at address [a]. *)
Definition puts (m : mstate V) (is : list instr) (j : nat) (id a : nat) (v : V) : Prop :=
  exists i rs w pre un m', nth_error is j = Some (IExec i rs w pre un) /\ id = nid i /\ 0 < w /\ 0 < id
    /\ reaches m is (S j) m' /\ regs m' w = Some a /\ v = store m' a.

(** That value does not pass the test. *)
Definition shows (chk : V -> BroadcastModel.res bool) (m : mstate V) (is : list instr) (j : nat) : Prop :=
  exists id a v, puts m is j id a v /\ chk v = BroadcastModel.Ok true.
(** The test panics at it. *)
Definition breaks (chk : V -> BroadcastModel.res bool) (m : mstate V) (is : list instr) (j : nat) : Prop :=
  exists id a v, puts m is j id a v /\ (chk v = BroadcastModel.Panic \/ chk v = BroadcastModel.Err).
(** The value is kept where that of an earlier instruction is kept. *)
Definition clashes (m : mstate V) (is : list instr) (j : nat) : Prop :=
  exists id a v j' id' v', puts m is j id a v /\ j' < j /\ puts m is j' id' a v'.
End S.

(** A floating point entry of a value satisfies a condition. *)
Inductive has {E} (isFl : ValuesModel.kind -> bool) (P : E -> Prop) : ValuesSpec.datum E -> Prop :=
| has_s : forall k x, isFl k = true -> P x -> has isFl P (ValuesSpec.DS k x)
| has_t : forall k sh xs x, isFl k = true -> In x xs -> P x -> has isFl P (ValuesSpec.DT k sh xs)
| has_v : forall v d, has isFl P v -> has isFl P (ValuesSpec.DD v d)
| has_d : forall v d, has isFl P d -> has isFl P (ValuesSpec.DD v d).
(** Values the checks can deal with: no part is nil, and scalars are floating point. *)
Fixpoint checkable {E} (isFl : ValuesModel.kind -> bool) (D : ValuesSpec.datum E) : Prop :=
  match D with
  | ValuesSpec.DNil => False
  | ValuesSpec.DS k _ => isFl k = true
  | ValuesSpec.DT _ _ _ => True
  | ValuesSpec.DD v d => checkable isFl v /\ checkable isFl d
  end.

(** The lisp machine's forward half without watches over the first [j] nodes. *)
Section L.
Context {St Nd : Type}.
Variable step : St -> Nd -> option St.
Inductive walks : St -> list Nd -> St -> Prop :=
| walks_nil : forall s, walks s [] s
| walks_cons : forall s n s' rest s'', step s n = Some s' -> walks s' rest s'' -> walks s (n :: rest) s''.
(** Node [j] is one that is checked and has NaN after its step. *)
Definition showsL (checked : Nd -> bool) (chk : St -> Nd -> BroadcastModel.res bool) (s : St) (ns : list Nd) (j : nat) : Prop :=
  exists n s', nth_error ns j = Some n /\ walks s (firstn (S j) ns) s' /\ checked n = true /\ chk s' n = BroadcastModel.Ok true.
End L.
