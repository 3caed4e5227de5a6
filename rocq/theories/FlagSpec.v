(** Specification for C116: what can happen to a lisp machine. *)
From Coq Require Import ZArith List Bool.
From Verif Require Import LispModel.
Import ListNotations.

Section History.
Context {S E : Type}.
Variable run : lm S -> lm S * E.
Variable again : lm S -> lm S.
(** [bg]: a goroutine that RunAll left behind (C12) may move the backward counter. *)
Variable bg : bool.
(** Everything done with a machine: it is new over some state of the graph, RunAll, Reset,
    and in between the user changes values. *)
Inductive history : lm S -> Prop :=
| h_new s : history (newMachine S s)
| h_run m m' e : history m -> run m = (m', e) -> history m'
| h_reset m : history m -> history (again m)
| h_user m s : history m -> history (LM (lfwd m) (lbwd m) (lq m) s)
| h_left m b : bg = true -> history m -> history (LM (lfwd m) b (lq m) (lst m)).
End History.

(** [k] calls of RunAll, each with its outcome. *)
Fixpoint calls {S E} (run : lm S -> lm S * E) (k : nat) (m : lm S) : lm S * list E :=
  match k with
  | O => (m, [])
  | Datatypes.S k' => let (m1, e) := run m in let (m2, es) := calls run k' m1 in (m2, e :: es)
  end.
