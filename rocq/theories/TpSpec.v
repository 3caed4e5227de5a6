(** What C121 says, on the instructions alone. *)
From Coq Require Import List Arith.
From Verif Require Import TpModel.
Import ListNotations.

(** The instruction gives register [r] new contents (or new memory). *)
Definition writes (r : nat) (ins : instr) : Prop :=
  match ins with
  | ILoad _ w | IAlloc _ w | ILet _ w | IRead _ _ w | ITrans _ _ w | IExec _ _ w => w = r
  | IFlush => False
  end.

(** The instruction reads or overwrites registers right away or queues work that does. *)
Definition executes (ins : instr) : Prop :=
  match ins with
  | IExec _ _ _ | IRead _ _ _ | ILet _ _ => True
  | _ => False
  end.

(** Item [j] is a transport. *)
Definition transportAt (items : list item) (j : nat) (toHost : bool) (target : nat) : Prop :=
  exists it, nth_error items j = Some it /\ nkind it = KTrans toHost target.

(** insertDeviceInstr (analysis.go:136-186) puts the transports for a node directly
    before it: from a transport [j] on there are only transports, writing other
    registers, up to the operation at [k] that reads what [j] brings. *)
Definition wantedBy (items : list item) (j k : nat) : Prop :=
  j < k /\
  (exists op, nth_error items k = Some op /\ nkind op = KOp /\ nrep op = true /\
     exists tr, nth_error items j = Some tr /\ In (nreg tr) (nreads op) /\
       (forall m it, j < m < k -> nth_error items m = Some it -> nreg it <> nreg tr)) /\
  forall m, j < m < k -> exists h t, transportAt items m h t.
