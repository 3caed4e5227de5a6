(** Model of the flush instructions that the code generator places in CUDA builds,
    where the sorted nodes also hold device transports (compile.go).

    The register allocator is an input: every node of the sorted list comes with
    its register and the registers of its operands, as given by [intervals],
    [replacements] and [devTransChildren].  Free instructions (compile.go:503-588)
    are left out; they are no part of the question. *)
From Coq Require Import List Arith Bool.
Import ListNotations.
Local Open Scope nat_scope.

(** What [gen] makes of a node (compile.go:602-609): an argument, a Let or a Read
    statement (addStmt, compile.go:263-306), a device transport
    (compile.go:307-343; [toHost] is [op.from != CPU && op.to == CPU], [target] is
    the position of [op.toNode] in the sorted list), a statement without
    a case in addStmt, or an operation. *)
Inductive kind := KArg | KLet | KRead | KTrans (toHost : bool) (target : nat) | KStmt | KOp.

(** A node of the sorted list.  [ncard]: its operator is a CUDADoer or a CLDoer
    (compile.go:407-423); [nextern]: CallsExtern; [nmut]: isMutable (node.go:318);
    [nrep]: the node is its own replacement (compile.go:485, [node == replacement]);
    [nreads]: the registers of its children (compile.go:356-368); [nreg]: its register
    ([interv.result]).  Registers (vm_tape.go:526-529, number and device) are numbered. *)
Record item := Item { nkind : kind; ncard : bool; nextern : bool; nmut : bool; nrep : bool;
                      nreads : list nat; nreg : nat }.

(** The instructions (vm_tape.go:584-793, vm_tape_cuda.go:220-243), with the position
    of the node they were generated for.  A Let and a Read also carry the register
    that [updateLastWrites] names for them. *)
Inductive instr :=
| ILoad (i w : nat)
| IAlloc (i w : nat)
| ILet (i w : nat)
| IRead (i from w : nat)
| ITrans (i from to : nat)
| IFlush
| IExec (i : nat) (reads : list nat) (w : nat).

(** The fields of [codegenerator] (compile.go:107-126) that decide about flushes. *)
Record cgen := CGen { lastWrites : nat -> option nat; flushed : list nat;
                      queue : list nat; allocated : list nat }.

(** compile.go:221-223 [updateLastWrites]. *)
Definition updateLastWrites (st : cgen) (r i : nat) : cgen :=
  CGen (fun x => if Nat.eqb x r then Some i else lastWrites st x) (flushed st) (queue st) (allocated st).

(** compile.go:225-231 [flush]. *)
Definition flush (st : cgen) : cgen :=
  CGen (lastWrites st) (queue st ++ flushed st) [] (allocated st).

(** Membership in one of the sets (compile.go:291, 308, 331, 376, 457). *)
Definition isIn (x : nat) (l : list nat) : bool := existsb (Nat.eqb x) l.

(** A new alloc unless the register has one, compile.go:308-318 and 376-389. *)
Definition allocFor (st : cgen) (i w : nat) : list instr * cgen :=
  if isIn w (allocated st) then ([], st)
  else let s := updateLastWrites st w i in
       ([IAlloc i w], CGen (lastWrites s) (flushed s) (queue s ++ [i]) (w :: allocated s)).

(** One round of the loop over the reads, compile.go:393-462: whether a flush is added
    for an operation reading register [r].  devTrans calls extern and is a CUDADoer
    (op_infidel.go:62-84). *)
Definition wantsFlush (items : list item) (it : item) (st : cgen) (r : nat) : bool :=
  match lastWrites st r with
  | None => false
  | Some l =>
      match nth_error items l with
      | None => false
      | Some wr =>
          match nkind wr with
          | KArg | KLet | KRead | KStmt => false
          | KTrans _ _ => negb (isIn l (flushed st))
          | KOp =>
              if negb (nextern wr) then false
              else if nextern it && Bool.eqb (ncard wr) (ncard it) then false
              else negb (isIn l (flushed st))
          end
      end
  end.

(** The loop, compile.go:393-483 (without the part about overwriting operands). *)
Fixpoint flushReads (items : list item) (it : item) (rs : list nat) (st : cgen) : list instr * cgen :=
  match rs with
  | [] => ([], st)
  | r :: rest =>
      if wantsFlush items it st r then
        let '(code, st') := flushReads items it rest (flush st) in (IFlush :: code, st')
      else flushReads items it rest st
  end.

(** compile.go:347-501 [addNode]. *)
Definition addNode (items : list item) (it : item) (st : cgen) (i : nat) : list instr * cgen :=
  let '(al, st1) := if nmut it && nextern it then allocFor st i (nreg it) else ([], st) in
  let '(fl, st2) := flushReads items it (nreads it) st1 in
  (al ++ fl ++ (if nrep it then [IExec i (nreads it) (nreg it)] else []),
   if nrep it then updateLastWrites st2 (nreg it) i else st2).

(** The case of a transport in addStmt, compile.go:307-341; the panic at 321-323 is left
    out (a transport has one child, analysis.go:124-134). *)
Definition addTrans (it : item) (toHost : bool) (target : nat) (st : cgen) (i : nat) : list instr * cgen :=
  let '(al, st1) := allocFor st i (nreg it) in
  let fl := toHost && negb (isIn target (flushed st1)) in
  (al ++ ITrans i (hd 0 (nreads it)) (nreg it) :: (if fl then [IFlush] else []),
   updateLastWrites (if fl then flush st1 else st1) (nreg it) i).

(** compile.go:594-609: addArg (233-248), addStmt (250-345) or addNode. *)
Definition genItem (items : list item) (it : item) (st : cgen) (i : nat) : list instr * cgen :=
  match nkind it with
  | KArg => ([ILoad i (nreg it)], updateLastWrites st (nreg it) i)
  | KLet => ([ILet i (nreg it)], updateLastWrites st (nreg it) i)
  | KRead =>
      let ins := IRead i (hd 0 (nreads it)) (nreg it) in
      if isIn i (flushed st) then ([ins], updateLastWrites st (nreg it) i)
      else ([IFlush; ins], updateLastWrites (flush st) (nreg it) i)
  | KTrans toHost target => addTrans it toHost target st i
  | KStmt => ([], st)
  | KOp => addNode items it st i
  end.

(** compile.go:590-638 [gen]: the nodes in sorted order, [i] being the position of
    the first of [rest]. *)
Fixpoint genFrom (items rest : list item) (i : nat) (st : cgen) : list instr :=
  match rest with
  | [] => []
  | it :: rest' => let '(code, st') := genItem items it st i in code ++ genFrom items rest' (S i) st'
  end.

(** The whole program; the generator's maps start empty (compile.go:128-144). *)
Definition gen (items : list item) : list instr :=
  genFrom items items 0 (CGen (fun _ => None) [] [] []).
