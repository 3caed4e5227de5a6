(** Model of the flush instructions that the code generator places for a batched
    BLAS (compile.go), and of a tape machine whose calls to the BLAS are only
    queued until a flush (vm_tape.go, noextern.go, blase/).

    CPU build: there is one device, so the cases of [addNode] for differing
    devices and for devTrans do not arise.  The rest of the compiler and of the
    machine is TapeModel.v. *)
From Coq Require Import List Arith Bool.
From Verif Require Import TapeModel.
Import ListNotations.
Local Open Scope nat_scope.

(** An instruction of TapeModel.v, or [flushInstr] (vm_tape.go:734-745). *)
Inductive finstr := FI (ins : instr) | FFlush.

(** The fields of [codegenerator] (compile.go:107-126) that decide about flushes:
    [lastWrites], [flushed], [queue] and [allocated]; nodes are positions. *)
Record cgstate := CG {
  lastW : nat -> option nat; flushed : list nat; queue : list nat; alloced : list nat }.

(** compile.go:221-223 [updateLastWrites]. *)
Definition wrote (st : cgstate) (r i : nat) : cgstate :=
  CG (updN (lastW st) r (Some i)) (flushed st) (queue st) (alloced st).

(** compile.go:225-231 [flush]. *)
Definition flushQ (st : cgstate) : cgstate :=
  CG (lastW st) (queue st ++ flushed st) [] (alloced st).

(** Membership in [cg.flushed] (compile.go:291, 457). *)
Definition isFlushed (st : cgstate) (i : nat) : bool := existsb (Nat.eqb i) (flushed st).

(** One round of the loop over the reads, compile.go:393-462: whether a flush is
    called for.  [isArg] is [op == nil] (node.go:322). *)
Definition wantsFlush (ns : list tnode) (i : nat) (st : cgstate) (r : nat) : bool :=
  match lastW st r with
  | None => false
  | Some l =>
      let t := nodeAt ns l in
      match tk t with
      | TArg | TLet | TRead | TAt => false
      | _ => textern t && negb (textern (nodeAt ns i)) && negb (isFlushed st l)
      end
  end.

(** The loop, compile.go:393-483 (the part about overwriting is in TapeModel.v). *)
Fixpoint flushReads (ns : list tnode) (i : nat) (reads : list nat) (st : cgstate)
  : list finstr * cgstate :=
  match reads with
  | [] => ([], st)
  | r :: rest =>
      if wantsFlush ns i st r then
        let '(code, st') := flushReads ns i rest (flushQ st) in (FFlush :: code, st')
      else flushReads ns i rest st
  end.

(** compile.go:347-501 [addNode]. *)
Definition addNodeF (ns : list tnode) (rs : list nat) (rg : nat -> nat)
           (st : cgstate) (i : nat) : list finstr * cgstate :=
  let t := nodeAt ns i in
  let rep := replOf rs i in
  let w := rg rep in
  let reads := map (fun c => rg (replOf rs c)) (tkids t) in
  let needAlloc := isMutable t && textern t && negb (existsb (Nat.eqb w) (alloced st)) in
  let unsafe := match tover t with
                | Some o => match nth_error reads o with
                            | Some r => Nat.eqb r w
                            | None => false
                            end
                | None => false
                end in
  let st1 := if needAlloc
             then let s := wrote st w i in
                  CG (lastW s) (flushed s) (queue s ++ [i]) (w :: alloced s)
             else st in
  let '(fl, st2) := flushReads ns i reads st1 in
  ((if needAlloc then [FI (IAlloc i w)] else []) ++ fl ++
   (if Nat.eqb i rep then [FI (IExec i reads w needAlloc unsafe)] else []),
   if Nat.eqb i rep then wrote st2 w i else st2).

(** compile.go:594-609, addArg (233-248) and addStmt (250-306; no case for atOp). *)
Definition genNodeF (ns : list tnode) (rs : list nat) (rg : nat -> nat)
           (st : cgstate) (i : nat) : list finstr * cgstate :=
  let t := nodeAt ns i in
  let w := rg (replOf rs i) in
  match tk t with
  | TArg => ([FI (ILoad i w)], wrote st w i)
  | TLet => ([FI ILet], wrote st w i)
  | TRead =>
      let ins := FI (IRead i (rg (nth 0 (tkids t) 0))) in
      if isFlushed st i then ([ins], wrote st w i)
      else ([FFlush; ins], wrote (flushQ st) w i)
  | TAt => ([], st)
  | _ => addNodeF ns rs rg st i
  end.

(** compile.go:590-638 [gen], the loop. *)
Fixpoint genFromF (ns : list tnode) (rs : list nat) (rg : nat -> nat)
         (st : cgstate) (is : list nat) : list finstr :=
  match is with
  | [] => []
  | i :: is' => let '(code, st') := genNodeF ns rs rg st i in
                code ++ genFromF ns rs rg st' is'
  end.

(** compile.go:16-60 [Compile], with the generator's maps empty (compile.go:128-144). *)
Definition compileF (ns : list tnode) (leaves : list nat) : list finstr :=
  let rs := replacements ns leaves in
  genFromF ns rs (res (regalloc ns rs (buildIntervals ns)))
           (CG (fun _ => None) [] [] []) (seq 0 (length ns)).

(** ** The machine with a queue of BLAS calls. *)
Section Batched.
Variable V : Type.
Variable blank : V.
Variable sem : nat -> list V -> option V.
Variable caddr : nat -> nat.
Variable ns : list tnode.

(** A call waiting in the queue (blase/work.go:57-66, [call]): the node it computes,
    the memory of its operands and the memory of its result.  The call holds
    pointers, not contents. *)
Record job := Job { jnode : nat; jargs : list nat; jdst : nat }.

(** The machine and the queue (vm_tape.go:15-45, noextern.go:14-19). *)
Record dstate := DS { dm : mstate V; dq : list job }.

(** Running one call. (blase/work.go:126-160 [DoWork]; the operator's meaning is [sem].
    In Go a call that cannot work is rejected when it is made; here it fails when
    it runs.) *)
Definition work1 (s : nat -> V) (j : job) : option (nat -> V) :=
  match sem (top (nodeAt ns (jnode j))) (map s (jargs j)) with
  | Some v => Some (updN s (jdst j) v)
  | None => None
  end.

(** noextern.go:49-54 [DoWork]: the calls in the order they were made, and all of
    them (what blase's DoWork does with a call that is alone is C38). *)
Fixpoint workAll (s : nat -> V) (q : list job) : option (nat -> V) :=
  match q with
  | [] => Some s
  | j :: q' => match work1 s j with Some s' => workAll s' q' | None => None end
  end.

(** The same, on the machine; the queue is empty afterwards. (vm_tape.go:737-740.) *)
Definition doWork (d : dstate) : option dstate :=
  match workAll (store (dm d)) (dq d) with
  | Some s => Some (DS (MState (regs (dm d)) s (fresh (dm d)) (bound (dm d)) (cells (dm d))) [])
  | None => None
  end.

(** Where an operator that calls the BLAS puts its result, vm_tape_nocuda.go:41-87:
    into the memory of its register if it takes preallocated memory, into new
    memory otherwise. *)
Definition target (m : mstate V) (i w : nat) (pre : bool) : option (mstate V * nat) :=
  let t := nodeAt ns i in
  if pre then
    if tpre t then
      match regs m w with
      | Some p => if tpreok t then Some (m, p) else None
      | None => None
      end
    else Some (malloc m blank)
  else
    match regs m w with
    | Some p => if tpre t && tpreok t then Some (m, p) else Some (malloc m blank)
    | None => Some (malloc m blank)
    end.

(** vm_tape_nocuda.go:19-164 for such an operator: the call is queued. *)
Definition enqueue (d : dstate) (i : nat) (rs : list nat) (w : nat) (pre : bool) : option dstate :=
  match fetch (dm d) rs with
  | None => None
  | Some args =>
      match target (dm d) i w pre with
      | None => None
      | Some (m', p) => Some (DS (bind (setReg m' w p) i p) (dq d ++ [Job i args p]))
      end
  end.

(** One instruction (vm_tape.go:584-793). *)
Definition dexec (d : dstate) (f : finstr) : option dstate :=
  match f with
  | FFlush => doWork d
  | FI (IExec i rs w pre unsafe) =>
      if textern (nodeAt ns i) then enqueue d i rs w pre
      else match exec blank sem caddr ns (dm d) (IExec i rs w pre unsafe) with
           | Some m => Some (DS m (dq d))
           | None => None
           end
  | FI ins => match exec blank sem caddr ns (dm d) ins with
              | Some m => Some (DS m (dq d))
              | None => None
              end
  end.

(** vm_tape.go:249-271, all instructions. *)
Fixpoint dexecAll (d : dstate) (fs : list finstr) : option dstate :=
  match fs with
  | [] => Some d
  | f :: fs' => match dexec d f with Some d' => dexecAll d' fs' | None => None end
  end.

(** vm_tape.go:213-247 [RunAll]: at the end the queue is worked off once more. *)
Definition runBatched (prog : list finstr) (m : mstate V) : option (mstate V) :=
  match dexecAll (DS m []) prog with
  | Some d => match doWork d with Some d' => Some (dm d') | None => None end
  | None => None
  end.
End Batched.
Arguments DS {V}. Arguments dm {V}. Arguments dq {V}. Arguments work1 {V}. Arguments workAll {V}.
Arguments doWork {V}. Arguments target {V}. Arguments enqueue {V}. Arguments dexec {V}.
Arguments dexecAll {V}. Arguments runBatched {V}.
