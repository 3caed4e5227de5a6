(** Model of the compiler to register programs and of the tape machine
    (CPU build, no CUDA, no batched BLAS).

    Go sources: compile.go, analysis.go, regalloc.go, vm_tape.go,
    vm_tape_nocuda.go.  A node is identified with its position in the sorted
    node list (after [reverseNodes], compile.go:32-35). *)
From Coq Require Import List Arith ZArith Lia Bool.
Import ListNotations.
Local Open Scope nat_scope.

(** What kind of node sits at a position: node.go:322-326 ([isArg], [isInput],
    [isConstant], [isRandom]), the statements of op_infidel.go ([letOp],
    [readOp]) and atOp, which says that it is a statement too (op_tensor.go:68). *)
Inductive tkind := TArg | TConst | TRandom | TOp | TLet | TRead | TAt.

(** The facts about a node that the compiler and the machine look at.
    - [tkids]: [node.children] (node.go:20-60), as positions;
    - [top]: names the operator (its meaning is a parameter of the machine);
    - [tptr]/[textern]/[tover]: [ReturnsPtr], [CallsExtern], [OverwritesInput]
      of the [Op] interface (op.go:44-83); a negative [OverwritesInput] is
      [None];
    - [tpre]: the operator implements [UsePreallocDoer] (op.go:143-145), [tpreok]: its
      [UsePreallocDo] accepts the offered memory (it returns an error otherwise,
      e.g. for a destination of another dtype);
    - [tunsafe]: the operator implements [UnsafeDoer];
    - [talias]: [Do] hands back the memory of this argument instead of new
      memory (reshapeOp.Do, op_tensor.go:1153-1190; Iop; concat of one);
    - [tderiv]: [derivOf] contains an input (analysis.go:281-288);
    - [thash]: [Hashcode] of the node (node.go). *)
Record tnode := TNode {
  tk : tkind; tkids : list nat; top : nat;
  tptr : bool; textern : bool; tover : option nat;
  tpre : bool; tpreok : bool; tunsafe : bool;
  talias : option nat; tderiv : bool; thash : nat }.

(** A placeholder for positions outside the list; never consulted for the
    positions of a program. (No counterpart in compile.go or analysis.go.) *)
Definition noNode : tnode :=
  TNode TConst [] 0 false false None false false false None false 0.

(** The node at a position of the sorted nodes (analysis.go:83-122, compile.go:590-638). *)
Definition nodeAt (ns : list tnode) (i : nat) : tnode := nth i ns noNode.

(** node.go:323 [isInput]. *)
Definition isInput (t : tnode) : bool :=   (* node.go:323 *)
  match tk t with TArg => true | TRandom => true | _ => false end.
(** node.go:325 [isConstant]. *)
Definition isConstant (t : tnode) : bool :=   (* node.go:325 *)
  match tk t with TConst => true | _ => false end.
(** node.go:324 [isMutable]. *)
Definition isMutable (t : tnode) : bool :=   (* node.go:324 *)
  negb (isInput t) && tptr t.

(** ** Value numbering: analysis.go:31-47 ([vn]) and 83-122 ([analyze]).
    The table maps a hash to a position; it starts with the graph's leaves, a
    later leaf replacing an earlier one with the same hash, and then grows along
    the sorted nodes. *)
Definition seedUniques (ns : list tnode) (leaves : list nat) : list (nat * nat) :=
  fold_left (fun u p => (thash (nodeAt ns p), p) :: u) leaves [].

(** The lookup in the table (analysis.go:31-47). *)
Fixpoint findHash (h : nat) (u : list (nat * nat)) : option nat :=
  match u with
  | [] => None
  | (h', p) :: u' => if Nat.eqb h' h then Some p else findHash h u'
  end.

(** The loop of analysis.go:97-101; the result lists the replacement of every
    position in order. *)
Fixpoint numberFrom (ns : list tnode) (i : nat) (rest : list tnode)
                    (u : list (nat * nat)) : list nat :=
  match rest with
  | [] => []
  | t :: rest' =>
      match findHash (thash t) u with
      | Some p => p :: numberFrom ns (S i) rest' u
      | None => i :: numberFrom ns (S i) rest' ((thash t, i) :: u)
      end
  end.

(** analysis.go:83-122. *)
Definition replacements (ns : list tnode) (leaves : list nat) : list nat :=
  numberFrom ns 0 ns (seedUniques ns leaves).

(** df.replacements[n] (analysis.go:97-101, regalloc.go:305-337). *)
Definition replOf (rs : list nat) (i : nat) : nat := nth i rs i.

(** ** Intervals: regalloc.go:13-126.  [lo]/[hi] are the fields start/end. *)
Record interval := Interval {
  lo : Z; hi : Z; ranges : list (Z * Z); uses : list Z }.

(** regalloc.go:22-28 [newInterval]. *)
Definition newInterval : interval := Interval (-1) (-1) [] [].   (* regalloc.go:22-28 *)

Definition setFrom (iv : interval) (from : Z) : interval :=   (* regalloc.go:34-38 *)
  if (lo iv =? -1)%Z || ((from <? lo iv)%Z && (0 <=? from)%Z)
  then Interval from (hi iv) (ranges iv) (uses iv) else iv.

(** regalloc.go:54-76; the panic for [to < from] cannot happen for the calls
    made by [buildIntervals] and is not modelled. *)
Definition addRange (iv : interval) (from to : Z) : interval :=
  if existsb (fun r => (fst r =? from)%Z && (snd r =? to)%Z) (ranges iv) then iv
  else
    setFrom (Interval (lo iv) (if (hi iv <? to)%Z then to else hi iv)
                      (ranges iv ++ [(from, to)]) (uses iv)) from.

(** regalloc.go:79-81 [addUsePositions]. *)
Definition addUse (iv : interval) (up : Z) : interval :=   (* regalloc.go:79-81 *)
  Interval (lo iv) (hi iv) (ranges iv) (uses iv ++ [up]).

(** regalloc.go:40-52.  [set.Ints] sorts and removes duplicates; the last
    element is the maximum. *)
Definition maxZ (l : list Z) : Z := fold_right Z.max (-1)%Z l.
(** regalloc.go:40-52 [fix]. *)
Definition fixIv (iv : interval) : interval :=
  match uses iv with
  | [] => iv
  | _ => Interval (lo iv)
           (fold_left (fun e r => if (e <? snd r)%Z then snd r else e)
                      (ranges iv) (maxZ (uses iv)))
           (ranges iv) (uses iv)
  end.

(** regalloc.go:91-97 [liveAt]. *)
Definition liveAt (iv : interval) (id : Z) : bool :=   (* regalloc.go:91-97 *)
  ((lo iv <=? id) && (id <? hi iv))%Z.

(** Assignment to the map of intervals (analysis.go:239-289). *)
Definition updI (f : nat -> interval) (i : nat) (v : interval) : nat -> interval :=
  fun j => if Nat.eqb j i then v else f j.

(** One round of the loop of analysis.go:239-289.  There is a single device, so
    [devTransChildren] and [devTransRepl] are empty. *)
Definition buildStep (ns : list tnode) (i : nat) (f : nat -> interval) : nat -> interval :=
  let t := nodeAt ns i in
  let n := Z.of_nat (length ns) in
  let p := Z.of_nat i in
  if isInput t || isConstant t then updI f i (addRange (f i) p n)
  else
    let f1 := updI f i (addRange (f i) p p) in
    let f2 := fold_left (fun g c => updI g c (addUse (g c) p)) (tkids t) f1 in
    if tderiv t then updI f2 i (addUse (f2 i) n) else f2.

(** The loop itself, from the last position down to 0. (analysis.go:239-289.) *)
Fixpoint buildLoop (ns : list tnode) (k : nat) (f : nat -> interval) : nat -> interval :=
  match k with
  | 0 => f
  | S i => buildLoop ns i (buildStep ns i f)
  end.

(** analysis.go:222-303 [buildIntervals]. *)
Definition buildIntervals (ns : list tnode) : nat -> interval :=   (* analysis.go:222-303 *)
  fun i => fixIv (buildLoop ns (length ns) (fun _ => newInterval) i).

(** ** Register allocation: regalloc.go:132-337, CPU registers only.
    [res] is the field [result] of the intervals; the zero register is the Go
    zero value.  [interval.merge] (regalloc.go:110-126) changes only the
    interval of a node that has been replaced, which is not consulted again, so
    it is left out. *)
Record rastate := RA { cpucount : nat; res : nat -> nat }.

(** Assignment to a map or slice (regalloc.go, vm_tape.go). *)
Definition updN {A} (f : nat -> A) (i : nat) (v : A) : nat -> A :=
  fun j => if Nat.eqb j i then v else f j.

(** regalloc.go:186-199: let statements among the parents of a node. *)
Definition letParents (ns : list tnode) (i : nat) : nat :=
  length (filter (fun t => match tk t with
                           | TLet => existsb (Nat.eqb i) (tkids t)
                           | _ => false
                           end) ns).

(** regalloc.go:163-262 *)
Definition allocMutableOp (ns : list tnode) (rs : list nat) (ivs : nat -> interval)
           (i : nat) (st : rastate) : nat * nat :=   (* register, new cpucount *)
  let t := nodeAt ns i in
  match tover t with
  | Some o =>
      let c := replOf rs (nth o (tkids t) 0) in
      if (Nat.eqb (letParents ns i) 1 || negb (liveAt (ivs c) (Z.of_nat i)))
         && negb (textern t)
      then (res st c, cpucount st)
      else (cpucount st, S (cpucount st))
  | None => (cpucount st, S (cpucount st))
  end.

(** regalloc.go:305-337 with allocStatement (regalloc.go:297-303): a statement gets the zero
    register.  The result is stored in the interval of the replacement. *)
Definition allocStep (ns : list tnode) (rs : list nat) (ivs : nat -> interval)
           (st : rastate) (i : nat) : rastate :=
  let t := nodeAt ns i in
  let rep := replOf rs i in
  match tk t with
  | TArg => RA (S (cpucount st)) (updN (res st) rep (cpucount st))
  | TLet | TRead | TAt => RA (cpucount st) (updN (res st) rep 0)
  | _ =>
      if tptr t then
        let '(r, c) := allocMutableOp ns rs ivs i st in RA c (updN (res st) rep r)
      else RA (S (cpucount st)) (updN (res st) rep (cpucount st))
  end.

(** regalloc.go:305-337 [alloc]. *)
Definition regalloc (ns : list tnode) (rs : list nat) (ivs : nat -> interval) : rastate :=
  fold_left (allocStep ns rs ivs) (seq 0 (length ns)) (RA 0 (fun _ => 0)).

(** ** Code generation: compile.go:106-638.  [flushInstr] (a no-op without
    batched BLAS) and [free] (a no-op on the CPU) are left out, as are the
    memory size estimates. *)
Inductive instr :=
| ILoad (i : nat) (w : nat)                       (* loadArg *)
| IAlloc (i : nat) (w : nat)                      (* alloc *)
| IExec (i : nat) (rs : list nat) (w : nat) (pre unsafe : bool)   (* execOp *)
| ILet                                            (* letInstr *)
| IRead (i : nat) (r : nat).                      (* readInstr; [i] names [into] *)

(** compile.go:347-501 ([addNode]); [al] is [cg.allocated]. *)
Definition addNode (ns : list tnode) (rs : list nat) (rg : nat -> nat)
           (al : list nat) (i : nat) : list instr * list nat :=
  let t := nodeAt ns i in
  let rep := replOf rs i in
  let w := rg rep in
  let reads := map (fun c => rg (replOf rs c)) (tkids t) in
  let needAlloc := isMutable t && textern t && negb (existsb (Nat.eqb w) al) in
  let unsafe := match tover t with
                | Some o => match nth_error reads o with
                            | Some r => Nat.eqb r w
                            | None => false
                            end
                | None => false
                end in
  ((if needAlloc then [IAlloc i w] else []) ++
   (if Nat.eqb i rep then [IExec i reads w needAlloc unsafe] else []),
   if needAlloc then w :: al else al).

(** compile.go:594-609; statements: compile.go:250-345 (their children are
    looked up without replacement; there is no case for atOp, which gets no instruction). *)
Definition genNode (ns : list tnode) (rs : list nat) (rg : nat -> nat)
           (al : list nat) (i : nat) : list instr * list nat :=
  let t := nodeAt ns i in
  match tk t with
  | TArg => ([ILoad i (rg (replOf rs i))], al)
  | TLet => ([ILet], al)
  | TRead => ([IRead i (rg (nth 0 (tkids t) 0))], al)
  | TAt => ([], al)
  | _ => addNode ns rs rg al i
  end.

(** compile.go:590-638 [gen], the loop. *)
Fixpoint genFrom (ns : list tnode) (rs : list nat) (rg : nat -> nat)
         (al : list nat) (is : list nat) : list (list instr) :=
  match is with
  | [] => []
  | i :: is' => let '(code, al') := genNode ns rs rg al i in
                code :: genFrom ns rs rg al' is'
  end.

(** The register of a node: [locMap] (compile.go:237, 486). *)
Definition locOf (ns : list tnode) (leaves : list nat) (i : nat) : nat :=
  let rs := replacements ns leaves in
  res (regalloc ns rs (buildIntervals ns)) (replOf rs i).

(** Instructions node by node ([instrMap]), and the program (compile.go:16-60
    and 621-629).  The two error cases of [Compile] (empty graph, no inputs) are
    preconditions of the theorems where they matter. *)
Definition codes (ns : list tnode) (leaves : list nat) : list (list instr) :=
  let rs := replacements ns leaves in
  genFrom ns rs (res (regalloc ns rs (buildIntervals ns))) [] (seq 0 (length ns)).

(** compile.go:16-60 [Compile]. *)
Definition compile (ns : list tnode) (leaves : list nat) : list instr :=
  List.concat (codes ns leaves).

(** ** The machine.  Memory is a store of buffers, registers and nodes point to
    buffers.  [fresh] is the next unused address. *)
Section Machine.
Variable V : Type.
(** Contents of freshly allocated memory ([makeValue], values.go:95). *)
Variable blank : V.
(** Meaning of the operators; [None] is an error returned by [Do]. *)
Variable sem : nat -> list V -> option V.
(** Memory held by the constant operators (op.go:232-293). *)
Variable caddr : nat -> nat.
Variable ns : list tnode.

(** The state of the machine (vm_tape.go:15-45). *)
Record mstate := MState {
  regs : nat -> option nat;       (* cpumem: vm_tape.go:22 *)
  store : nat -> V;
  fresh : nat;
  bound : nat -> option nat;      (* node.boundTo *)
  cells : nat -> option V }.      (* the variables behind Read *)

(** vm_tape.go:360-367 [writeValue]. *)
Definition setReg (m : mstate) (w a : nat) : mstate :=
  MState (updN (regs m) w (Some a)) (store m) (fresh m) (bound m) (cells m).
(** Writing to a Value in place (vm_tape.go, the exec methods). *)
Definition poke (m : mstate) (a : nat) (v : V) : mstate :=
  MState (regs m) (updN (store m) a v) (fresh m) (bound m) (cells m).
(** A new Value (vm_tape.go, the exec methods). *)
Definition malloc (m : mstate) (v : V) : mstate * nat :=
  (MState (regs m) (updN (store m) (fresh m) v) (S (fresh m)) (bound m) (cells m), fresh m).
(** node.bind (node.go:651-679). *)
Definition bind (m : mstate) (i a : nat) : mstate :=
  MState (regs m) (store m) (fresh m) (updN (bound m) i (Some a)) (cells m).

(** The inputs of an instruction, read from the registers (vm_tape.go:351-358). *)
Fixpoint fetch (m : mstate) (rs : list nat) : option (list nat) :=
  match rs with
  | [] => Some []
  | r :: rs' => match regs m r, fetch m rs' with
                | Some a, Some l => Some (a :: l)
                | _, _ => None
                end
  end.

(** [op.Do]: the address of the result.  A constant returns its own memory
    (op.go:248, 279). *)
Definition doOp (m : mstate) (i : nat) (args : list nat) : option (mstate * nat) :=
  let t := nodeAt ns i in
  match tk t with
  | TConst => Some (m, caddr i)
  | _ =>
    match sem (top t) (map (store m) args) with
    | None => None
    | Some v =>
        match talias t with
        | Some k => match nth_error args k with
                    | Some a => Some (m, a)
                    | None => None
                    end
        | None => Some (malloc m v)
        end
    end
  end.

(** [UsePreallocDo p]: writes the result into [p].
    (op_math.go:307-322 and the like; called by execOp, vm_tape.go.) *)
Definition preDo (m : mstate) (i p : nat) (args : list nat) : option (mstate * nat) :=
  let t := nodeAt ns i in
  if tpreok t then
    match sem (top t) (map (store m) args) with
    | None => None
    | Some v => Some (poke m p v, p)
    end
  else None.

(** [UnsafeDo]: writes into the argument named by [OverwritesInput].
    (op_math.go:323-352 and the like; called by execOp, vm_tape.go.) *)
Definition unsafeDo (m : mstate) (i : nat) (args : list nat) : option (mstate * nat) :=
  let t := nodeAt ns i in
  match tover t with
  | Some o => match nth_error args o, sem (top t) (map (store m) args) with
              | Some a, Some v => Some (poke m a v, a)
              | _, _ => None
              end
  | None => None
  end.

(** vm_tape_nocuda.go:19-164 without tracing, logging and the binding of dual
    values (the closures of lines 120-131 concern [Iop], which no code
    constructs).  A nil input makes [Do] fail. *)
Definition execOp (m : mstate) (i : nat) (rs : list nat) (w : nat)
           (pre unsafe : bool) : option mstate :=
  let t := nodeAt ns i in
  match fetch m rs with
  | None => None
  | Some args =>
      let r :=
        if pre then
          if tpre t then
            match regs m w with
            | Some p => preDo m i p args
            | None => None
            end
          else doOp m i args
        else
          match regs m w with
          | Some p =>
              if tpre t then
                match preDo m i p args with
                | Some r => Some r
                | None => doOp m i args
                end
              else doOp m i args
          | None =>
              if unsafe then
                if tunsafe t then unsafeDo m i args else doOp m i args
              else doOp m i args
          end in
      match r with
      | None => None
      | Some (m', a) => Some (bind (setReg m' w a) i a)
      end
  end.

(** The other instructions: vm_tape.go:584-626 (alloc; a register that already
    holds a value is kept: dtype and shape are those of the same node), 666-689
    (loadArg), 755 (letInstr), 773-793 (readInstr: the contents are copied). *)
Definition exec (m : mstate) (ins : instr) : option mstate :=
  match ins with
  | ILoad i w => match bound m i with
                 | Some a => Some (setReg m w a)
                 | None => None
                 end
  | IAlloc _ w => match regs m w with
                  | Some _ => Some m
                  | None => let '(m', a) := malloc m blank in Some (setReg m' w a)
                  end
  | IExec i rs w pre unsafe => execOp m i rs w pre unsafe
  | ILet => Some m
  | IRead i r => match regs m r with
                 | Some a => Some (MState (regs m) (store m) (fresh m) (bound m)
                                          (updN (cells m) i (Some (store m a))))
                 | None => None
                 end
  end.

(** vm_tape.go:258-271: execute until the end or the first error; the number of
    instructions executed is returned with the state. *)
Fixpoint execAll (m : mstate) (is : list instr) : mstate * nat :=
  match is with
  | [] => (m, 0)
  | ins :: is' => match exec m ins with
                  | None => (m, 0)
                  | Some m' => let '(m'', k) := execAll m' is' in (m'', S k)
                  end
  end.

(** A machine between calls: the state and the program counter. (vm_tape.go:15-45.) *)
Record vm := VM { vst : mstate; vpc : nat }.

(** vm_tape.go:213-347: run from the program counter; [true] is a nil error. *)
Definition runAll (prog : list instr) (v : vm) : vm * bool :=
  let '(m, k) := execAll (vst v) (skipn (vpc v) prog) in
  (VM m (vpc v + k), Nat.leb (length prog) (vpc v + k)).

(** vm_tape.go:121-134 *)
Definition reset (v : vm) : vm :=
  VM (MState (fun _ => None) (store (vst v)) (fresh (vst v)) (bound (vst v)) (cells (vst v))) 0.

(** gorgonia.go:248-297, [Let] on an input: bind a value (by reference). *)
Definition letInput (v : vm) (i a : nat) : vm := VM (bind (vst v) i a) (vpc v).

(** New memory holding a value, made by the caller. (values_utils.go; no code of the machine.) *)
Definition newValue (v : vm) (x : V) : vm * nat :=
  let '(m, a) := malloc (vst v) x in (VM m (vpc v), a).

(** The calls a user makes between creating a machine and looking at results.
    [CLet i a] binds the value at [a]; values come from [CNew] or from earlier
    results. (vm_tape.go:123-347; node.go Let.) *)
Inductive call := CRun | CReset | CNew (x : V) | CLet (i a : nat).

(** One such call (vm_tape.go:123-347). *)
Definition doCall (prog : list instr) (v : vm) (c : call) : vm :=
  match c with
  | CRun => fst (runAll prog v)
  | CReset => reset v
  | CNew x => fst (newValue v x)
  | CLet i a => letInput v i a
  end.

End Machine.

Arguments MState {V}. Arguments regs {V}. Arguments store {V}. Arguments fresh {V}.
Arguments bound {V}. Arguments cells {V}. Arguments VM {V}. Arguments vst {V}. Arguments vpc {V}.
Arguments setReg {V}. Arguments poke {V}. Arguments malloc {V}. Arguments bind {V}.
Arguments fetch {V}. Arguments doOp {V}. Arguments preDo {V}. Arguments unsafeDo {V}.
Arguments execOp {V}. Arguments exec {V}. Arguments execAll {V}. Arguments runAll {V}.
Arguments reset {V}. Arguments letInput {V}. Arguments newValue {V}.
Arguments CRun {V}. Arguments CReset {V}. Arguments CNew {V}. Arguments CLet {V}. Arguments doCall {V}.
